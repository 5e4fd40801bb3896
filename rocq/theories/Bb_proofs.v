(** Proofs about the bounding box *)
From Coq Require Import List Bool ZArith Lia ZifyBool.
From Verif Require Import Bb_model Csg3_spec Csg3_proofs Bb_spec.
Import ListNotations.

Lemma le_refl : forall a, le a a = true.
Proof. intros [|z|]; cbn; auto. lia. Qed.
Lemma le_trans : forall a b c, le a b = true -> le b c = true -> le a c = true.
Proof. intros [|a|] [|b|] [|c|]; cbn; auto; try discriminate. lia. Qed.
Lemma le_total : forall a b, le a b = false -> le b a = true.
Proof. intros [|a|] [|b|]; cbn; auto; try discriminate. lia. Qed.
Lemma get_tab : forall f i, get (tab f) i = f i.
Proof. intros f []; reflexivity. Qed.
Lemma get_min : forall a b i, get (vec3_min a b) i = if le (get a i) (get b i) then get a i else get b i.
Proof. intros. apply (get_tab (fun i => _)). Qed.
Lemma get_max : forall a b i, get (vec3_max a b) i = if le (get b i) (get a i) then get a i else get b i.
Proof. intros. apply (get_tab (fun i => _)). Qed.
Lemma min_l : forall a b i, le (get (vec3_min a b) i) (get a i) = true.
Proof. intros. rewrite get_min. destruct (le (get a i) (get b i)) eqn:E; [apply le_refl|apply le_total, E]. Qed.
Lemma min_r : forall a b i, le (get (vec3_min a b) i) (get b i) = true.
Proof. intros. rewrite get_min. destruct (le (get a i) (get b i)) eqn:E; [exact E|apply le_refl]. Qed.
Lemma max_l : forall a b i, le (get a i) (get (vec3_max a b) i) = true.
Proof. intros. rewrite get_max. destruct (le (get b i) (get a i)) eqn:E; [apply le_refl|apply le_total, E]. Qed.
Lemma max_r : forall a b i, le (get b i) (get (vec3_max a b) i) = true.
Proof. intros. rewrite get_max. destruct (le (get b i) (get a i)) eqn:E; [exact E|apply le_refl]. Qed.
Lemma min_glb : forall a b c i, le c (get a i) = true -> le c (get b i) = true -> le c (get (vec3_min a b) i) = true.
Proof. intros. rewrite get_min. destruct (le (get a i) (get b i)); assumption. Qed.
Lemma max_lub : forall a b c i, le (get a i) c = true -> le (get b i) c = true -> le (get (vec3_max a b) i) c = true.
Proof. intros. rewrite get_max. destruct (le (get b i) (get a i)); assumption. Qed.

(** Tree induction *)
Section Ind.
Variable Q : tree -> Prop.
Hypotheses (HP : forall pts n, Q (Poly pts n)) (HS : forall lo hi, Q (Sphere lo hi))
  (HA : forall l, (forall x, In x l -> Q x) -> Q (Add l))
  (HU : forall a s, (forall x, In x a -> Q x) -> (forall x, In x s -> Q x) -> Q (Sub a s))
  (HC : forall l, (forall a, In a l -> forall x, In x a -> Q x) -> Q (Cut l))
  (HX : forall l, (forall a, In a l -> forall x, In x a -> Q x) -> Q (Xor l)).
Definition in_list (ind : forall t, Q t) : forall l : list tree, forall x, In x l -> Q x.
Proof. fix go 1. intros [|y l] x I; [destruct I|]. destruct I as [E|I]; [rewrite <- E; apply ind|exact (go l x I)]. Defined.
Definition in_lists (ind : forall t, Q t) : forall l : list (list tree), forall a, In a l -> forall x, In x a -> Q x.
Proof. fix go 1. intros [|b l] a I; [destruct I|]. destruct I as [E|I]; [rewrite <- E; apply (in_list ind)|exact (go l a I)]. Defined.
Fixpoint tree_kids_ind (t : tree) : Q t :=
  match t with
  | Poly pts n => HP pts n
  | Sphere lo hi => HS lo hi
  | Add l => HA l (in_list tree_kids_ind l)
  | Sub a s => HU a s (in_list tree_kids_ind a) (in_list tree_kids_ind s)
  | Cut l => HC l (in_lists tree_kids_ind l)
  | Xor l => HX l (in_lists tree_kids_ind l)
  end.
End Ind.

Local Arguments le : simpl never.
Local Arguments get : simpl never.
Local Arguments vec3_min : simpl never.
Local Arguments vec3_max : simpl never.
Local Arguments tab : simpl never.
Section Proofs.
Variable gt : num -> num -> bool.
Hypothesis GT : forall a b, gt a b = true -> le a b = false.
Notation valid := (valid gt).
Notation get_bb := (get_bb gt).
Notation get_v := (get_bb_v get_bb).
Notation get_each := (get_bb_each get_bb).
Notation get_and := (get_bb_and gt get_bb).
Notation minmax_or := (minmax_or gt).

Lemma in_valid : forall b p, in_box b p -> valid b = true.
Proof.
  intros b p H. assert (E : forall i, gt (get (bmin b) i) (get (bmax b) i) = false).
  { intros i. destruct (gt (get (bmin b) i) (get (bmax b) i)) eqn:E; [|reflexivity]. apply GT in E. destruct (H i) as (A & B). rewrite (le_trans _ _ _ A B) in E. discriminate. }
  unfold Bb_model.valid. rewrite !E. reflexivity.
Qed.
Lemma or_in : forall a b p, in_box a p \/ in_box b p -> in_box (minmax_or a b) p.
Proof.
  intros a b p H. unfold Bb_model.minmax_or. destruct (valid a) eqn:VA; cbn [negb].
  - destruct (valid b) eqn:VB; cbn [negb].
    + intros i. cbn. destruct H as [H|H]; destruct (H i) as (A & B); split.
      * exact (le_trans _ _ _ (min_l _ _ _) A).
      * exact (le_trans _ _ _ B (max_l _ _ _)).
      * exact (le_trans _ _ _ (min_r _ _ _) A).
      * exact (le_trans _ _ _ B (max_r _ _ _)).
    + destruct H as [H|H]; [exact H|]. apply in_valid in H. congruence.
  - destruct H as [H|H]; [|exact H]. apply in_valid in H. congruence.
Qed.
Lemma and_in : forall a b p, in_box a p -> in_box b p -> in_box (minmax_and a b) p.
Proof. intros a b p HA HB i. destruct (HA i), (HB i). cbn. split; [apply max_lub|apply min_glb]; assumption. Qed.
Lemma minmax_in : forall b v p, in_box b p -> in_box (minmax b v) p.
Proof. intros b v p H i. destruct (H i). cbn. split; [exact (le_trans _ _ _ (min_l _ _ _) H0)|exact (le_trans _ _ _ H1 (max_l _ _ _))]. Qed.
Lemma fold_in : forall pts b p, in_box b p -> in_box (fold_left minmax pts b) p.
Proof. induction pts as [|v pts IH]; intros b p H; cbn; [exact H|]. apply IH, minmax_in, H. Qed.
Lemma minmax_pt : forall b v, in_box (minmax b v) v.
Proof. intros b v i. cbn. split; [apply (le_trans _ _ _ (min_r _ _ _)); rewrite get_tab; apply le_refl|refine (le_trans _ _ _ _ (max_r _ _ _)); rewrite get_tab; apply le_refl]. Qed.
Lemma fold_pt : forall pts b v, In v pts -> in_box (fold_left minmax pts b) v.
Proof. induction pts as [|w pts IH]; intros b v I; [destruct I|]. cbn. destruct I as [->|I]; [apply fold_in, minmax_pt|apply IH, I]. Qed.

(** What is in stays in *)
Definition keeps (t : tree) : Prop := forall bb max p, no_sphere t -> in_box bb p -> in_box (get_bb bb t max) p.
Lemma v_keeps : forall l bb max p, (forall x, In x l -> keeps x) -> every no_sphere l -> in_box bb p -> in_box (get_v max bb l) p.
Proof.
  induction l as [|x l IH]; intros bb max p K N H; cbn; [exact H|]. destruct N as (N1 & N2).
  apply IH; [intros; apply K; right; assumption|exact N2|]. apply K; [left; reflexivity|exact N1|exact H].
Qed.
Lemma each_keeps : forall l bb max p, (forall a, In a l -> forall x, In x a -> keeps x) -> every (fun a => every no_sphere a) l -> in_box bb p -> in_box (get_each max bb l) p.
Proof.
  induction l as [|x l IH]; intros bb max p K N H; cbn [get_bb_each]; [exact H|]. destruct N as (N1 & N2).
  apply IH; [intros a I; exact (K a (or_intror I))|exact N2|]. apply v_keeps; [apply K; left; reflexivity|exact N1|exact H].
Qed.
Lemma all_keep : forall t, keeps t.
Proof.
  apply tree_kids_ind; unfold keeps.
  - intros pts n bb max p _ H. cbn. unfold get_bb_poly3. destruct (_ || _); [exact H|]. apply fold_in, H.
  - intros lo hi bb max p []. 
  - intros l K bb max p N H. cbn in *. apply v_keeps; assumption.
  - intros a s KA KS bb max p (N1 & N2) H. cbn. destruct max; repeat (apply v_keeps; try assumption).
  - intros l K bb max p N H. cbn. destruct l as [|x l]; [exact H|]. destruct max; [apply each_keeps; assumption|]. apply or_in. left. exact H.
  - intros l K bb max p N H. cbn. apply each_keeps; assumption.
Qed.

Section Sem.
Variables (poly : list point -> nat -> point -> Prop) (sphere : vec -> vec -> point -> Prop).
Hypothesis S : solids poly sphere.
Notation sem := (sem poly sphere).
Notation parts := (parts poly sphere).

Lemma poly_in : forall bb pts n p, poly pts n p -> in_box (get_bb_poly3 bb pts n) p.
Proof.
  intros bb pts n p H. destruct (poly_size _ _ S _ _ _ H) as (A & B). unfold get_bb_poly3.
  replace ((length pts <? 4) || (n <? 4)) with false by (symmetry; lia). intros i.
  destruct (poly_between _ _ S _ _ _ H i) as (v & w & IV & IW & C).
  destruct (fold_pt pts bb v IV i) as (E1 & _). destruct (fold_pt pts bb w IW i) as (_ & E2). split.
  - eapply le_trans; [exact E1|]. unfold le. lia.
  - eapply le_trans; [|exact E2]. unfold le. lia.
Qed.

Definition covers (F : tree -> point -> Prop) (max : bool) (t : tree) : Prop := forall bb p, no_sphere t -> F t p -> in_box (get_bb bb t max) p.
Lemma v_covers : forall F max l bb p, (forall x, In x l -> covers F max x) -> every no_sphere l -> any (fun t => F t p) l -> in_box (get_v max bb l) p.
Proof.
  induction l as [|x l IH]; intros bb p K N H; [destruct H|]. cbn. destruct N as (N1 & N2). destruct H as [H|H].
  - apply v_keeps; [intros; apply all_keep|exact N2|]. apply K; [left; reflexivity|exact N1|exact H].
  - apply IH; [intros; apply K; right; assumption|exact N2|exact H].
Qed.
Lemma each_covers : forall F max l bb p, (forall a, In a l -> forall x, In x a -> covers F max x) -> every (fun a => every no_sphere a) l ->
  any (fun a => any (fun t => F t p) a) l -> in_box (get_each max bb l) p.
Proof.
  induction l as [|x l IH]; intros bb p K N H; [destruct H|]. cbn [get_bb_each]. destruct N as (N1 & N2). destruct H as [H|H].
  - apply each_keeps; [intros; apply all_keep|exact N2|]. apply (v_covers F); [apply K; left; reflexivity|exact N1|exact H].
  - apply IH; [intros a I; exact (K a (or_intror I))|exact N2|exact H].
Qed.
Lemma and_covers : forall l bb2 p, (forall a, In a l -> forall x, In x a -> covers sem false x) -> every (fun a => every no_sphere a) l ->
  every (fun a => any (fun t => sem t p) a) l -> in_box bb2 p -> in_box (get_and bb2 l) p.
Proof.
  induction l as [|x l IH]; intros bb2 p K N H HB; cbn [get_bb_and]; [exact HB|]. destruct N as (N1 & N2), H as (H1 & H2).
  assert (G : in_box (minmax_and bb2 (get_v false EMPTY x)) p).
  { apply and_in; [exact HB|]. apply (v_covers sem); [apply K; left; reflexivity|exact N1|exact H1]. }
  rewrite (in_valid _ _ G). cbn [negb]. apply IH; [intros a I; exact (K a (or_intror I))|exact N2|exact H2|exact G].
Qed.
Lemma odd_any : forall {A} (f : A -> Prop) l, odd f l -> any f l.
Proof. induction l as [|x l IH]; cbn; [tauto|]. intros [(H & _)|(_ & H)]; [left; exact H|right; apply IH, H]. Qed.
Lemma full_in : forall p, in_box FULL p.
Proof. intros p []; split; reflexivity. Qed.
Lemma sem_covers : forall t, covers sem false t.
Proof.
  apply tree_kids_ind; unfold covers.
  - intros pts n bb p _ H. cbn. apply poly_in, H.
  - intros lo hi bb p [].
  - intros l K bb p N H. cbn in *. apply (v_covers sem); assumption.
  - intros a s KA KS bb p (N1 & N2) (H & _). cbn. apply (v_covers sem); assumption.
  - intros l K bb p N (NE & H). cbn. destruct l as [|x l]; [congruence|]. apply or_in. right.
    destruct N as (N1 & N2), H as (H1 & H2). apply and_covers; [intros a I; exact (K a (or_intror I))|exact N2|exact H2|apply full_in].
  - intros l K bb p N H. cbn. apply (each_covers sem); [exact K|exact N|]. apply odd_any. exact H.
Qed.
Lemma parts_cover : forall t, covers parts true t.
Proof.
  apply tree_kids_ind; unfold covers.
  - intros pts n bb p _ H. cbn. apply poly_in, H.
  - intros lo hi bb p [].
  - intros l K bb p N H. cbn in *. apply (v_covers parts); assumption.
  - intros a s KA KS bb p (N1 & N2) H. cbn. destruct H as [H|H].
    + apply v_keeps; [intros; apply all_keep|exact N2|]. apply (v_covers parts); assumption.
    + apply (v_covers parts); assumption.
  - intros l K bb p N H. cbn. destruct l as [|x l]; [destruct H|]. apply (each_covers parts); assumption.
  - intros l K bb p N H. cbn. apply (each_covers parts); assumption.
Qed.
End Sem.

(** ** Not larger than needed *)
Lemma within_or : forall a b B, within a B -> within b B -> within (minmax_or a b) B.
Proof.
  intros a b B HA HB. unfold Bb_model.minmax_or. destruct (valid a); cbn [negb]; [|exact HB]. destruct (valid b); cbn [negb]; [|exact HA].
  intros i. destruct (HA i), (HB i). cbn. split; [apply min_glb|apply max_lub]; assumption.
Qed.
Lemma within_and_r : forall a b B, within b B -> within (minmax_and a b) B.
Proof. intros a b B HB i. destruct (HB i). cbn. split; [exact (le_trans _ _ _ H (max_r _ _ _))|exact (le_trans _ _ _ (min_r _ _ _) H0)]. Qed.
Lemma within_and_l : forall a b B, within a B -> within (minmax_and a b) B.
Proof. intros a b B HB i. destruct (HB i). cbn. split; [exact (le_trans _ _ _ H (max_l _ _ _))|exact (le_trans _ _ _ (min_l _ _ _) H0)]. Qed.
Lemma within_empty : forall B, within EMPTY B.
Proof. intros B i. cbn. rewrite !get_tab. split; [destruct (get (bmin B) i); reflexivity|destruct (get (bmax B) i); reflexivity]. Qed.
Lemma within_fold : forall pts bb B, (forall v, In v pts -> in_box B v) -> within bb B -> within (fold_left minmax pts bb) B.
Proof.
  induction pts as [|v pts IH]; intros bb B H W; cbn; [exact W|]. apply IH; [intros; apply H; right; assumption|].
  intros i. destruct (W i), (H v (or_introl eq_refl) i). cbn. split; [apply min_glb|apply max_lub]; rewrite ?get_tab; assumption.
Qed.
Definition small (max : bool) (t : tree) : Prop := forall bb B, no_sphere t -> cuts_ok t -> (forall v, In v (corners max t) -> in_box B v) -> within bb B -> within (get_bb bb t max) B.
Lemma v_small : forall max l bb B, (forall x, In x l -> small max x) -> every no_sphere l -> every cuts_ok l ->
  (forall v, In v (flat_map (corners max) l) -> in_box B v) -> within bb B -> within (get_v max bb l) B.
Proof.
  induction l as [|x l IH]; intros bb B K N C H W; cbn; [exact W|]. destruct N as (N1 & N2), C as (C1 & C2). cbn in H.
  apply IH; [intros; apply K; right; assumption|exact N2|exact C2|intros v I; apply H, in_or_app; right; exact I|].
  apply K; [left; reflexivity|exact N1|exact C1|intros v I; apply H, in_or_app; left; exact I|exact W].
Qed.
Lemma each_small : forall max l bb B, (forall a, In a l -> forall x, In x a -> small max x) -> every (fun a => every no_sphere a) l -> every (fun a => every cuts_ok a) l ->
  (forall v, In v (flat_map (fun a => flat_map (corners max) a) l) -> in_box B v) -> within bb B -> within (get_each max bb l) B.
Proof.
  induction l as [|x l IH]; intros bb B K N C H W; cbn [get_bb_each]; [exact W|]. destruct N as (N1 & N2), C as (C1 & C2). cbn in H.
  apply IH; [intros a I; exact (K a (or_intror I))|exact N2|exact C2|intros v I; apply H, in_or_app; right; exact I|].
  apply v_small; [apply K; left; reflexivity|exact N1|exact C1|intros v I; apply H, in_or_app; left; exact I|exact W].
Qed.
Lemma and_small : forall l bb2 B, (forall a, In a l -> forall x, In x a -> small false x) -> every (fun a => every no_sphere a) l -> every (fun a => every cuts_ok a) l ->
  (forall v, In v (flat_map (fun a => flat_map (corners false) a) l) -> in_box B v) -> (within bb2 B \/ l <> []) -> within (get_and bb2 l) B.
Proof.
  induction l as [|x l IH]; intros bb2 B K N C H W; cbn [get_bb_and]; [destruct W as [W|W]; [exact W|congruence]|]. destruct N as (N1 & N2), C as (C1 & C2). cbn in H.
  assert (G : within (minmax_and bb2 (get_v false EMPTY x)) B).
  { apply within_and_r. apply v_small; [apply K; left; reflexivity|exact N1|exact C1|intros v I; apply H, in_or_app; left; exact I|apply within_empty]. }
  destruct (valid (minmax_and bb2 (get_v false EMPTY x))); cbn [negb]; [|exact G].
  apply IH; [intros a I; exact (K a (or_intror I))|exact N2|exact C2|intros v I; apply H, in_or_app; right; exact I|left; exact G].
Qed.
Lemma all_small : forall max t, small max t.
Proof.
  intros max. apply tree_kids_ind; unfold small.
  - intros pts n bb B _ _ H W. cbn in *. unfold get_bb_poly3. destruct (_ || _); [exact W|]. apply within_fold; assumption.
  - intros lo hi bb B [].
  - intros l K bb B N C H W. cbn in *. apply v_small; assumption.
  - intros a s KA KS bb B (N1 & N2) (C1 & C2) H W. cbn in *.
    assert (G : within (get_v max bb a) B) by (apply v_small; try assumption; intros v I; apply H, in_or_app; left; exact I).
    destruct max; [|exact G]. apply v_small; try assumption. intros v I; apply H, in_or_app; right; exact I.
  - intros l K bb B N (C0 & C) H W. cbn in *. destruct l as [|x l]; [exact W|]. destruct max; [apply each_small; assumption|].
    apply within_or; [exact W|]. destruct N as (N1 & N2), C as (C1 & C2). cbn in H.
    apply and_small; [intros a I; exact (K a (or_intror I))|exact N2|exact C2|intros v I; apply H, in_or_app; right; exact I|].
    right. intros E. subst l. cbn in C0. congruence.
  - intros l K bb B N C H W. cbn in *. apply each_small; assumption.
Qed.
(** All corners are inside *)
Definition cornered (t : tree) : Prop := forall bb v, no_sphere t -> In v (corners true t) -> in_box (get_bb bb t true) v.
Lemma v_cornered : forall l bb v, (forall x, In x l -> cornered x) -> every no_sphere l -> In v (flat_map (corners true) l) -> in_box (get_v true bb l) v.
Proof.
  induction l as [|x l IH]; intros bb v K N H; cbn in *; [destruct H|]. destruct N as (N1 & N2). apply in_app_or in H. destruct H as [H|H].
  - apply v_keeps; [intros; apply all_keep|exact N2|]. apply K; [left; reflexivity|exact N1|exact H].
  - apply IH; [intros; apply K; right; assumption|exact N2|exact H].
Qed.
Lemma each_cornered : forall l bb v, (forall a, In a l -> forall x, In x a -> cornered x) -> every (fun a => every no_sphere a) l ->
  In v (flat_map (fun a => flat_map (corners true) a) l) -> in_box (get_each true bb l) v.
Proof.
  induction l as [|x l IH]; intros bb v K N H; cbn [get_bb_each flat_map] in *; [destruct H|]. destruct N as (N1 & N2). apply in_app_or in H. destruct H as [H|H].
  - apply each_keeps; [intros; apply all_keep|exact N2|]. apply v_cornered; [apply K; left; reflexivity|exact N1|exact H].
  - apply IH; [intros a I; exact (K a (or_intror I))|exact N2|exact H].
Qed.
Lemma all_cornered : forall t, cornered t.
Proof.
  apply tree_kids_ind; unfold cornered.
  - intros pts n bb v _ H. cbn in *. unfold get_bb_poly3. destruct (_ || _); [destruct H|]. apply fold_pt, H.
  - intros lo hi bb v [].
  - intros l K bb v N H. cbn in *. apply v_cornered; assumption.
  - intros a s KA KS bb v (N1 & N2) H. cbn in *. apply in_app_or in H. destruct H as [H|H].
    + apply v_keeps; [intros; apply all_keep|exact N2|]. apply v_cornered; assumption.
    + apply v_cornered; assumption.
  - intros l K bb v N H. cbn in *. destruct l as [|x l]; [destruct H|]. apply each_cornered; assumption.
  - intros l K bb v N H. cbn in *. apply each_cornered; assumption.
Qed.
Lemma within_in : forall b B p, within b B -> in_box b p -> in_box B p.
Proof. intros b B p W H i. destruct (W i), (H i). split; [exact (le_trans _ _ _ H0 H2)|exact (le_trans _ _ _ H3 H1)]. Qed.
End Proofs.
