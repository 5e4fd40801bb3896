(** Filling one layer of a tree of stacks. *)
From Coq Require Import List Arith Bool Lia.
From Verif Require Import Bitmap_model Lazy_model Lazy_spec Layer_model Layer_spec.
Import ListNotations.

Section Put.
Context {A : Type}.

Lemma put_length (l : list A) i x : length (put l i x) = length l.
Proof. revert i. induction l; intros [|i]; cbn; auto. Qed.

Lemma put_same (l : list A) i x : i < length l -> nth_error (put l i x) i = Some x.
Proof. revert i. induction l; intros [|i] H; cbn in *; try lia; [reflexivity|]. apply IHl. lia. Qed.

Lemma put_other (l : list A) i j x : i <> j -> nth_error (put l i x) j = nth_error l j.
Proof. revert i j. induction l; intros [|i] [|j] H; cbn; auto; try lia. Qed.

End Put.

Section Proofs.

Variables obj zt region point : Type.
Variable slice : obj -> zt -> option region.
Variable solid_in : obj -> zt -> point -> bool.
Variable region_in : region -> point -> bool.
Hypothesis slice_ok : slice_correct obj zt region point solid_in region_in slice.

Notation csg3 := (csg3 obj).
Notation tree := (tree obj region).
Notation layer := (layer region).
Notation csg3_in := (csg3_in obj zt point solid_in).
Notation csg_in := (csg_in region point region_in).
Notation csg_ok := (csg_ok region).
Notation add_layer := (add_layer obj zt region slice).
Notation to_csg := (to_csg obj region).

Section Ind3.
Variable P : csg3 -> Prop.
Hypothesis Ho : forall o, P (T3Obj _ o).
Hypothesis Ha : forall l, Forall P l -> P (T3Add _ l).
Hypothesis Hs : forall l m, Forall P l -> Forall P m -> P (T3Sub _ l m).
Hypothesis Hc : forall l, Forall (Forall P) l -> P (T3Cut _ l).
Hypothesis Hx : forall l, Forall (Forall P) l -> P (T3Xor _ l).

Fixpoint csg3_ind' (a : csg3) : P a :=
  let fix go (l : list csg3) : Forall P l :=
    match l with [] => Forall_nil _ | x :: l' => Forall_cons _ (csg3_ind' x) (go l') end in
  let fix gos (l : list (list csg3)) : Forall (Forall P) l :=
    match l with [] => Forall_nil _ | x :: l' => Forall_cons _ (go x) (gos l') end in
  match a with
  | T3Obj _ o => Ho o
  | T3Add _ l => Ha l (go l)
  | T3Sub _ l m => Hs l m (go l) (go m)
  | T3Cut _ l => Hc l (gos l)
  | T3Xor _ l => Hx l (gos l)
  end.
End Ind3.

Section Ind2.
Variable P : tree -> Prop.
Hypothesis Ho : forall o i ls, P (TStack _ _ o i ls).
Hypothesis Ha : forall l, Forall P l -> P (TAdd _ _ l).
Hypothesis Hs : forall l m, Forall P l -> Forall P m -> P (TSub _ _ l m).
Hypothesis Hc : forall l, Forall (Forall P) l -> P (TCut _ _ l).
Hypothesis Hx : forall l, Forall (Forall P) l -> P (TXor _ _ l).

Fixpoint tree_ind' (a : tree) : P a :=
  let fix go (l : list tree) : Forall P l :=
    match l with [] => Forall_nil _ | x :: l' => Forall_cons _ (tree_ind' x) (go l') end in
  let fix gos (l : list (list tree)) : Forall (Forall P) l :=
    match l with [] => Forall_nil _ | x :: l' => Forall_cons _ (go x) (gos l') end in
  match a with
  | TStack _ _ o i ls => Ho o i ls
  | TAdd _ _ l => Ha l (go l)
  | TSub _ _ l m => Hs l m (go l) (go m)
  | TCut _ _ l => Hc l (gos l)
  | TXor _ _ l => Hx l (gos l)
  end.
End Ind2.

(** *** The flag is only ever set *)
Section Step.
Variables (z : zt) (zi : nat).

Definition flag (t : tree) : bool := fst (add_layer z zi t false).
Definition step (t : tree) : tree := snd (add_layer z zi t false).
Definition flags (l : list tree) : bool := existsb flag l.
Definition steps (l : list tree) : list tree := map step l.

Lemma each_pure {A} (f : A -> bool -> bool * A) (fl : A -> bool) (st : A -> A) l :
  Forall (fun x => forall no, f x no = (no || fl x, st x)) l ->
  forall no, each f l no = (no || existsb fl l, map st l).
Proof.
  induction 1 as [|x l H _ IH]; intros no; cbn.
  - now rewrite orb_false_r.
  - rewrite H, IH, orb_assoc. reflexivity.
Qed.

Lemma Forall_true {A} (P : A -> Prop) l : (forall x, P x) -> Forall P l.
Proof. intros H. apply Forall_forall. auto. Qed.

Lemma add_layer_pure t : forall no, add_layer z zi t no = (no || flag t, step t).
Proof.
  unfold flag, step.
  induction t as [o i ls|l H|l m H H'|l H|l H] using tree_ind'; intros no; cbn.
  - unfold add_stack. destruct (get_layer _ _ _ _); cbn; [reflexivity|now rewrite orb_false_r].
  - rewrite !(each_pure _ flag step l H). reflexivity.
  - rewrite !(each_pure _ flag step l H). cbn [orb].
    destruct (existsb flag l).
    + rewrite !(each_pure _ flag step m H'). cbn. now rewrite orb_true_r.
    + cbn. now rewrite orb_false_r.
  - assert (H1 : Forall (fun x => forall no, each (add_layer z zi) x no = (no || flags x, steps x)) l).
    { eapply Forall_impl; [|exact H]. intros x Hx. apply each_pure. exact Hx. }
    rewrite !(each_pure _ flags steps l H1). reflexivity.
  - assert (H1 : Forall (fun x => forall no, each (add_layer z zi) x no = (no || flags x, steps x)) l).
    { eapply Forall_impl; [|exact H]. intros x Hx. apply each_pure. exact Hx. }
    rewrite !(each_pure _ flags steps l H1). reflexivity.
Qed.

Lemma each_add l no : each (add_layer z zi) l no = (no || flags l, steps l).
Proof. apply each_pure. apply Forall_true. apply add_layer_pure. Qed.

Lemma each_adds l no : each (each (add_layer z zi)) l no = (no || existsb flags l, map steps l).
Proof. apply each_pure. apply Forall_true. apply each_add. Qed.

Lemma flag_add l : flag (TAdd _ _ l) = flags l.
Proof. unfold flag. cbn. rewrite each_add. reflexivity. Qed.
Lemma step_add l : step (TAdd _ _ l) = TAdd _ _ (steps l).
Proof. unfold step. cbn. rewrite each_add. reflexivity. Qed.
Lemma flag_cut l : flag (TCut _ _ l) = existsb flags l.
Proof. unfold flag. cbn. rewrite each_adds. reflexivity. Qed.
Lemma step_cut l : step (TCut _ _ l) = TCut _ _ (map steps l).
Proof. unfold step. cbn. rewrite each_adds. reflexivity. Qed.
Lemma flag_xor l : flag (TXor _ _ l) = existsb flags l.
Proof. unfold flag. cbn. rewrite each_adds. reflexivity. Qed.
Lemma step_xor l : step (TXor _ _ l) = TXor _ _ (map steps l).
Proof. unfold step. cbn. rewrite each_adds. reflexivity. Qed.
Lemma flag_sub l m : flag (TSub _ _ l m) = flags l.
Proof. unfold flag. cbn. rewrite !each_add. cbn. destruct (flags l); reflexivity. Qed.
Lemma step_sub l m : step (TSub _ _ l m) = TSub _ _ (steps l) (if flags l then steps m else m).
Proof. unfold step. cbn. rewrite !each_add. cbn. destruct (flags l); reflexivity. Qed.

End Step.

(** *** Trees that match a 3D tree, with a condition on the stacks *)
Section Rel.
Variable Q : obj -> nat -> list layer -> Prop.

Inductive rel : csg3 -> tree -> Prop :=
  | rel_obj o i ls : Q o i ls -> rel (T3Obj _ o) (TStack _ _ o i ls)
  | rel_add l m : Forall2 rel l m -> rel (T3Add _ l) (TAdd _ _ m)
  | rel_sub l m l' m' : Forall2 rel l m -> Forall2 rel l' m' -> rel (T3Sub _ l l') (TSub _ _ m m')
  | rel_cut l m : Forall2 (Forall2 rel) l m -> rel (T3Cut _ l) (TCut _ _ m)
  | rel_xor l m : Forall2 (Forall2 rel) l m -> rel (T3Xor _ l) (TXor _ _ m).
End Rel.

Lemma Forall2_map_r {A B} (R R' : A -> B -> Prop) (f : B -> B) l : forall m,
  Forall (fun x => forall y, R x y -> R' x (f y)) l -> Forall2 R l m -> Forall2 R' l (map f m).
Proof.
  induction l; intros m H F; inversion F; subst; cbn; constructor; inversion H; subst; auto.
Qed.

(** the layer was not processed *)
Definition fresh (zi : nat) (o : obj) (i : nat) (ls : list layer) : Prop :=
  i = 0 /\ nth_error ls zi = Some (0, None).

Lemma from_csg3_rel cnt (Q : obj -> nat -> list layer -> Prop) (d : csg3) :
  (forall o, Q o 0 (repeat (0, None) cnt)) -> rel Q d (from_csg3 obj region cnt d).
Proof.
  intros HQ. induction d as [o|l H|l m H H'|l H|l H] using csg3_ind'; cbn; constructor; auto.
  - induction H; cbn; constructor; auto.
  - induction H; cbn; constructor; auto.
  - induction H'; cbn; constructor; auto.
  - induction H as [|x l Hx _ IH]; cbn; constructor; auto.
    clear IH. induction Hx; cbn; constructor; auto.
  - induction H as [|x l Hx _ IH]; cbn; constructor; auto.
    clear IH. induction Hx; cbn; constructor; auto.
Qed.

Lemma step_rel z zi (Q : obj -> nat -> list layer -> Prop) :
  (forall o i ls, Q o i ls -> exists ls', step z zi (TStack _ _ o i ls) = TStack _ _ o i ls' /\ Q o i ls') ->
  forall d t, rel Q d t -> rel Q d (step z zi t).
Proof.
  intros HQ d. induction d as [o|l H|l m H H'|l H|l H] using csg3_ind'; intros t R; inversion R; subst.
  - match goal with H : Q _ _ _ |- _ => destruct (HQ _ _ _ H) as (ls' & -> & Q') end. now constructor.
  - rewrite step_add. constructor. eapply Forall2_map_r; eauto.
  - rewrite step_sub. constructor; [eapply Forall2_map_r; eauto|].
    destruct (flags _ _ _); [eapply Forall2_map_r; eauto|assumption].
  - rewrite step_cut. constructor. eapply Forall2_map_r; [|eassumption].
    eapply Forall_impl; [|exact H]. cbn. intros x Hx y F. eapply Forall2_map_r; eauto.
  - rewrite step_xor. constructor. eapply Forall2_map_r; [|eassumption].
    eapply Forall_impl; [|exact H]. cbn. intros x Hx y F. eapply Forall2_map_r; eauto.
Qed.

Lemma step_stack z zi o ls :
  exists ls', step z zi (TStack _ _ o 0 ls) = TStack _ _ o 0 ls' /\
              forall zj, zj <> zi -> nth_error ls' zj = nth_error ls zj.
Proof.
  unfold step. cbn. unfold add_stack, get_layer. cbn [Nat.leb negb]. rewrite Nat.sub_0_r.
  destruct (zi <? length ls) eqn:L; cbn.
  - eexists. split; [reflexivity|]. intros zj Hj. apply put_other. congruence.
  - exists ls. auto.
Qed.

Lemma step_fresh z zi zj d t : zi <> zj -> rel (fresh zj) d t -> rel (fresh zj) d (step z zi t).
Proof.
  intros Hij. apply step_rel. intros o i ls [-> E].
  destruct (step_stack z zi o ls) as (ls' & E1 & E2). exists ls'. split; [exact E1|].
  split; [reflexivity|]. rewrite E2; auto.
Qed.

Definition at0 (o : obj) (i : nat) (ls : list layer) : Prop := i = 0.

Lemma step_at0 z zi d t : rel at0 d t -> rel at0 d (step z zi t).
Proof.
  apply step_rel. intros o i ls ->. destruct (step_stack z zi o ls) as (ls' & E1 & _).
  exists ls'. split; [exact E1|reflexivity].
Qed.

(** *** Other layers keep their meaning *)
Lemma forallb_map_eq {A B} (f : B -> bool) (g : A -> B) (h : A -> A) l :
  Forall (fun x => f (g (h x)) = f (g x)) l ->
  forallb f (map g (map h l)) = forallb f (map g l).
Proof. induction 1; cbn; congruence. Qed.

Lemma existsb_map_eq {A B} (f : B -> bool) (g : A -> B) (h : A -> A) l :
  Forall (fun x => f (g (h x)) = f (g x)) l ->
  existsb f (map g (map h l)) = existsb f (map g l).
Proof. induction 1; cbn; congruence. Qed.

Lemma map_map_eq {A B C} (f : B -> C) (g : A -> B) (h : A -> A) l :
  Forall (fun x => f (g (h x)) = f (g x)) l ->
  map f (map g (map h l)) = map f (map g l).
Proof. induction 1; cbn; congruence. Qed.

Lemma rel_Forall {P : tree -> Prop} Q l m :
  Forall (fun d => forall t, rel Q d t -> P t) l -> Forall2 (rel Q) l m -> Forall P m.
Proof. intros H F. induction F; inversion H; subst; constructor; auto. Qed.

Lemma rel_Forall2 {P : tree -> Prop} Q l m :
  Forall (Forall (fun d => forall t, rel Q d t -> P t)) l -> Forall2 (Forall2 (rel Q)) l m -> Forall (Forall P) m.
Proof. intros H F. induction F; inversion H; subst; constructor; eauto using rel_Forall. Qed.

Lemma ok_stack zj i ls o : csg_ok zj (to_csg (TStack _ _ o i ls)) =
  match nth_error ls (zj - i) with
  | Some (lzi, _) => (lzi =? 0) || (lzi =? zj)
  | None => true
  end.
Proof.
  cbn. rewrite map_map, nth_error_map. destruct (nth_error ls (zj - i)) as [[lzi [rs|]]|]; cbn; auto.
  replace (forallb _ _) with true; [apply andb_true_r|]. symmetry. apply forallb_forall. intros x Hx.
  apply in_map_iff in Hx. destruct Hx as (r & <- & _). reflexivity.
Qed.

Lemma in_stack zj p i ls o : csg_in zj p (to_csg (TStack _ _ o i ls)) =
  match nth_error ls (zj - i) with
  | Some (lzi, Some rs) => (i <=? zj) && ((lzi =? zj) && existsb (fun r => region_in r p) rs)
  | _ => false
  end.
Proof.
  cbn. rewrite map_map, nth_error_map. destruct (nth_error ls (zj - i)) as [[lzi [rs|]]|]; cbn; auto.
  - do 2 f_equal. induction rs; cbn; congruence.
  - apply andb_false_r.
Qed.

Lemma step_other_ok z zi zj : zj <> zi -> forall d t, rel at0 d t ->
  csg_ok zj (to_csg (step z zi t)) = csg_ok zj (to_csg t).
Proof.
  intros Hij d. induction d as [o|l H|l m H H'|l H|l H] using csg3_ind'; intros t R; inversion R; subst.
  - match goal with H : at0 _ _ _ |- _ => red in H; subst end. destruct (step_stack z zi o ls) as (ls' & -> & E). rewrite !ok_stack.
    rewrite Nat.sub_0_r, (E zj Hij). reflexivity.
  - rewrite step_add. cbn. apply forallb_map_eq. eapply rel_Forall; [|eassumption]; eassumption.
  - rewrite step_sub. cbn. f_equal.
    + apply forallb_map_eq. eapply rel_Forall; [|eassumption]; eassumption.
    + destruct (flags _ _ _); [|reflexivity]. apply forallb_map_eq. eapply rel_Forall; [|eassumption]; eassumption.
  - rewrite step_cut. cbn. apply forallb_map_eq. match goal with F : Forall2 (Forall2 _) _ _ |- _ => eapply Forall_impl; [|exact (rel_Forall2 _ _ _ H F)] end.
    intros x Hx. apply forallb_map_eq. exact Hx.
  - rewrite step_xor. cbn. apply forallb_map_eq. match goal with F : Forall2 (Forall2 _) _ _ |- _ => eapply Forall_impl; [|exact (rel_Forall2 _ _ _ H F)] end.
    intros x Hx. apply forallb_map_eq. exact Hx.
Qed.

Lemma cut_in zj p l : csg_in zj p (CCut _ l) = match l with [] => false | _ => forallb (existsb (csg_in zj p)) l end.
Proof. destruct l; reflexivity. Qed.

Lemma step_other_in z zi zj p : zj <> zi -> forall d t, rel at0 d t ->
  csg_in zj p (to_csg (step z zi t)) = csg_in zj p (to_csg t).
Proof.
  intros Hij d. induction d as [o|l H|l m H H'|l H|l H] using csg3_ind'; intros t R; inversion R; subst.
  - match goal with H : at0 _ _ _ |- _ => red in H; subst end. destruct (step_stack z zi o ls) as (ls' & -> & E). rewrite !in_stack.
    rewrite Nat.sub_0_r, (E zj Hij). reflexivity.
  - rewrite step_add. cbn. apply existsb_map_eq. eapply rel_Forall; [|eassumption]; eassumption.
  - rewrite step_sub. cbn. apply f_equal2; [|apply f_equal].
    + apply existsb_map_eq. eapply rel_Forall; [|eassumption]; eassumption.
    + destruct (flags _ _ _); [|reflexivity]. apply existsb_map_eq. eapply rel_Forall; [|eassumption]; eassumption.
  - rewrite step_cut. cbn [Layer_model.to_csg]. rewrite !cut_in. destruct m as [|x m]; [reflexivity|].
    cbn [map]. change (map to_csg (steps z zi x) :: map (map to_csg) (map (steps z zi) m))
      with (map (map to_csg) (map (steps z zi) (x :: m))).
    change (map to_csg x :: map (map to_csg) m) with (map (map to_csg) (x :: m)).
    apply forallb_map_eq. match goal with F : Forall2 (Forall2 _) _ _ |- _ => eapply Forall_impl; [|exact (rel_Forall2 _ _ _ H F)] end.
    intros y Hy. apply existsb_map_eq. exact Hy.
  - rewrite step_xor. cbn. f_equal. apply map_map_eq. match goal with F : Forall2 (Forall2 _) _ _ |- _ => eapply Forall_impl; [|exact (rel_Forall2 _ _ _ H F)] end.
    intros x Hx. apply existsb_map_eq. exact Hx.
Qed.

(** *** The layer that is processed *)
Lemma fresh_ok zi d : forall t, rel (fresh zi) d t -> csg_ok zi (to_csg t) = true.
Proof.
  induction d as [o|l H|l m H H'|l H|l H] using csg3_ind'; intros t R; inversion R; subst.
  - match goal with H : fresh _ _ _ _ |- _ => destruct H as [-> E] end. rewrite ok_stack, Nat.sub_0_r, E. reflexivity.
  - cbn. apply forallb_forall. intros x Hx. apply in_map_iff in Hx. destruct Hx as (y & <- & Hy).
    match goal with F : Forall2 _ _ _ |- _ => pose proof (rel_Forall _ _ _ H F) as G end; eapply Forall_forall in Hy; [|exact G]. exact Hy.
  - cbn. apply andb_true_iff. split; apply forallb_forall; intros x Hx; apply in_map_iff in Hx;
      destruct Hx as (y & <- & Hy).
    + pose proof (rel_Forall _ _ _ H H2) as G. eapply Forall_forall in Hy; [|exact G]. exact Hy.
    + pose proof (rel_Forall _ _ _ H' H4) as G. eapply Forall_forall in Hy; [|exact G]. exact Hy.
  - cbn. apply forallb_forall. intros x Hx. apply in_map_iff in Hx. destruct Hx as (y & <- & Hy).
    match goal with F : Forall2 (Forall2 _) _ _ |- _ => pose proof (rel_Forall2 _ _ _ H F) as G end. eapply Forall_forall in Hy; [|exact G].
    apply forallb_forall. intros x Hx. apply in_map_iff in Hx. destruct Hx as (y' & <- & Hy').
    eapply Forall_forall in Hy'; [|exact Hy]. exact Hy'.
  - cbn. apply forallb_forall. intros x Hx. apply in_map_iff in Hx. destruct Hx as (y & <- & Hy).
    match goal with F : Forall2 (Forall2 _) _ _ |- _ => pose proof (rel_Forall2 _ _ _ H F) as G end. eapply Forall_forall in Hy; [|exact G].
    apply forallb_forall. intros x Hx. apply in_map_iff in Hx. destruct Hx as (y' & <- & Hy').
    eapply Forall_forall in Hy'; [|exact Hy]. exact Hy'.
Qed.

(** what processing layer [zi] does to one tree *)
Definition good (z : zt) (zi : nat) (d : csg3) (t : tree) : Prop :=
  csg_ok zi (to_csg (step z zi t)) = true /\
  (forall p, csg_in zi p (to_csg (step z zi t)) = csg3_in z p d) /\
  (flag z zi t = false -> forall p, csg3_in z p d = false).

Lemma good_list z zi l m : Forall2 (good z zi) l m ->
  forallb (csg_ok zi) (map to_csg (steps z zi m)) = true /\
  (forall p, existsb (csg_in zi p) (map to_csg (steps z zi m)) = existsb (csg3_in z p) l) /\
  (flags z zi m = false -> forall p, existsb (csg3_in z p) l = false).
Proof.
  induction 1 as [|d t l m (G1 & G2 & G3) _ (I1 & I2 & I3)]; cbn; [auto|].
  split; [|split].
  - apply andb_true_iff. auto.
  - intros p. rewrite G2. f_equal. apply I2.
  - intros F p. apply orb_false_iff in F. destruct F as [F1 F2]. rewrite G3, (I3 F2); auto.
Qed.

Lemma good_lists z zi l m : Forall2 (Forall2 (good z zi)) l m ->
  forallb (forallb (csg_ok zi)) (map (map to_csg) (map (steps z zi) m)) = true /\
  (forall p, map (existsb (csg_in zi p)) (map (map to_csg) (map (steps z zi) m)) = map (existsb (csg3_in z p)) l) /\
  (existsb (flags z zi) m = false -> forall p, Forall (fun x => existsb (csg3_in z p) x = false) l).
Proof.
  induction 1 as [|d t l m G _ (I1 & I2 & I3)]; [cbn; auto|].
  destruct (good_list _ _ _ _ G) as (G1 & G2 & G3).
  split; [|split].
  - cbn. apply andb_true_iff. auto.
  - intros p. cbn [map]. f_equal; auto.
  - intros F p. cbn in F. apply orb_false_iff in F. destruct F as [F1 F2]. constructor; auto.
Qed.

Lemma rel_good2 z zi Q l m :
  Forall (fun d => forall t, rel Q d t -> good z zi d t) l -> Forall2 (rel Q) l m -> Forall2 (good z zi) l m.
Proof. intros H F. induction F; inversion H; subst; constructor; auto. Qed.

Lemma rel_good3 z zi Q l m :
  Forall (Forall (fun d => forall t, rel Q d t -> good z zi d t)) l ->
  Forall2 (Forall2 (rel Q)) l m -> Forall2 (Forall2 (good z zi)) l m.
Proof. intros H F. induction F; inversion H; subst; constructor; eauto using rel_good2. Qed.

Lemma forallb_as_map {A} (f : A -> bool) l : forallb f l = forallb (fun b => b) (map f l).
Proof. induction l; cbn; congruence. Qed.

Lemma step_this z zi d : forall t, rel (fresh zi) d t -> good z zi d t.
Proof.
  induction d as [o|l H|l m H H'|l H|l H] using csg3_ind'; intros t R; inversion R; subst.
  - match goal with H : fresh _ _ _ _ |- _ => destruct H as [-> E] end.
    assert (L : zi < length ls). { apply nth_error_Some. congruence. }
    assert (G : get_layer region 0 ls zi = Some zi).
    { unfold get_layer. cbn [Nat.leb negb]. rewrite Nat.sub_0_r. apply Nat.ltb_lt in L. rewrite L. reflexivity. }
    assert (N : nth zi ls (0, None) = (0, None)) by (apply nth_error_nth; exact E).
    unfold good, step, flag. cbn [Layer_model.add_layer]. unfold add_stack. rewrite G, N. cbn [app].
    assert (X : forall root, csg_ok zi (to_csg (TStack _ _ o 0 (put ls zi (zi, Some root)))) = true /\
      forall p, csg_in zi p (to_csg (TStack _ _ o 0 (put ls zi (zi, Some root)))) = existsb (fun r => region_in r p) root).
    { intros root. rewrite ok_stack, Nat.sub_0_r, put_same by exact L. rewrite Nat.eqb_refl, orb_true_r.
      split; [reflexivity|]. intros p. rewrite in_stack, Nat.sub_0_r, put_same by exact L. now rewrite Nat.eqb_refl. }
    cbn [fst snd]. destruct (X (match slice o z with None => [] | Some r => [r] end)) as [X1 X2].
    split; [exact X1|]. split.
    + intros p. rewrite X2. cbn [Layer_spec.csg3_in]. rewrite slice_ok. destruct (slice o z); cbn; [apply orb_false_r|reflexivity].
    + intros F p. cbn [Layer_spec.csg3_in]. rewrite slice_ok. destruct (slice o z); [discriminate|reflexivity].
  - destruct (good_list z zi l m) as (G1 & G2 & G3); [eapply rel_good2; [|eassumption]; eassumption|].
    unfold good. rewrite step_add, flag_add. cbn. auto.
  - destruct (good_list z zi l m0) as (G1 & G2 & G3); [eapply rel_good2; [|eassumption]; eassumption|].
    destruct (good_list z zi m m') as (G1' & G2' & G3'); [eapply rel_good2; [|eassumption]; eassumption|].
    unfold good. rewrite step_sub, flag_sub. cbn. split; [|split].
    + apply andb_true_iff. split; [exact G1|]. destruct (flags z zi m0); [exact G1'|].
      assert (F : csg_ok zi (to_csg (TAdd _ _ m')) = true).
      { apply (fresh_ok zi (T3Add _ m)). constructor. assumption. }
      exact F.
    + intros p. rewrite G2. destruct (flags z zi m0) eqn:F; [now rewrite G2'|].
      rewrite (G3 eq_refl p). reflexivity.
    + intros F p. rewrite (G3 F p). reflexivity.
  - destruct (good_lists z zi l m) as (G1 & G2 & G3); [eapply rel_good3; [|eassumption]; eassumption|].
    unfold good. rewrite step_cut, flag_cut. cbn [Layer_model.to_csg]. split; [exact G1|]. split.
    + intros p. rewrite cut_in. specialize (G2 p).
      destruct m as [|x m], l as [|y l]; try discriminate; [reflexivity|].
      cbn [Layer_spec.csg3_in]. rewrite (forallb_as_map _ (y :: l)), <- G2, <- forallb_as_map. reflexivity.
    + intros F p. specialize (G3 F p). destruct G3 as [|y l Hy _]; [reflexivity|]. cbn. now rewrite Hy.
  - destruct (good_lists z zi l m) as (G1 & G2 & G3); [eapply rel_good3; [|eassumption]; eassumption|].
    unfold good. rewrite step_xor, flag_xor. cbn [Layer_model.to_csg]. split; [exact G1|]. split.
    + intros p. cbn [Lazy_spec.csg_in Layer_spec.csg3_in]. now rewrite (G2 p).
    + intros F p. specialize (G3 F p). cbn [Layer_spec.csg3_in]. clear - G3.
      induction G3 as [|y l Hy _ IH]; [reflexivity|]. cbn [map fold_right]. rewrite Hy, IH. reflexivity.
Qed.

End Proofs.
