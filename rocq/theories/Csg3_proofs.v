(** Proofs about the conversion of the SCAD tree *)
From Coq Require Import List Bool.
From Verif Require Import Csg3_model Csg3_spec.
Import ListNotations.

Section Basics.
Context {A : Type}.
Lemma any_app : forall (f : A -> Prop) a b, any f (a ++ b) <-> any f a \/ any f b.
Proof. induction a as [|x a IH]; intros b; cbn; [tauto|]. rewrite IH. tauto. Qed.
Lemma any_in : forall (f : A -> Prop) l, any f l <-> exists x, In x l /\ f x.
Proof.
  induction l as [|x l IH]; cbn; [firstorder|]. rewrite IH. split.
  - intros [H|(y & I & H)]; [exists x; auto|exists y; auto].
  - intros (y & [->|I] & H); [left; exact H|right; exists y; auto].
Qed.
Lemma every_in : forall (f : A -> Prop) l, every f l <-> forall x, In x l -> f x.
Proof.
  induction l as [|x l IH]; cbn; [firstorder|]. rewrite IH. split.
  - intros (H & G) y [->|I]; auto.
  - intros H. split; [|intros; apply H]; auto.
Qed.
Lemma any_iff : forall (f g : A -> Prop) l, (forall x, In x l -> (f x <-> g x)) -> (any f l <-> any g l).
Proof.
  induction l as [|x l IH]; intros H; cbn; [tauto|]. rewrite (H x) by (left; reflexivity). rewrite IH; [tauto|]. intros. apply H. right. assumption.
Qed.
Lemma every_app : forall (f : A -> Prop) a b, every f (a ++ b) <-> every f a /\ every f b.
Proof. induction a as [|x a IH]; intros b; cbn; [tauto|]. rewrite IH. tauto. Qed.
End Basics.

Section Proofs.
Variables (mat X op P : Type) (inside : X -> P -> Prop) (pre : mat -> P -> P) (opsem : op -> (P -> Prop) -> P -> Prop).
Variables (unit : mat) (mul : mat -> mat -> mat) (build : op -> mat -> list (csg mat X) -> built mat X).
Hypothesis L : laws mat X op P inside pre opsem mul unit build.
Notation scad := (scad mat X op).
Notation csg := (csg mat X).
Notation state := (state mat X).
Notation conv := (conv mat X op unit mul build).
Notation sem_all := (sem_all mat X P inside pre).
Notation counts := (counts mat X op).
Notation means := (means mat X op P inside pre opsem).
Notation fine := (fine mat X op P inside pre opsem).
Notation tidy := (tidy mat X op).
Notation objs := (objs mat X).
Notation no := (no mat X).
Notation rx := (root_xform mat X).
Notation mk := (mk_state mat X).

(** Induction over trees *)
Definition kids (s : scad) : list scad :=
  match s with Node _ _ _ _ _ k =>
    match k with
    | Union _ _ _ l | Difference _ _ _ l | Intersection _ _ _ l | Color _ _ _ l | Xform _ _ _ _ l | Extrude _ _ _ _ _ l | Hull _ _ _ _ _ l | Projection _ _ _ _ _ l => l
    | _ => []
    end
  end.
Lemma scad_kids_ind : forall (Q : scad -> Prop), (forall s, (forall x, In x (kids s) -> Q x) -> Q s) -> forall s, Q s.
Proof.
  intros Q H. fix IH 1. intros [ign root k]. apply H.
  assert (G : forall l, (forall x : scad, In x l -> Q x) -> forall x, In x l -> Q x) by auto.
  destruct k as [l|l|l|x l|l|o out l|o out l|o out l|d out s|d out s]; cbn [kids];
    try (intros ? []; fail); (induction l as [|y l IHl]; [intros z []|intros z [<-|I]; [apply IH | exact (IHl z I)]]).
Qed.

(** What is proved of the conversion of a node *)
Definition good (r : res mat X) (st : state) (cnt : bool) (mean : P -> Prop) (td : Prop) : Prop :=
  match r with
  | Ok _ _ st' => rx st' = rx st /\ no st' = no st || cnt /\ exists d, objs st' = objs st ++ d /\ (forall p, sem_all d p <-> mean p) /\ (cnt = false -> d = [])
  | Error _ _ => True
  | Assert _ _ => ~ td
  end.
Definition conv_good (s : scad) : Prop := forall dim u m st, fine s dim u -> (u = true -> forall p, pre m p = p) ->
  good (conv s dim false m st) st (counts s dim) (fun p => means s dim (pre m p)) (tidy s dim).

Lemma good_iff : forall r st cnt (f g : P -> Prop) (td td' : Prop), (forall p, f p <-> g p) -> (td' -> td) -> good r st cnt f td -> good r st cnt g td'.
Proof.
  intros [st'| |] st cnt f g td td' H HT G; cbn in *; auto. destruct G as (A & B & d & C & D & E). repeat split; auto. exists d. repeat split; auto; intros; [apply H, D|apply D, H]; assumption.
Qed.
Lemma no_count_empty : forall r st f (td : Prop) st', good r st false f td -> r = Ok _ _ st' -> objs st' = objs st.
Proof. intros r st f td st' G ->. destruct G as (_ & _ & d & C & _ & E). rewrite C, (E eq_refl), app_nil_r. reflexivity. Qed.

Lemma children_good : forall l dim u m st, (forall x, In x l -> conv_good x) -> every (fun x => fine x dim u) l -> (u = true -> forall p, pre m p = p) ->
  good (children mat X op conv l dim false m st) st (existsb (fun x => counts x dim) l) (fun p => any (fun x => means x dim (pre m p)) l) (every (fun x => tidy x dim) l).
Proof.
  induction l as [|x l IH]; intros dim u m st H F U; cbn [children existsb any every].
  - cbn. rewrite orb_false_r. repeat split. exists []. rewrite app_nil_r. cbn. tauto.
  - destruct F as (F1 & F2). pose proof (H x (or_introl eq_refl) dim u m st F1 U) as G.
    destruct (conv x dim false m st) as [st1| |]; cbn [bind good] in *; [|exact I|tauto].
    destruct G as (A1 & B1 & d1 & C1 & D1 & E1).
    pose proof (IH dim u m st1 (fun y I => H y (or_intror I)) F2 U) as G2.
    destruct (children mat X op conv l dim false m st1) as [st2| |]; cbn [good] in *; [|exact I|tauto].
    destruct G2 as (A2 & B2 & d2 & C2 & D2 & E2). split; [congruence|]. split; [rewrite B2, B1, orb_assoc; reflexivity|].
    exists (d1 ++ d2). split; [rewrite C2, C1, app_assoc; reflexivity|]. split.
    + intros p. unfold sem_all in *. rewrite any_app, D1, D2. reflexivity.
    + intros E. apply orb_false_iff in E. destruct E as (Ea & Eb). rewrite (E1 Ea), (E2 Eb). reflexivity.
Qed.

Notation existsb_counts dim l := (existsb (fun x => counts x dim) l).
Notation any_means dim p l := (any (fun x => means x dim p) l).

Lemma difference_rest : forall l dim u m st0 f, (forall x, In x l -> conv_good x) -> every (fun x => fine x dim u) l -> (u = true -> forall p, pre m p = p) ->
  no f = true -> rx f = rx st0 ->
  good (difference mat X op conv l st0 m dim f) st0 true (fun p => sem_all (objs f) p /\ ~ any_means dim (pre m p) l) (every (fun x => tidy x dim) l).
Proof.
  intros l dim u m st0 f H F U N R. destruct l as [|x l].
  - cbn. rewrite N, orb_true_r. repeat split; try assumption; try discriminate. exists (objs f). repeat split; try discriminate; tauto.
  - cbn [difference]. rewrite N. remember (x :: l) as l' eqn:EL. clear EL x l.
    pose proof (fun st => children_good l' dim u m st H F U) as CG.
    assert (GEN : forall fs, fs = objs f -> good (bind mat X (children mat X op conv l' dim false m (mk true [] (rx f)))
      (fun g => match objs g with [] => Ok _ _ (mk (no g) (objs st0 ++ fs) (rx g)) | gs => Ok _ _ (mk (no g) (objs st0 ++ [Sub _ _ fs gs]) (rx g)) end)) st0 true
      (fun p => sem_all (objs f) p /\ ~ any_means dim (pre m p) l') (every (fun x => tidy x dim) l')).
    { intros fs ->. specialize (CG (mk true [] (rx f))). destruct (children mat X op conv l' dim false m (mk true [] (rx f))) as [g| |]; cbn [bind good] in *; [|exact I|exact CG].
      destruct CG as (A & B & d & C & D & E). cbn in A, B, C. rewrite C. destruct d as [|d0 d].
      - cbn. repeat split; try congruence; try (rewrite orb_true_r; assumption). exists (objs f). repeat split; try discriminate; try tauto.
        intros Q. destruct (proj2 (D p) Q).
      - cbn [good objs no rx]. repeat split; try congruence; try (rewrite orb_true_r; assumption). eexists. repeat split; try discriminate.
        + destruct H0 as [(H1 & H2)|[]]. exact H1.
        + destruct H0 as [(H1 & H2)|[]]. intros Q. apply H2. apply D. exact Q.
        + intros (Q1 & Q2). left. cbn [sem]. split; [exact Q1|]. intros Q. apply Q2, D, Q. }
    destruct (objs f) as [|o [|o2 fs]] eqn:EF.
    + cbn. repeat split; try congruence; try (rewrite orb_true_r; reflexivity). exists []. rewrite app_nil_r. repeat split; try discriminate; cbn; tauto.
    + destruct o as [y my|a b|cl|xl]; try (apply GEN; reflexivity).
      specialize (CG (mk true b (rx f))). destruct (children mat X op conv l' dim false m (mk true b (rx f))) as [g| |]; cbn [bind good] in *; [|exact I|exact CG].
      destruct CG as (A & B & d & C & D & E). cbn in A, B, C. rewrite C. cbn [objs no rx]. repeat split; try congruence; try (rewrite orb_true_r; assumption). eexists. repeat split; try discriminate.
      * destruct H0 as [(H1 & H2)|[]]. left. cbn [sem]. split; [exact H1|]. intros Q. apply H2, any_app. left. exact Q.
      * destruct H0 as [(H1 & H2)|[]]. intros Q. apply H2, any_app. right. apply D. exact Q.
      * intros ([(Q0 & Q1)|[]] & Q2). left. cbn [sem]. split; [exact Q0|]. intros Q. apply any_app in Q. destruct Q as [Q|Q]; [exact (Q1 Q)|]. apply Q2, D, Q.
    + destruct o; apply GEN; reflexivity.
Qed.
Lemma difference_good : forall l dim u m st0 f, (forall x, In x l -> conv_good x) -> every (fun x => fine x dim u) l -> (u = true -> forall p, pre m p = p) ->
  no f = false -> objs f = [] -> rx f = rx st0 ->
  good (difference mat X op conv l st0 m dim f) st0 (existsb_counts dim l)
    (fun p => first_minus mat X op (fun x => counts x dim) (fun x => means x dim (pre m p)) l) (every (fun x => tidy x dim) l).
Proof.
  induction l as [|x l IH]; intros dim u m st0 f H F U N O R.
  - cbn. rewrite N, O, !orb_false_r, app_nil_r. repeat split; try assumption. exists []. rewrite app_nil_r. cbn. tauto.
  - cbn [difference first_minus existsb every]. rewrite N. destruct F as (F1 & F2). pose proof (H x (or_introl eq_refl) dim u m f F1 U) as G.
    destruct (conv x dim false m f) as [f1| |]; cbn [bind good] in *; [|exact I|tauto].
    destruct G as (A1 & B1 & d1 & C1 & D1 & E1). rewrite O in C1. cbn in C1. rewrite N in B1. cbn in B1.
    destruct (counts x dim) eqn:EC; cbn [orb].
    + eapply good_iff; [| |apply (difference_rest l dim u m st0 f1 (fun y I => H y (or_intror I)) F2 U B1 (eq_trans A1 R))].
      * intros p. cbn beta. rewrite C1, D1. reflexivity.
      * tauto.
    + eapply good_iff; [| |apply (IH dim u m st0 f1 (fun y I => H y (or_intror I)) F2 U B1 (eq_trans C1 (E1 eq_refl)) (eq_trans A1 R))].
      * reflexivity.
      * tauto.
Qed.

Definition bad (cnt : scad -> bool) (cut : list (list csg)) (st : state) (l : list scad) : bool :=
  match cut_push_add _ _ cut (objs st) with
  | [] => lone mat X op cnt l
  | [_] => forallb (fun x => negb (cnt x)) l && match l, objs st with [], _ :: _ => false | _, _ => true end
  | _ => false
  end.
Lemma intersection_good : forall l dim u m cut r st, (forall x, In x l -> conv_good x) -> every (fun x => fine x dim u) l -> (u = true -> forall p, pre m p = p) ->
  every (fun x => counts x dim = true -> exists p, means x dim p) l ->
  let c := cut_push_add _ _ cut (objs st) in
  match intersection mat X op conv l m dim cut r st with
  | Ok _ _ st' => rx st' = rx st /\ no st' = no st || existsb_counts dim l /\ exists d, objs st' = r ++ d /\
      (forall p, sem_all d p <-> (c <> [] \/ any (fun x => counts x dim = true) l) /\ every (fun a => sem_all a p) c /\ every (fun x => counts x dim = true -> means x dim (pre m p)) l) /\
      (c = [] -> existsb_counts dim l = false -> d = [])
  | Error _ _ => True
  | Assert _ _ => ~ (every (fun x => tidy x dim) l /\ bad (fun x => counts x dim) cut st l = false)
  end.
Proof.
  induction l as [|x l IH]; intros dim u m cut r st H F U NE c.
  - cbn [intersection existsb any every]. destruct cut as [|c0 cut].
    + cbn [rx no objs]. rewrite orb_false_r. split; [reflexivity|]. split; [reflexivity|]. exists (objs st). split; [reflexivity|]. split.
      * intros p. unfold c, cut_push_add. destruct (objs st) as [|o os] eqn:EO; [cbn; tauto|]. cbn [app every]. split; [|tauto]. intros Q. split; [left; discriminate|]. tauto.
      * unfold c, cut_push_add. destruct (objs st); [reflexivity|discriminate].
    + assert (NC : c <> []) by (unfold c, cut_push_add; destruct (objs st); discriminate).
      fold c. unfold bad. fold c. destruct c as [|c1 [|c2 cc]] eqn:EC; [congruence| |].
      * intros (_ & Q). cbn [forallb andb] in Q. unfold c, cut_push_add in EC. destruct (objs st); [discriminate|]. cbn in EC. injection EC as -> EC. destruct cut; discriminate.
      * cbn [rx no objs]. rewrite orb_false_r. split; [reflexivity|]. split; [reflexivity|]. eexists. split; [reflexivity|]. split; [|discriminate].
        intros p. unfold Csg3_spec.sem_all. cbn [any]. cbn [sem]. split; [|tauto]. intros [Q|[]]. split; [left; discriminate|]. split; [exact Q|exact I].
  - cbn [intersection]. fold c. destruct F as (F1 & F2). destruct NE as (NE1 & NE2). pose proof (H x (or_introl eq_refl) dim u m (mk (no st) [] (rx st)) F1 U) as G.
    destruct (conv x dim false m (mk (no st) [] (rx st))) as [s1| |]; cbn [bind good] in *; [|exact I|cbn [every]; tauto].
    destruct G as (A1 & B1 & d1 & C1 & D1 & E1). cbn in A1, B1, C1.
    specialize (IH dim u m c r s1 (fun y I => H y (or_intror I)) F2 U NE2). cbn zeta in IH. rewrite C1 in IH.
    cbn [existsb any every].
    destruct (counts x dim) eqn:EC.
    + assert (D1N : d1 <> []). { intros ->. destruct (NE1 eq_refl) as (q & Q). destruct (pre_onto _ _ _ _ _ _ _ _ _ _ L m q) as (p & E). apply (proj2 (D1 p)). rewrite E. exact Q. }
      assert (CP : cut_push_add _ _ c d1 = c ++ [d1]) by (unfold cut_push_add; destruct d1; [congruence|reflexivity]).
      rewrite CP in IH.
      destruct (intersection mat X op conv l m dim c r s1) as [s2| |]; [| exact I |].
      * destruct IH as (A2 & B2 & d2 & C2 & D2 & E2). split; [congruence|]. split; [rewrite B2, B1, orb_assoc; reflexivity|].
        exists d2. split; [exact C2|]. split; [|discriminate]. intros p. rewrite D2, every_app. cbn [every]. rewrite D1.
        split; [intros (_ & (Q1 & Q2 & _) & Q3); tauto|]. intros (_ & Q1 & Q2 & Q3). split; [left; destruct c; discriminate|]. specialize (Q2 eq_refl). tauto.
      * intros (Q1 & Q2). apply IH. split; [tauto|]. unfold bad in *. rewrite C1, CP. fold c in Q2. destruct c as [|c1 [|c2 cc]]; cbn [app]; [|reflexivity|reflexivity].
        cbn [lone] in Q2. rewrite EC in Q2. destruct l as [|y l]; [destruct d1; [congruence|]; reflexivity|]. rewrite andb_true_r. exact Q2.
    + rewrite (E1 eq_refl) in *. cbn [cut_push_add] in IH. cbn [orb].
      destruct (intersection mat X op conv l m dim c r s1) as [s2| |]; [| exact I |].
      * destruct IH as (A2 & B2 & d2 & C2 & D2 & E2). split; [congruence|]. split; [rewrite B2, B1, orb_false_r; reflexivity|].
        exists d2. split; [exact C2|]. split; [|exact E2]. intros p. rewrite D2. intuition congruence.
      * intros (Q1 & Q2). apply IH. split; [tauto|]. unfold bad in *. rewrite C1. cbn [cut_push_add]. fold c in Q2. destruct c as [|c1 [|c2 cc]]; [|  |reflexivity].
        -- cbn [lone] in Q2. rewrite EC in Q2. exact Q2.
        -- cbn [forallb] in Q2. rewrite EC in Q2. cbn [negb andb] in Q2. rewrite andb_true_r in Q2. destruct l; rewrite andb_true_r; exact Q2.
Qed.

Lemma sem_leaves : forall xs m p, sem_all (map (fun x => Leaf _ _ x m) xs) p <-> any (fun x => inside x (pre m p)) xs.
Proof. induction xs as [|x xs IH]; intros m p; [cbn; tauto|]. unfold Csg3_spec.sem_all in *. cbn [map any]. rewrite IH. reflexivity. Qed.

Lemma conv_is_good : forall s, conv_good s.
Proof.
  apply scad_kids_ind. intros [ign root k] K dim u m st F U.
  cbn [conv andb]. cbn [Csg3_spec.fine] in F. cbn [Csg3_spec.counts Csg3_spec.means Csg3_spec.tidy].
  destruct ign; cbn [negb andb].
  { cbn. rewrite orb_false_r. repeat split. exists []. rewrite app_nil_r. cbn. tauto. }
  destruct k as [l|l|l|x l|l|o out l|o out l|o out l|d out s|d out s]; cbn [kids] in K.
  - exact (children_good l dim u m st K F U).
  - exact (difference_good l dim u m st (mk false [] (rx st)) K F U eq_refl eq_refl eq_refl).
  - destruct F as (F1 & F2). pose proof (intersection_good l dim u m [] (objs st) (mk (no st) [] (rx st)) K F1 U F2) as G. cbn zeta in G. cbn [objs cut_push_add] in G.
    destruct (intersection mat X op conv l m dim [] (objs st) (mk (no st) [] (rx st))) as [s1| |]; cbn [good]; [|exact I|exact G].
    destruct G as (A & B & d & C & D & E). cbn in A, B. split; [exact A|]. split; [exact B|]. exists d. split; [exact C|]. split.
    + intros p. rewrite D. cbn [every]. intuition congruence.
    + intros Q. apply E; [reflexivity|exact Q].
  - destruct x as [|a|err].
    + exact (children_good l dim u m st K F U).
    + eapply good_iff; [| |apply (children_good l dim false (mul m a) st K F); discriminate].
      * intros p. cbn beta. apply any_iff. intros y _. rewrite (pre_mul _ _ _ _ _ _ _ _ _ _ L). reflexivity.
      * auto.
    + unfold msg. destruct err; cbn; [exact I|]. rewrite orb_false_r. repeat split. exists []. rewrite app_nil_r. cbn. tauto.
  - exact (children_good l dim u m st K F U).
  - destruct dim; cbn [negb andb].
    + pose proof (children_good l false true unit (mk (no st) [] (rx st)) K F (fun _ => pre_unit _ _ _ _ _ _ _ _ _ _ L)) as G.
      destruct (children mat X op conv l false false unit (mk (no st) [] (rx st))) as [s1| |]; cbn [bind good] in *; [|exact I|exact G].
      destruct G as (A & B & d & C & D & E). cbn in A, B, C. rewrite C.
      destruct (build o m d) as [e|] eqn:EB; cbn [good objs rx no]; [|exact I]. repeat split; try assumption. exists e. repeat split.
      * intros Q. apply (build_sem _ _ _ _ _ _ _ _ _ _ L _ _ _ _ EB) in Q. eapply (opsem_ext _ _ _ _ _ _ _ _ _ _ L); [|exact Q].
        intros q. cbn beta. rewrite D. apply any_iff. intros y _. rewrite (pre_unit _ _ _ _ _ _ _ _ _ _ L). reflexivity.
      * intros Q. apply (build_sem _ _ _ _ _ _ _ _ _ _ L _ _ _ _ EB). eapply (opsem_ext _ _ _ _ _ _ _ _ _ _ L); [|exact Q].
        intros q. cbn beta. rewrite D. apply any_iff. intros y _. rewrite (pre_unit _ _ _ _ _ _ _ _ _ _ L). reflexivity.
      * intros Q. rewrite (E Q) in EB. exact (build_nil _ _ _ _ _ _ _ _ _ _ L _ _ _ EB).
    + unfold msg. destruct out; cbn; [exact I|]. rewrite orb_false_r. repeat split. exists []. rewrite app_nil_r. cbn. tauto.
  - destruct dim; cbn [negb andb].
    + unfold msg. destruct out; cbn; [exact I|]. rewrite orb_false_r. repeat split. exists []. rewrite app_nil_r. cbn. tauto.
    + destruct F as (FU & F). pose proof (children_good l false true unit (mk (no st) [] (rx st)) K F (fun _ => pre_unit _ _ _ _ _ _ _ _ _ _ L)) as G.
      destruct (children mat X op conv l false false unit (mk (no st) [] (rx st))) as [s1| |]; cbn [bind good] in *; [|exact I|exact G].
      destruct G as (A & B & d & C & D & E). cbn in A, B, C. rewrite C.
      destruct (build o unit d) as [e|] eqn:EB; cbn [good objs rx no]; [|exact I]. repeat split; try assumption. exists e. repeat split.
      * intros Q. apply (build_sem _ _ _ _ _ _ _ _ _ _ L _ _ _ _ EB) in Q. rewrite (pre_unit _ _ _ _ _ _ _ _ _ _ L) in Q. rewrite (U FU). eapply (opsem_ext _ _ _ _ _ _ _ _ _ _ L); [|exact Q].
        intros q. cbn beta. rewrite D. apply any_iff. intros y _. rewrite (pre_unit _ _ _ _ _ _ _ _ _ _ L). reflexivity.
      * intros Q. apply (build_sem _ _ _ _ _ _ _ _ _ _ L _ _ _ _ EB). rewrite (pre_unit _ _ _ _ _ _ _ _ _ _ L). rewrite (U FU) in Q. eapply (opsem_ext _ _ _ _ _ _ _ _ _ _ L); [|exact Q].
        intros q. cbn beta. rewrite D. apply any_iff. intros y _. rewrite (pre_unit _ _ _ _ _ _ _ _ _ _ L). reflexivity.
      * intros Q. rewrite (E Q) in EB. exact (build_nil _ _ _ _ _ _ _ _ _ _ L _ _ _ EB).
  - destruct dim; cbn [negb andb].
    + unfold msg. destruct out; cbn; [exact I|]. rewrite orb_false_r. repeat split. exists []. rewrite app_nil_r. cbn. tauto.
    + destruct F as (FU & F). pose proof (children_good l true true unit (mk (no st) [] (rx st)) K F (fun _ => pre_unit _ _ _ _ _ _ _ _ _ _ L)) as G.
      destruct (children mat X op conv l true false unit (mk (no st) [] (rx st))) as [s1| |]; cbn [bind good] in *; [|exact I|exact G].
      destruct G as (A & B & d & C & D & E). cbn in A, B, C. rewrite C.
      destruct (build o unit d) as [e|] eqn:EB; cbn [good objs rx no]; [|exact I]. repeat split; try assumption. exists e. repeat split.
      * intros Q. apply (build_sem _ _ _ _ _ _ _ _ _ _ L _ _ _ _ EB) in Q. rewrite (pre_unit _ _ _ _ _ _ _ _ _ _ L) in Q. rewrite (U FU). eapply (opsem_ext _ _ _ _ _ _ _ _ _ _ L); [|exact Q].
        intros q. cbn beta. rewrite D. apply any_iff. intros y _. rewrite (pre_unit _ _ _ _ _ _ _ _ _ _ L). reflexivity.
      * intros Q. apply (build_sem _ _ _ _ _ _ _ _ _ _ L _ _ _ _ EB). rewrite (pre_unit _ _ _ _ _ _ _ _ _ _ L). rewrite (U FU) in Q. eapply (opsem_ext _ _ _ _ _ _ _ _ _ _ L); [|exact Q].
        intros q. cbn beta. rewrite D. apply any_iff. intros y _. rewrite (pre_unit _ _ _ _ _ _ _ _ _ _ L). reflexivity.
      * intros Q. rewrite (E Q) in EB. exact (build_nil _ _ _ _ _ _ _ _ _ _ L _ _ _ EB).
  - destruct (Bool.eqb d dim); cbn [negb].
    + destruct s as [xs| |]; cbn [good objs rx no]; [| |exact I].
      * rewrite orb_true_r. repeat split. eexists. split; [reflexivity|]. split; [|discriminate]. intros p. apply sem_leaves.
      * cbn. rewrite orb_true_r. repeat split. exists []. rewrite app_nil_r. cbn. repeat split; try tauto.
    + unfold msg. destruct out; cbn; [exact I|]. rewrite orb_false_r. repeat split. exists []. rewrite app_nil_r. cbn. tauto.
  - destruct (Bool.eqb d dim); cbn [negb].
    + destruct s as [xs| |]; cbn [good objs rx no]; [| |exact I].
      * rewrite orb_true_r. repeat split. eexists. split; [reflexivity|]. split; [|discriminate]. intros p. apply sem_leaves.
      * cbn. rewrite orb_true_r. repeat split. exists []. rewrite app_nil_r. cbn. repeat split; try tauto.
    + unfold msg. destruct out; cbn; [exact I|]. rewrite orb_true_r. repeat split. exists []. rewrite app_nil_r. cbn. repeat split; try tauto.
Qed.
End Proofs.
