(** cp_dict_swap on the heap. *)
From Coq Require Import List Bool Arith Lia.
From Verif Require Import Dict_model Dict_spec Ptr_model Ptr_spec.
Import ListNotations.

Lemma peq_spec p q : reflect (p = q) (peq p q).
Proof.
  destruct p as [x|], q as [y|]; cbn; try (constructor; congruence).
  destruct (Nat.eqb_spec x y); constructor; congruence.
Qed.

Lemma peq_refl p : peq p p = true.
Proof. destruct (peq_spec p p); congruence. Qed.

(** Local consistency of a set of nodes. *)
Definition wf (h : heap) (D : nat -> Prop) : Prop :=
  (forall x p, D x -> par (h x) = Some p -> D p /\ exists i, edge (h p) i = Some x) /\
  (forall x i y, D x -> edge (h x) i = Some y -> D y /\ par (h y) = Some x) /\
  (forall x y, D x -> e0 (h x) = Some y -> e1 (h x) = Some y -> False) /\
  (forall x, D x -> par (h x) = Some x -> False) /\
  (forall x y, D x -> par (h x) = Some y -> par (h y) = Some x -> False).

Section swap.
Variables (h : heap) (D : nat -> Prop) (a b : nat).
Hypothesis W : wf h D.
Hypothesis Da : D a.
Hypothesis Db : D b.
Hypothesis ab : a <> b.

Notation f := (exchange a b).
Notation fo := (option_map (exchange a b)).

Lemma f_a : f a = b.
Proof. unfold exchange. now rewrite Nat.eqb_refl. Qed.
Lemma f_b : f b = a.
Proof.
  unfold exchange. rewrite Nat.eqb_refl.
  destruct (Nat.eqb_spec b a); congruence.
Qed.
Lemma f_o x : x <> a -> x <> b -> f x = x.
Proof.
  intros Ha Hb. unfold exchange.
  destruct (Nat.eqb_spec x a); [congruence|]. destruct (Nat.eqb_spec x b); congruence.
Qed.
Lemma f_cases x : (x = a /\ f x = b) \/ (x = b /\ f x = a) \/ (x <> a /\ x <> b /\ f x = x).
Proof.
  destruct (Nat.eq_dec x a) as [Ha|Ha]; [left; subst; auto using f_a|].
  destruct (Nat.eq_dec x b) as [Hb|Hb]; [right; left; subst; auto using f_b|].
  right; right. auto using f_o.
Qed.
Lemma f_f x : f (f x) = x.
Proof.
  destruct (f_cases x) as [(->&->)|[(->&->)|(?&?&E)]]; auto using f_a, f_b.
  now rewrite !E.
Qed.
Lemma f_inj x y : f x = f y -> x = y.
Proof. intros H. rewrite <- (f_f x), <- (f_f y). now f_equal. Qed.
Lemma f_D x : D x -> D (f x).
Proof. destruct (f_cases x) as [(->&->)|[(->&->)|(?&?&E)]]; auto. now rewrite E. Qed.

(** What should come out. *)
Definition target (x : nat) : node :=
  mkNode (fo (par (h (f x)))) (fo (e0 (h (f x)))) (fo (e1 (h (f x)))) (st (h (f x))).

(** What is required after the child pointers are done. *)
Definition mid (h2 : heap) : Prop :=
  (forall x, D x -> e0 (h2 x) = e0 (target x) /\ e1 (h2 x) = e1 (target x) /\ st (h2 x) = st (target x)) /\
  par (h2 a) = par (target a) /\ par (h2 b) = par (target b) /\
  (forall x, x <> a -> x <> b -> par (h2 x) = par (h x)) /\
  (forall x, ~ D x -> h2 x = h x).

Lemma fo_some p y : fo p = Some y -> p = Some (f y).
Proof. destruct p as [x|]; cbn; [|discriminate]. intros H; injection H as <-. now rewrite f_f. Qed.

Lemma sup_same h2 x i : edge (swap_update_parent x i h2 x) = edge (h2 x).
Proof.
  unfold swap_update_parent, set_par_if, set_par, hput.
  destruct (edge (h2 x) i) as [y|]; [|reflexivity].
  destruct (Nat.eqb_spec x y); subst; reflexivity.
Qed.

Lemma sup_at h2 x i z :
  swap_update_parent x i h2 z =
  if peq (edge (h2 x) i) (Some z) then with_par (h2 z) (Some x) else h2 z.
Proof.
  unfold swap_update_parent, set_par_if, set_par, hput.
  destruct (edge (h2 x) i) as [y|]; [|reflexivity]. cbn.
  rewrite (Nat.eqb_sym z y). destruct (Nat.eqb_spec y z); subst; reflexivity.
Qed.

Lemma with_par_edge n p i : edge (with_par n p) i = edge n i.
Proof. destruct i; reflexivity. Qed.
Lemma sup_edge h2 x i z j : edge (swap_update_parent x i h2 z) j = edge (h2 z) j.
Proof. rewrite sup_at. destruct (peq _ _); [apply with_par_edge|reflexivity]. Qed.

Lemma last_phase h2 : mid h2 ->
  let h3 := swap_update_parent b true (swap_update_parent b false
              (swap_update_parent a true (swap_update_parent a false h2))) in
  (forall x, D x -> h3 x = target x) /\ (forall x, ~ D x -> h3 x = h x).
Proof.
  intros (Me & Ma & Mb & Mo & Mout) h3.
  destruct W as (W1 & W2 & W3 & W4 & W5).
  assert (Ee : forall x i, D x -> edge (h2 x) i = fo (edge (h (f x)) i)).
  { intros x i Dx. destruct (Me x Dx) as (E0 & E1 & _). destruct i; cbn; assumption. }
  assert (At : forall z, h3 z =
    if peq (edge (h2 b) true) (Some z) then with_par (h2 z) (Some b)
    else if peq (edge (h2 b) false) (Some z) then with_par (h2 z) (Some b)
    else if peq (edge (h2 a) true) (Some z) then with_par (h2 z) (Some a)
    else if peq (edge (h2 a) false) (Some z) then with_par (h2 z) (Some a) else h2 z).
  { intros z. unfold h3.
    rewrite sup_at. rewrite !sup_edge.
    rewrite sup_at. rewrite !sup_edge.
    rewrite sup_at. rewrite !sup_edge.
    rewrite sup_at.
    repeat match goal with |- context [if peq ?p ?q then _ else _] => destruct (peq p q) end; reflexivity. }
  assert (Ch : forall x i z, (x = a \/ x = b) -> edge (h2 x) i = Some z -> D z /\ par (target z) = Some x).
  { intros x i z Hx He. assert (Dx : D x) by (destruct Hx; subst; assumption).
    rewrite Ee in He by assumption. apply fo_some in He.
    destruct (W2 _ _ _ (f_D _ Dx) He) as (Dz & Hp). split.
    - rewrite <- (f_f z). now apply f_D.
    - cbn. rewrite Hp. cbn. now rewrite f_f. }
  split.
  - intros x Dx. destruct (Me x Dx) as (E0 & E1 & Es).
    assert (St : forall p, p = par (target x) -> with_par (h2 x) p = target x).
    { intros p ->. unfold with_par. rewrite E0, E1, Es. reflexivity. }
    rewrite At.
    destruct (peq_spec (edge (h2 b) true) (Some x)) as [H1|H1];
      [apply St; symmetry; eapply (Ch b); eauto|].
    destruct (peq_spec (edge (h2 b) false) (Some x)) as [H2|H2];
      [apply St; symmetry; eapply (Ch b); eauto|].
    destruct (peq_spec (edge (h2 a) true) (Some x)) as [H3|H3];
      [apply St; symmetry; eapply (Ch a); eauto|].
    destruct (peq_spec (edge (h2 a) false) (Some x)) as [H4|H4];
      [apply St; symmetry; eapply (Ch a); eauto|].
    assert (Hp : par (h2 x) = par (target x)).
    { destruct (f_cases x) as [(->&_)|[(->&_)|(Na&Nb&Ef)]]; [assumption|assumption|].
      rewrite (Mo x Na Nb). cbn. rewrite Ef.
      destruct (par (h x)) as [p|] eqn:P; [|reflexivity]. cbn.
      destruct (W1 _ _ Dx P) as (Dp & j & Ej).
      destruct (f_cases p) as [(->&Efp)|[(->&Efp)|(_&_&Efp)]]; [exfalso|exfalso|now rewrite Efp].
      - assert (edge (h2 b) j = Some x).
        { rewrite Ee by assumption. rewrite f_b, Ej. cbn. now rewrite Ef. }
        destruct j; congruence.
      - assert (edge (h2 a) j = Some x).
        { rewrite Ee by assumption. rewrite f_a, Ej. cbn. now rewrite Ef. }
        destruct j; congruence. }
    rewrite <- (St (par (h2 x))) by assumption. now destruct (h2 x).
  - intros x Nx. rewrite At.
    destruct (peq_spec (edge (h2 b) true) (Some x)) as [H1|H1]; [exfalso; apply Nx; eapply (Ch b); eauto|].
    destruct (peq_spec (edge (h2 b) false) (Some x)) as [H2|H2]; [exfalso; apply Nx; eapply (Ch b); eauto|].
    destruct (peq_spec (edge (h2 a) true) (Some x)) as [H3|H3]; [exfalso; apply Nx; eapply (Ch a); eauto|].
    destruct (peq_spec (edge (h2 a) false) (Some x)) as [H4|H4]; [exfalso; apply Nx; eapply (Ch a); eauto|].
    now apply Mout.
Qed.

Definition h1 : heap := hput (hput h a (h b)) b (h a).

Lemma h1_at x : h1 x = h (f x).
Proof.
  unfold h1, hput. destruct (f_cases x) as [(->&->)|[(->&->)|(?&?&->)]].
  - rewrite Nat.eqb_refl. destruct (Nat.eqb_spec a b); congruence.
  - now rewrite Nat.eqb_refl.
  - destruct (Nat.eqb_spec x b); [congruence|]. destruct (Nat.eqb_spec x a); congruence.
Qed.

(** No child pointer of a node that is parent of neither needs an update. *)
Lemma no_child x i : D x -> par (h a) <> Some x -> par (h b) <> Some x ->
  fo (edge (h x) i) = edge (h x) i.
Proof.
  intros Dx Na Nb. destruct W as (_ & W2 & _).
  destruct (edge (h x) i) as [y|] eqn:Ey; [|reflexivity].
  destruct (W2 _ _ _ Dx Ey) as (_ & P). cbn.
  destruct (f_cases y) as [(->&_)|[(->&_)|(_&_&->)]]; congruence.
Qed.

Lemma sibling_phase q : par (h a) = Some q -> par (h b) = Some q ->
  exists h2, mid h2 /\
  ((peq (e0 (h1 q)) (Some a) || peq (e0 (h1 q)) (Some b)) = true /\
   (peq (e1 (h1 q)) (Some a) || peq (e1 (h1 q)) (Some b)) = true /\
   h2 = hput h1 q (mkNode (par (h1 q)) (e1 (h1 q)) (e0 (h1 q)) (st (h1 q)))).
Proof.
  intros Pa Pb. destruct W as (W1 & W2 & W3 & W4 & W5).
  assert (qa : q <> a) by (intros ->; eapply W4; [exact Da|congruence]).
  assert (qb : q <> b) by (intros ->; eapply W4; [exact Db|congruence]).
  assert (Q : h1 q = h q) by (rewrite h1_at; f_equal; now apply f_o).
  destruct (W1 _ _ Da Pa) as (Dq & ia & Ea).
  destruct (W1 _ _ Db Pb) as (_ & ib & Eb).
  assert (Ed : (e0 (h q) = Some a /\ e1 (h q) = Some b) \/ (e0 (h q) = Some b /\ e1 (h q) = Some a)).
  { destruct ia, ib; cbn in Ea, Eb; try congruence; auto. }
  eexists. split; [|split; [|split; [|reflexivity]]].
  - set (n := mkNode _ _ _ _).
    assert (Ho : forall x, x <> q -> hput h1 q n x = h (f x)).
    { intros x Hx. unfold hput. destruct (Nat.eqb_spec x q); [congruence|]. apply h1_at. }
    assert (Hq : hput h1 q n q = n) by (unfold hput; now rewrite Nat.eqb_refl).
    assert (fq : f q = q) by now apply f_o.
    split; [|split; [|split; [|split]]].
    + intros x Dx. destruct (Nat.eq_dec x q) as [->|Hx].
      * rewrite Hq. unfold n, target. cbn. rewrite Q, fq.
        destruct Ed as [(->&->)|(->&->)]; cbn; rewrite f_a, f_b; auto.
      * rewrite Ho by assumption. cbn.
        assert (f x <> q) by (intros X; apply Hx; apply f_inj; congruence).
        rewrite <- (no_child (f x) false) at 1; [|now apply f_D|congruence|congruence].
        rewrite <- (no_child (f x) true) at 1; [|now apply f_D|congruence|congruence].
        auto.
    + rewrite Ho by congruence. cbn. rewrite f_a, Pb. cbn. now rewrite fq.
    + rewrite Ho by congruence. cbn. rewrite f_b, Pa. cbn. now rewrite fq.
    + intros x Na Nb. destruct (Nat.eq_dec x q) as [->|Hx].
      * rewrite Hq. unfold n. cbn. now rewrite Q.
      * rewrite Ho by assumption. now rewrite f_o.
    + intros x Nx. rewrite Ho by congruence. rewrite f_o; [reflexivity| |]; intros ->; contradiction.
  - rewrite Q. destruct Ed as [(->&_)|(->&_)]; cbn; rewrite Nat.eqb_refl, ?orb_true_r; reflexivity.
  - rewrite Q. destruct Ed as [(_&->)|(_&->)]; cbn; rewrite Nat.eqb_refl, ?orb_true_r; reflexivity.
Qed.

(** The parents of [a] and [b] in the other case. *)
Definition h1' : heap :=
  let h := h1 in
  let h := if peq (par (h a)) (Some a) then set_par h a (Some b) else h in
  if peq (par (h b)) (Some b) then set_par h b (Some a) else h.

Lemma h1'_at : (forall x, edge (h1' x) = edge (h (f x)) /\ e0 (h1' x) = e0 (h (f x)) /\
    e1 (h1' x) = e1 (h (f x)) /\ st (h1' x) = st (h (f x))) /\
  par (h1' a) = fo (par (h b)) /\ par (h1' b) = fo (par (h a)) /\
  (forall x, x <> a -> x <> b -> h1' x = h x).
Proof.
  destruct W as (W1 & W2 & W3 & W4 & W5).
  set (ha := if peq (par (h1 a)) (Some a) then set_par h1 a (Some b) else h1).
  assert (Ha : ha a = with_par (h b) (fo (par (h b))) /\ forall x, x <> a -> ha x = h1 x).
  { unfold ha. rewrite (h1_at a), f_a.
    destruct (peq_spec (par (h b)) (Some a)) as [P|P].
    - rewrite P. cbn. rewrite f_a. split.
      + unfold set_par, hput. rewrite Nat.eqb_refl, h1_at, f_a. reflexivity.
      + intros x Hx. unfold set_par, hput. destruct (Nat.eqb_spec x a); congruence.
    - split; [|reflexivity]. rewrite h1_at, f_a.
      assert (fo (par (h b)) = par (h b)) as ->.
      { destruct (par (h b)) as [p|] eqn:Pb; [|reflexivity]. cbn.
        destruct (f_cases p) as [(->&_)|[(->&_)|(_&_&->)]]; try congruence.
        exfalso. eapply W4; [exact Db|assumption]. }
      now destruct (h b). }
  assert (Hb : h1' b = with_par (h a) (fo (par (h a))) /\ forall x, x <> b -> h1' x = ha x).
  { unfold h1'. fold ha. cbv zeta. destruct Ha as (_ & Ha).
    rewrite (Ha b) by congruence. rewrite (h1_at b), f_b.
    destruct (peq_spec (par (h a)) (Some b)) as [P|P].
    - rewrite P. cbn. rewrite f_b. split.
      + unfold set_par, hput. rewrite Nat.eqb_refl, Ha by congruence. rewrite h1_at, f_b. reflexivity.
      + intros x Hx. unfold set_par, hput. destruct (Nat.eqb_spec x b); congruence.
    - split; [|reflexivity]. rewrite Ha by congruence. rewrite h1_at, f_b.
      assert (fo (par (h a)) = par (h a)) as ->.
      { destruct (par (h a)) as [p|] eqn:Pa; [|reflexivity]. cbn.
        destruct (f_cases p) as [(->&_)|[(->&_)|(_&_&->)]]; try congruence.
        exfalso. eapply W4; [exact Da|assumption]. }
      now destruct (h a). }
  destruct Ha as (Ha1 & Ha2). destruct Hb as (Hb1 & Hb2).
  split; [|split; [|split]].
  - intros x. destruct (f_cases x) as [(->&->)|[(->&->)|(Na&Nb&E)]].
    + rewrite Hb2 by assumption. rewrite Ha1. repeat split; reflexivity.
    + rewrite Hb1. repeat split; reflexivity.
    + rewrite Hb2, Ha2 by assumption. rewrite h1_at. repeat split; reflexivity.
  - rewrite Hb2 by assumption. now rewrite Ha1.
  - now rewrite Hb1.
  - intros x Na Nb. rewrite Hb2, Ha2 by assumption. rewrite h1_at. now rewrite f_o.
Qed.

(** The node as it is after the first or the second update of a child pointer. *)
Definition redo (x : nat) (n : node) (c c' : nat) : node :=
  if peq (e0 n) (Some c) then with_edge n false (Some c')
  else if peq (e1 n) (Some c) then with_edge n true (Some c') else n.

Lemma idx_child (hh : heap) p c i : edge (hh p) i = Some c ->
  (e0 (hh p) = Some c -> e1 (hh p) = Some c -> False) -> idx hh p c = Some i.
Proof.
  intros He Hn. unfold idx.
  destruct i; cbn in He.
  - rewrite He. rewrite peq_refl, orb_true_r. reflexivity.
  - rewrite He. rewrite peq_refl. cbn.
    destruct (peq_spec (e1 (hh p)) (Some c)); [exfalso; auto|reflexivity].
Qed.

Lemma set_edge_same hh x i v : set_edge hh x i v x = with_edge (hh x) i v.
Proof. unfold set_edge, hput. now rewrite Nat.eqb_refl. Qed.
Lemma set_edge_other hh x i v y : y <> x -> set_edge hh x i v y = hh y.
Proof. intros H. unfold set_edge, hput. destruct (Nat.eqb_spec y x); congruence. Qed.
Lemma with_edge_par n i v : par (with_edge n i v) = par n.
Proof. destruct i; reflexivity. Qed.
Lemma set_edge_par hh x i v y : par (set_edge hh x i v y) = par (hh y).
Proof.
  destruct (Nat.eq_dec y x) as [->|H].
  - rewrite set_edge_same. apply with_edge_par.
  - now rewrite set_edge_other.
Qed.

(** One call of swap_update_child: the parent [q] of [c'] in the old heap. *)
Lemma update_child (hh : heap) c c' :
  (c = a /\ c' = b) \/ (c = b /\ c' = a) ->
  (par (h a) <> par (h b) \/ par (h a) = None) ->
  par (hh c) = fo (par (h c')) ->
  (forall q, par (h c') = Some q -> e0 (hh (f q)) = e0 (h q) /\ e1 (hh (f q)) = e1 (h q) /\
     st (hh (f q)) = st (h q)) ->
  exists hh', swap_update_child c c' hh = Some hh' /\
    (forall y, par (hh' y) = par (hh y)) /\
    (forall y, par (h c') <> Some (f y) -> hh' y = hh y) /\
    (forall q, par (h c') = Some q -> e0 (hh' (f q)) = fo (e0 (h q)) /\
       e1 (hh' (f q)) = fo (e1 (h q)) /\ st (hh' (f q)) = st (h q)).
Proof.
  intros Hc Hs Hp He. destruct W as (W1 & W2 & W3 & W4 & W5).
  unfold swap_update_child. rewrite Hp.
  destruct (par (h c')) as [q|] eqn:P; cbn [option_map].
  - assert (Dc : D c') by (destruct Hc as [(_&->)|(_&->)]; assumption).
    destruct (W1 _ _ Dc P) as (Dq & i & Ei).
    destruct (He q eq_refl) as (H0 & H1 & H2).
    assert (Hi : edge (hh (f q)) i = Some c') by (destruct i; cbn in *; congruence).
    rewrite (idx_child _ _ _ i Hi).
    2:{ rewrite H0, H1. apply W3. assumption. }
    cbn [bind]. eexists. split; [reflexivity|]. split; [apply set_edge_par|]. split.
    + intros y Hy. apply set_edge_other. intros ->. apply Hy. now rewrite f_f.
    + intros q' Hq'. injection Hq' as <-. rewrite set_edge_same.
      assert (Oth : forall j, j <> i -> fo (edge (h q) j) = edge (h q) j).
      { intros j Hj. destruct (edge (h q) j) as [y|] eqn:Ey; [|reflexivity]. cbn.
        destruct (W2 _ _ _ Dq Ey) as (_ & Py).
        assert (y <> c').
        { intros ->. destruct i, j; try congruence; cbn in Ei, Ey; eapply W3; eauto. }
        assert (y <> c).
        { intros ->. destruct Hc as [(->&->)|(->&->)]; rewrite Py, P in Hs; destruct Hs; congruence. }
        rewrite f_o; [reflexivity| |]; destruct Hc as [(->&->)|(->&->)]; assumption. }
      assert (Fc : Some c = fo (Some c')).
      { cbn. destruct Hc as [(->&->)|(->&->)]; rewrite ?f_a, ?f_b; reflexivity. }
      destruct i; cbn in *.
      * specialize (Oth false ltac:(congruence)). cbn in Oth. rewrite Oth, Ei. cbn.
        split; [assumption|]. split; [assumption|assumption].
      * specialize (Oth true ltac:(congruence)). cbn in Oth. rewrite Oth, Ei. cbn.
        split; [assumption|]. split; [assumption|assumption].
  - eexists. split; [reflexivity|]. split; [reflexivity|]. split; [reflexivity|]. discriminate.
Qed.

Lemma other_phase : (par (h a) <> par (h b) \/ par (h a) = None) ->
  exists h2 h3, swap_update_child a b h1' = Some h2 /\ swap_update_child b a h2 = Some h3 /\ mid h3.
Proof.
  intros Hs. destruct h1'_at as (He & Pa & Pb & Ho).
  destruct W as (W1 & W2 & W3 & W4 & W5).
  destruct (update_child h1' a b) as (h2 & E2 & P2 & O2 & C2); [auto|assumption|assumption| |].
  { intros q _. destruct (He (f q)) as (_ & ? & ? & ?). rewrite f_f in *. auto. }
  assert (Nab : forall q, par (h a) = Some q -> par (h b) <> Some q).
  { intros q Ha Hb. destruct Hs; congruence. }
  destruct (update_child h2 b a) as (h3 & E3 & P3 & O3 & C3); [auto|assumption| | |].
  { now rewrite P2. }
  { intros q Hq. rewrite O2 by (rewrite f_f; now apply Nab).
    destruct (He (f q)) as (_ & ? & ? & ?). rewrite f_f in *. auto. }
  exists h2, h3. split; [assumption|]. split; [assumption|].
  split; [|split; [|split; [|split]]].
  - intros x Dx. cbn.
    destruct (par (h a)) as [qa|] eqn:EPa; [destruct (Nat.eq_dec x (f qa)) as [->|Ha]|].
    + rewrite f_f. now apply C3.
    + rewrite O3 by (intros X; apply Ha; injection X as ->; now rewrite f_f).
      destruct (par (h b)) as [qb|] eqn:EPb; [destruct (Nat.eq_dec x (f qb)) as [->|Hb]|].
      * rewrite f_f. now apply C2.
      * rewrite O2 by (intros X; apply Hb; injection X as ->; now rewrite f_f).
        destruct (He x) as (_ & -> & -> & ->).
        pose proof (no_child (f x) false (f_D _ Dx)) as N0.
        pose proof (no_child (f x) true (f_D _ Dx)) as N1. cbn in N0, N1.
        rewrite EPa, EPb in N0, N1.
        rewrite N0, N1; try (intros X; injection X as ->; rewrite f_f in *; congruence). auto.
      * rewrite O2 by congruence. destruct (He x) as (_ & -> & -> & ->).
        pose proof (no_child (f x) false (f_D _ Dx)) as N0.
        pose proof (no_child (f x) true (f_D _ Dx)) as N1. cbn in N0, N1.
        rewrite EPa, EPb in N0, N1.
        rewrite N0, N1; try (intros X; injection X as ->; rewrite f_f in *; congruence); try congruence. auto.
    + rewrite O3 by congruence.
      destruct (par (h b)) as [qb|] eqn:EPb; [destruct (Nat.eq_dec x (f qb)) as [->|Hb]|].
      * rewrite f_f. now apply C2.
      * rewrite O2 by (intros X; apply Hb; injection X as ->; now rewrite f_f).
        destruct (He x) as (_ & -> & -> & ->).
        pose proof (no_child (f x) false (f_D _ Dx)) as N0.
        pose proof (no_child (f x) true (f_D _ Dx)) as N1. cbn in N0, N1.
        rewrite EPa, EPb in N0, N1.
        rewrite N0, N1; try (intros X; injection X as ->; rewrite f_f in *; congruence); try congruence. auto.
      * rewrite O2 by congruence. destruct (He x) as (_ & -> & -> & ->).
        pose proof (no_child (f x) false (f_D _ Dx)) as N0.
        pose proof (no_child (f x) true (f_D _ Dx)) as N1. cbn in N0, N1.
        rewrite EPa, EPb in N0, N1. rewrite N0, N1 by congruence. auto.
  - rewrite P3, P2, Pa. cbn. now rewrite f_a.
  - rewrite P3, P2, Pb. cbn. now rewrite f_b.
  - intros x Na Nb. rewrite P3, P2. now rewrite Ho.
  - intros x Nx. assert (Na : x <> a) by (intros ->; contradiction).
    assert (Nb : x <> b) by (intros ->; contradiction).
    rewrite O3, O2, Ho by
      (assumption || (rewrite f_o by assumption; intros X; apply Nx; eapply W1; [|exact X]; assumption)).
    reflexivity.
Qed.

Lemma swap_ok : exists h', swap_p a b h = Some h' /\
  (forall x, D x -> h' x = target x) /\ (forall x, ~ D x -> h' x = h x).
Proof.
  destruct W as (W1 & W2 & W3 & W4 & W5).
  unfold swap_p. destruct (Nat.eqb_spec a b) as [|_]; [congruence|].
  fold h1. cbv zeta.
  assert (H1a : h1 a = h b) by (rewrite h1_at; now rewrite f_a).
  assert (H1b : h1 b = h a) by (rewrite h1_at; now rewrite f_b).
  destruct (par (h1 a)) as [q|] eqn:Pa.
  - destruct (peq_spec (Some q) (par (h1 b))) as [S|S].
    + rewrite H1a in Pa. rewrite H1b in S.
      destruct (sibling_phase q) as (h2 & M & A0 & A1 & E2); [congruence|assumption|].
      rewrite A0, A1. unfold check.
      rewrite H1b, <- S. rewrite H1a, Pa || idtac.
      destruct (peq_spec (Some q) (Some a)) as [X|_]; [exfalso; injection X as ->; eapply W4; [exact Da|congruence]|].
      destruct (peq_spec (Some q) (Some b)) as [X|_]; [exfalso; injection X as ->; eapply W4; [exact Db|congruence]|].
      cbn [negb bind]. rewrite <- E2. eexists. split; [reflexivity|]. now apply last_phase.
    + fold (h1'). change (if peq (par ((if peq (Some q) (Some a) then set_par h1 a (Some b) else h1) b)) (Some b)
        then set_par (if peq (Some q) (Some a) then set_par h1 a (Some b) else h1) b (Some a)
        else (if peq (Some q) (Some a) then set_par h1 a (Some b) else h1)) with h1' || idtac.
      assert (Hh : (if peq (par ((if peq (Some q) (Some a) then set_par h1 a (Some b) else h1) b)) (Some b)
        then set_par (if peq (Some q) (Some a) then set_par h1 a (Some b) else h1) b (Some a)
        else (if peq (Some q) (Some a) then set_par h1 a (Some b) else h1)) = h1').
      { unfold h1'. cbv zeta. rewrite Pa. reflexivity. }
      rewrite Hh.
      destruct other_phase as (h2 & h3 & E2 & E3 & M).
      { left. rewrite H1a in Pa. rewrite H1b in S. congruence. }
      rewrite E2. cbn [bind]. rewrite E3. cbn [bind].
      eexists. split; [reflexivity|]. now apply last_phase.
  - assert (Hh : (if peq (par ((if peq None (Some a) then set_par h1 a (Some b) else h1) b)) (Some b)
        then set_par (if peq None (Some a) then set_par h1 a (Some b) else h1) b (Some a)
        else (if peq None (Some a) then set_par h1 a (Some b) else h1)) = h1').
    { unfold h1'. cbv zeta. rewrite Pa. reflexivity. }
    rewrite Hh.
    destruct other_phase as (h2 & h3 & E2 & E3 & M).
    { rewrite H1a in Pa. destruct (par (h a)) eqn:X; [left; congruence|now right]. }
    rewrite E2. cbn [bind]. rewrite E3. cbn [bind].
    eexists. split; [reflexivity|]. now apply last_phase.
Qed.
End swap.
