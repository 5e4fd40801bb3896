(** Proofs about snap rounding: geometry, and the ends of the edges *)
From Coq Require Import ZArith QArith NArith List Bool Lia Lqa Arith Permutation.
From Verif Require Import Matq_model Matq_spec Matq_proofs5 Matq_props Reduce_model Reduce_spec Reduce_proofs Sweep_spec Sweep_proofs Sweep_proofs4 Snap_model Snap_spec Snap_proofs Snap_proofs2 Snap_proofs3.
Import ListNotations.
Local Open Scope Z_scope.
Local Notation edge_of := Sweep_spec.edge_of.

Lemma seg_left : forall a b, on_segment (inject_Z (fst a)) (inject_Z (snd a)) a b.
Proof. intros a b. exists 0%Q. split; [lra|]. split; lra. Qed.
Lemma cell_self : forall p, in_cell (inject_Z (fst p)) (inject_Z (snd p)) (fst p) (snd p).
Proof. intros p. unfold in_cell. repeat split; lra. Qed.
Lemma good_touches : forall E X ids xs i p, lex_lt (left (E i)) (rigt (E i)) -> vec_int (left (E i)) -> vec_int (rigt (E i)) ->
  (hot E X ids xs p -> vec_int p) -> good E X ids xs true i p -> touches (E i) p.
Proof.
  intros E X ids xs i p LT I1 I2 HI (G1 & G2). destruct (G2 eq_refl) as [-> | G].
  - exists (inject_Z (fst (left (E i)))), (inject_Z (snd (left (E i)))). split; [apply seg_left|apply cell_self].
  - unfold cmp_tol in G. assert (NE : left (E i) <> rigt (E i)) by (intros Q; rewrite Q in LT; unfold lex_lt in LT; lia).
    assert (LE : fst (left (E i)) <= fst (rigt (E i))) by (unfold lex_lt in LT; lia).
    pose proof (C06_cmp_edge_rnd p (rigt (E i)) (left (E i)) (HI G1) I2 I1 NE LE) as C.
    destruct (cmp_edge_rnd _ _ _ _ _ _) as [r| |]; [|discriminate|discriminate].
    assert (r = 0) as ->.
    { unfold Reduce_model.sign, Reduce_model.cp_cmp in G. destruct (Z.ltb_spec r 0); [discriminate|]. destruct (Z.ltb_spec 0 r); [discriminate|]. lia. }
    unfold edge_rnd_spec in C. destruct C as (C & _). apply C. reflexivity.
Qed.

Lemma mix : forall t a b : Q, (0 <= t <= 1 -> -(1 # 2) <= a <= 1 # 2 -> -(1 # 2) <= b <= 1 # 2 -> -(1 # 2) <= (1 - t) * a + t * b <= 1 # 2)%Q.
Proof. intros t a b HT HA HB. nra. Qed.
Lemma near_link : forall e p q x y, touches e p -> touches e q -> on_segment x y p q -> near e x y.
Proof.
  intros e p q x y (a1 & a2 & (s & Hs & A1 & A2) & CA) (b1 & b2 & (s' & Hs' & B1 & B2) & CB) (t & Ht & X1 & X2).
  unfold in_cell in *. exists ((1 - t) * a1 + t * b1)%Q, ((1 - t) * a2 + t * b2)%Q. split.
  - exists ((1 - t) * s + t * s')%Q. split; [nra|]. rewrite A1, A2, B1, B2. split; ring.
  - pose proof (mix t (inject_Z (fst p) - a1) (inject_Z (fst q) - b1) Ht ltac:(lra) ltac:(lra)) as M1.
    pose proof (mix t (inject_Z (snd p) - a2) (inject_Z (snd q) - b2) Ht ltac:(lra) ltac:(lra)) as M2.
    assert (E1 : (x - ((1 - t) * a1 + t * b1) == (1 - t) * (inject_Z (fst p) - a1) + t * (inject_Z (fst q) - b1))%Q) by (rewrite X1; ring).
    assert (E2 : (y - ((1 - t) * a2 + t * b2) == (1 - t) * (inject_Z (snd p) - a2) + t * (inject_Z (snd q) - b2))%Q) by (rewrite X2; ring).
    rewrite E1, E2. tauto.
Qed.
Lemma path_in : forall g lt a b l, path g lt a b l -> forall p, In p l -> g p.
Proof. intros g lt a b l P. induction P; intros p I; [destruct I as [<- | []]; auto|]. apply in_app_or in I. destruct I as [I|[<- | []]]; auto. Qed.
Lemma links_in : forall l p q, In (p, q) (links l) -> In p l /\ In q l.
Proof. intros l p q I. unfold links in I. split; [eapply in_combine_l; eauto|]. apply in_combine_r in I. destruct l; [destruct I|right; exact I]. Qed.

(** Ends *)
Lemma path_ends : forall g lt a b l x m, path g lt a b l -> odd_members (ends_at x) (map (edge_of m) (links l)) = N.lxor (if same x a then m else 0%N) (if same x b then m else 0%N).
Proof.
  intros g lt a b l x m P. induction P as [G|b c l P IH L G].
  - cbn. symmetry. apply N.lxor_nilpotent.
  - destruct (path_last _ _ _ _ _ P) as (k & ->). rewrite links_snoc, map_app, odd_app, IH. cbn [map].
    replace (odd_members (ends_at x) [edge_of m (b, c)]) with (N.lxor (if same x b then m else 0%N) (if same x c then m else 0%N)).
    + generalize (if same x a then m else 0%N), (if same x b then m else 0%N), (if same x c then m else 0%N). intros. xor_solve.
    + rewrite odd_members_terms. cbn [map]. rewrite xor_cons, ends_edge_of. cbn [fst snd]. symmetry. apply N.lxor_0_r.
Qed.
Lemma routed_ends : forall E g lt ch ids x, (forall i, In i ids -> path (g i) (lt i) (left (E i)) (rigt (E i)) (ch i)) ->
  odd_members (ends_at x) (routed E ch ids) = odd_members (ends_at x) (map E ids).
Proof.
  intros E g lt ch ids x. induction ids as [|i ids IH]; intros H; [reflexivity|]. unfold routed. cbn [flat_map map]. rewrite odd_app, (odd_cons _ (E i)). f_equal.
  - rewrite (path_ends _ _ _ _ _ _ _ (H i (or_introl eq_refl))). destruct (E i) as [a b m]. rewrite odd_one. cbn [left rigt member]. unfold ends_at. cbn [left rigt].
    destruct (same x a), (same x b); cbn [xorb]; rewrite ?N.lxor_nilpotent, ?N.lxor_0_r, ?N.lxor_0_l; reflexivity.
  - apply IH. intros j J. apply H. right. exact J.
Qed.
Lemma place_half : forall p, of_place (on_half p).
Proof. intros p a b m n. reflexivity. Qed.
Lemma place_beneath : forall p, of_place (beneath p).
Proof. intros p a b m n. reflexivity. Qed.
Lemma place_ends : forall x, of_place (ends_at x).
Proof. intros p a b m n. reflexivity. Qed.
Lemma same_cover_place : forall a b, (forall f, of_place f -> odd_members f a = odd_members f b) -> same_cover a b.
Proof. intros a b H. split; [|split]; intros; apply H; [apply place_half|apply place_beneath|apply place_ends]. Qed.
