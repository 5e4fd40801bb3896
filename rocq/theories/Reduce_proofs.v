(** Proofs about the reduction pass: arrangements without vertical edges, in which different ends have different abscissas *)
From Coq Require Import ZArith NArith List Bool Lia Permutation Sorted.
From Verif Require Import Reduce_model Reduce_spec.
Import ListNotations.
Open Scope Z_scope.

(** ** Xor *)
Lemma xor_all_app : forall a b, xor_all (a ++ b) = N.lxor (xor_all a) (xor_all b).
Proof. induction a as [|x a IH]; intros b; [cbn [app]; unfold xor_all at 2; cbn [fold_right]; rewrite N.lxor_0_l; reflexivity|]. cbn [app]. change (xor_all (x :: a ++ b)) with (N.lxor x (xor_all (a ++ b))). change (xor_all (x :: a)) with (N.lxor x (xor_all a)). rewrite IH. apply eq_sym, N.lxor_assoc. Qed.
Lemma xor_all_perm : forall a b, Permutation a b -> xor_all a = xor_all b.
Proof.
  intros a b P. induction P; simpl; try congruence.
  rewrite <- !N.lxor_assoc. f_equal. apply N.lxor_comm.
Qed.
Lemma xor_set : forall (m : nat -> N) a b, NoDup a -> NoDup b -> (forall x, In x a <-> In x b) -> xor_all (map m a) = xor_all (map m b).
Proof. intros m a b Na Nb H. apply xor_all_perm, Permutation_map, NoDup_Permutation; auto. Qed.

Lemma NoDup_app_l : forall (a b : list nat), NoDup (a ++ b) -> NoDup a.
Proof.
  induction a as [|x a IH]; intros b H; [constructor|]. inversion H; subst. constructor; [|eauto].
  intros X. apply H2. apply in_or_app; auto.
Qed.

Lemma sign_pos : forall x, 0 < x -> sign x = 1.
Proof. intros x H. unfold sign, cp_cmp. destruct (Z.ltb_spec x 0); [lia|]. destruct (Z.ltb_spec 0 x); lia. Qed.
Lemma sign_neg : forall x, x < 0 -> sign x = -1.
Proof. intros x H. unfold sign, cp_cmp. destruct (Z.ltb_spec x 0); lia. Qed.
Lemma sign_0 : forall x, x = 0 -> sign x = 0.
Proof. intros x ->. reflexivity. Qed.

Definition xl (e : edge) := fst (left e).
Definition xr (e : edge) := fst (rigt e).
Definition dx (e : edge) := fst (rigt e) - fst (left e).
Definition dy (e : edge) := snd (rigt e) - snd (left e).
(** dx times the ordinate at abscissa [X] *)
Definition num (e : edge) (X : Z) : Z := snd (left e) * dx e + (X - xl e) * dy e.
Definition Df (f g : edge) (X : Z) : Z := num g X * dx f - num f X * dx g.
(** the side of a point *)
Definition hgt (v : Z * Z) (e : edge) : Z := snd v * dx e - num e (fst v).
Lemma Df_opp : forall f g X, Df g f X = - Df f g X.
Proof. intros. unfold Df. ring. Qed.
Lemma Df_left : forall f e, Df f e (xl e) = dx e * hgt (left e) f.
Proof. intros. unfold Df, hgt, num, xl. ring. Qed.
Lemma Df_rigt : forall f e, Df f e (xr e) = dx e * hgt (rigt e) f.
Proof. intros. unfold Df, hgt, num, xl, xr, dx, dy. ring. Qed.
Lemma cmp_exact_hgt : forall v e, vec2_edge_cmp_exact v e = sign (hgt v e).
Proof. intros. unfold vec2_edge_cmp_exact. f_equal. unfold cross3_z, hgt, num, xl, dx, dy. ring. Qed.
Lemma Df_common : forall f g X, left f = left g -> Df f g X = (X - xl f) * cross3_z (rigt f) (left g) (rigt g).
Proof. intros f g X H. unfold Df, num, cross3_z, xl, dx, dy. rewrite H. ring. Qed.
Lemma height_hgt : forall v e, height (mk_point (fst v) (snd v) 1) e = hgt v e.
Proof. intros. unfold height, hgt, num, xl, dx, dy. cbn [px py pd]. ring. Qed.

Definition ltE (f g : edge) : bool := 0 <? Df f g (Z.max (xl f) (xl g) + 1).

Section Generic.
Variables (E : nat -> edge) (ids : list nat).
Definition isv (v : Z * Z) : Prop := exists e, In e ids /\ (v = left (E e) \/ v = rigt (E e)).
Hypothesis HN : NoDup ids.
Hypothesis Hlr : forall e, In e ids -> xl (E e) < xr (E e).
Hypothesis Hev : forall v, isv v -> exists k, fst v = 2 * k.
Hypothesis Hgx : forall v w, isv v -> isv w -> fst v = fst w -> v = w.
Definition both (f g : nat) (X : Z) : Prop := xl (E f) <= X <= xr (E f) /\ xl (E g) <= X <= xr (E g).
Hypothesis H3a : forall f g X Y, In f ids -> In g ids -> f <> g -> both f g X -> both f g Y -> 0 < Df (E f) (E g) X -> 0 <= Df (E f) (E g) Y.
Hypothesis H3b : forall f g X, In f ids -> In g ids -> f <> g -> both f g X -> Df (E f) (E g) X = 0 ->
  (X = xl (E f) \/ X = xr (E f)) /\ (X = xl (E g) \/ X = xr (E g)).

Definition ltb (f g : nat) : bool := ltE (E f) (E g).
Definition overlap (f g : nat) : Prop := xl (E f) < xr (E g) /\ xl (E g) < xr (E f).
Notation lt f g := (ltb f g = true).

Lemma isv_l : forall e, In e ids -> isv (left (E e)). Proof. intros e H. exists e; auto. Qed.
Lemma isv_r : forall e, In e ids -> isv (rigt (E e)). Proof. intros e H. exists e; auto. Qed.
Lemma gap : forall v w, isv v -> isv w -> fst v < fst w -> fst v + 1 < fst w.
Proof. intros v w V W L. destruct (Hev v V) as (a & A), (Hev w W) as (b & B). lia. Qed.
Lemma mid_open : forall f g, In f ids -> In g ids -> overlap f g ->
  let X := Z.max (xl (E f)) (xl (E g)) + 1 in xl (E f) < X < xr (E f) /\ xl (E g) < X < xr (E g).
Proof.
  intros f g F G (O1 & O2) X. pose proof (Hlr f F). pose proof (Hlr g G).
  pose proof (gap _ _ (isv_l f F) (isv_r g G) O1). pose proof (gap _ _ (isv_l g G) (isv_r f F) O2).
  pose proof (gap _ _ (isv_l g G) (isv_r g G)). pose proof (gap _ _ (isv_l f F) (isv_r f F)).
  unfold X, xl, xr in *. lia.
Qed.
Lemma open_nz : forall f g X, In f ids -> In g ids -> f <> g -> xl (E f) < X < xr (E f) -> xl (E g) < X < xr (E g) ->
  Df (E f) (E g) X <> 0.
Proof. intros f g X F G N A B H. destruct (H3b f g X F G N) as (C & _); [split; lia|exact H|]. lia. Qed.

Lemma lt_pos : forall f g X, In f ids -> In g ids -> f <> g -> overlap f g -> both f g X ->
  if ltb f g then 0 <= Df (E f) (E g) X else Df (E f) (E g) X <= 0.
Proof.
  intros f g X F G N O B. pose proof (mid_open f g F G O) as M. simpl in M. unfold ltb, ltE.
  set (Y := Z.max (xl (E f)) (xl (E g)) + 1) in *.
  assert (BY : both f g Y) by (split; lia).
  destruct (Z.ltb_spec 0 (Df (E f) (E g) Y)) as [P|P].
  - apply (H3a f g Y X); auto.
  - assert (Df (E f) (E g) Y <> 0) by (apply open_nz; tauto).
    assert (0 <= Df (E g) (E f) X).
    { apply (H3a g f Y X); auto; [unfold both in *; tauto|unfold both in *; tauto|]. rewrite Df_opp. lia. }
    rewrite Df_opp in H0. lia.
Qed.
Lemma lt_pos_open : forall f g X, In f ids -> In g ids -> f <> g -> xl (E f) < X < xr (E f) -> xl (E g) < X < xr (E g) ->
  ltb f g = (0 <? Df (E f) (E g) X).
Proof.
  intros f g X F G N A B. pose proof (open_nz f g X F G N A B) as NZ.
  assert (overlap f g) as O by (split; lia).
  pose proof (lt_pos f g X F G N O) as P. specialize (P ltac:(split; lia)).
  destruct (ltb f g), (Z.ltb_spec 0 (Df (E f) (E g) X)); auto; lia.
Qed.
Lemma lt_anti : forall f g, In f ids -> In g ids -> f <> g -> overlap f g -> ltb g f = negb (ltb f g).
Proof.
  intros f g F G N O. pose proof (mid_open f g F G O) as M. simpl in M.
  set (Y := Z.max (xl (E f)) (xl (E g)) + 1) in *.
  rewrite (lt_pos_open f g Y), (lt_pos_open g f Y) by tauto || auto.
  assert (NZ : Df (E f) (E g) Y <> 0) by (apply open_nz; tauto). rewrite Df_opp.
  destruct (Z.ltb_spec 0 (- Df (E f) (E g) Y)), (Z.ltb_spec 0 (Df (E f) (E g) Y)); simpl; auto; lia.
Qed.
Lemma lt_irrefl : forall f, ltb f f = false.
Proof. intros f. unfold ltb, ltE. destruct (Z.ltb_spec 0 (Df (E f) (E f) (Z.max (xl (E f)) (xl (E f)) + 1))) as [H|H]; auto. unfold Df in H. lia. Qed.
Lemma lt_ov_ne : forall f g, lt f g -> f <> g.
Proof. intros f g H ->. rewrite lt_irrefl in H. discriminate. Qed.
Lemma lt_trans : forall f g h X, In f ids -> In g ids -> In h ids -> xl (E f) < X < xr (E f) -> xl (E g) < X < xr (E g) -> xl (E h) < X < xr (E h) ->
  lt f g -> lt g h -> lt f h.
Proof.
  intros f g h X F G H A B C L1 L2.
  pose proof (lt_ov_ne _ _ L1). pose proof (lt_ov_ne _ _ L2).
  rewrite (lt_pos_open f g X) in L1 by auto. rewrite (lt_pos_open g h X) in L2 by auto.
  apply Z.ltb_lt in L1, L2. unfold Df in L1, L2.
  assert (0 < dx (E f)) by (unfold dx, xl, xr in *; lia).
  assert (0 < dx (E g)) by (unfold dx, xl, xr in *; lia).
  assert (0 < dx (E h)) by (unfold dx, xl, xr in *; lia).
  assert (P : 0 < Df (E f) (E h) X).
  { unfold Df. revert L1 L2. generalize (num (E f) X) (num (E g) X) (num (E h) X). intros a b c L1 L2.
    assert (K : 0 < dx (E g) * (c * dx (E f) - a * dx (E h))).
    { replace (dx (E g) * (c * dx (E f) - a * dx (E h))) with ((b * dx (E f) - a * dx (E g)) * dx (E h) + (c * dx (E g) - b * dx (E h)) * dx (E f)) by ring.
      nia. }
    nia. }
  destruct (Nat.eq_dec f h) as [->|N].
  - exfalso. unfold Df in P. lia.
  - rewrite (lt_pos_open f h X) by auto. apply Z.ltb_lt. exact P.
Qed.

(** ** The comparison function *)
Lemma tcmp : forall e f, In e ids -> In f ids -> e <> f -> xl (E f) <= xl (E e) < xr (E f) ->
  tree_vertex_edge_cmp E e f = if ltb f e then 1 else -1.
Proof.
  intros e f IE IF N A. pose proof (Hlr e IE) as Le. pose proof (Hlr f IF) as Lf.
  assert (O : overlap f e) by (split; lia).
  assert (B : both f e (xl (E e))) by (split; lia).
  pose proof (lt_pos f e _ IF IE (not_eq_sym N) O B) as P. rewrite Df_left in P.
  assert (0 < dx (E e)) as De by (unfold dx, xl, xr in *; lia).
  unfold tree_vertex_edge_cmp. rewrite cmp_exact_hgt.
  destruct (Z.lt_trichotomy (hgt (left (E e)) (E f)) 0) as [H|[H|H]].
  - rewrite sign_neg by auto. simpl. destruct (ltb f e); [nia|reflexivity].
  - rewrite sign_0 by auto. simpl.
    assert (Z0 : Df (E f) (E e) (xl (E e)) = 0) by (rewrite Df_left, H; ring).
    destruct (H3b f e _ IF IE (not_eq_sym N) B Z0) as ([X|X] & _); [|lia].
    assert (LL : left (E f) = left (E e)) by (apply Hgx; [apply isv_l; auto|apply isv_l; auto|unfold xl in X; lia]).
    pose proof (mid_open f e IF IE O) as M. simpl in M.
    pose proof (lt_pos_open f e _ IF IE (not_eq_sym N) (proj1 M) (proj2 M)) as LP.
    pose proof (open_nz f e _ IF IE (not_eq_sym N) (proj1 M) (proj2 M)) as NZ.
    rewrite Df_common in LP, NZ by auto.
    replace (Z.max (xl (E f)) (xl (E e)) + 1 - xl (E f)) with 1 in LP, NZ by (unfold xl in *; lia).
    rewrite Z.mul_1_l in LP, NZ. rewrite LP.
    destruct (Z.ltb_spec 0 (cross3_z (rigt (E f)) (left (E e)) (rigt (E e)))).
    + rewrite sign_pos by auto. reflexivity.
    + rewrite sign_neg by lia. reflexivity.
  - rewrite sign_pos by auto. simpl. destruct (ltb f e); [reflexivity|nia].
Qed.

Lemma insert_sorted : forall e S, In e ids -> (forall f, In f S -> In f ids /\ f <> e /\ xl (E f) <= xl (E e) < xr (E f)) ->
  StronglySorted (fun f g => lt f g) S ->
  exists lo hi, insert_by (tree_vertex_edge_cmp E e) S = Some (lo, hi) /\ S = lo ++ hi
  /\ (forall f, In f lo -> lt f e) /\ (forall f, In f hi -> lt e f).
Proof.
  intros e S IE. induction S as [|f S IH]; intros H SS; simpl.
  { exists [], []. repeat split; intros f []. }
  destruct (H f (or_introl eq_refl)) as (IF & N & A). rewrite tcmp by auto.
  inversion SS as [|? ? SS' FA]; subst.
  assert (O : forall g, In g (f :: S) -> overlap g e).
  { intros g G. destruct (H g G) as (Ig & _ & Ag). pose proof (Hlr e IE). split; lia. }
  destruct (ltb f e) eqn:L; simpl.
  - destruct IH as (lo & hi & E1 & E2 & E3 & E4); [intros g G; apply H; right; exact G|exact SS'|].
    rewrite E1. exists (f :: lo), hi. split; [reflexivity|]. split; [simpl; congruence|]. split; [|exact E4].
    intros g [ <- | G]; auto.
  - exists [], (f :: S). split; [reflexivity|]. split; [reflexivity|]. split; [intros g []|].
    assert (Lef : lt e f).
    { pose proof (lt_anti f e IF IE N (O f (or_introl eq_refl))) as Q. rewrite Q, L. reflexivity. }
    intros g [ <- | G]; [exact Lef|]. destruct (H g (or_intror G)) as (Ig & Ng & Ag).
    assert (K : forall w, isv w -> xl (E e) < fst w -> xl (E e) + 1 < fst w) by (intros w W; apply (gap (left (E e)) w (isv_l e IE) W)).
    pose proof (K _ (isv_r e IE) (Hlr e IE)). pose proof (K _ (isv_r f IF) ltac:(unfold xr in *; lia)). pose proof (K _ (isv_r g Ig) ltac:(unfold xr in *; lia)).
    apply (lt_trans e f g (xl (E e) + 1)); auto; try (unfold xr in *; lia).
    rewrite Forall_forall in FA. apply FA, G.
Qed.

(** ** The run *)
Variables (comb : N -> bool) (n : N) (res : list vertex).
Hypothesis Hm : forall e, In e ids -> (member (E e) < 2 ^ n)%N.
Hypothesis Hres : ends_of E ids res.
Hypothesis Hcl : closed E ids.

Definition m (e : nat) : N := member (E e).
Definition Bs (e : nat) : list nat := filter (fun f => negb (Nat.eqb f e) && (xl (E f) <=? xl (E e)) && (xl (E e) <? xr (E f)) && ltb f e) ids.
Definition B (e : nat) : N := xor_all (map m (Bs e)).
Definition K (e : nat) : bool := xorb (comb (B e)) (comb (N.lxor (B e) (m e))).
Definition U (S : list nat) (g : nat) : N := xor_all (map m (filter (fun f => ltb f g) S)).
Definition evx (v : vertex) : Z := fst (end_of E v).
Definition delta (pre : list vertex) (c : Z) : N := xor_all (map (fun v => m (fst v)) (filter (fun v => evx v =? c) pre)).
Definition active (pre : list vertex) (e : nat) : Prop := In (e, false) pre /\ ~ In (e, true) pre.
Definition Inv5 (pre : list vertex) (v : Z * Z) (S : list nat) : Prop := forall g, In g S ->
  (hgt v (E g) < 0 -> B g = N.lxor (U S g) (delta pre (fst v)))
  /\ (0 < hgt v (E g) \/ left (E g) = v -> B g = U S g).
Definition Full (S : list nat) : Prop := forall g, In g S -> B g = U S g.
Definition done (pre : list vertex) (v : vertex) : bool := negb (existsb (vertex_eqb v) pre) || K (fst v).
Definition Inv (pre : list vertex) (d : data) : Prop :=
  (forall e, In e (state d) <-> active pre e)
  /\ StronglySorted (fun f g => lt f g) (state d)
  /\ (forall e, ~ In (e, true) pre -> mem d e = m e)
  /\ (forall e, In e (state d) -> below d e = B e /\ keep d e = K e)
  /\ result d = filter (done pre) res.

Lemma vertex_eqb_eq : forall a b, vertex_eqb a b = true <-> a = b.
Proof.
  intros [a s] [b t]. unfold vertex_eqb. simpl. rewrite andb_true_iff, Nat.eqb_eq, eqb_true_iff.
  split; [intros (-> & ->); auto|intros X; inversion X; auto].
Qed.

Lemma xor_lt : forall a b, (a < 2 ^ n)%N -> (b < 2 ^ n)%N -> (N.lxor a b < 2 ^ n)%N.
Proof.
  intros a b A C. destruct (N.eq_dec (N.lxor a b) 0) as [->|Z]; [apply N.neq_0_lt_0, N.pow_nonzero; discriminate|].
  apply N.log2_lt_pow2; [lia|].
  pose proof (N.log2_lxor a b) as L.
  destruct (N.eq_dec n 0) as [->|Nz].
  { exfalso. apply Z. change (2 ^ 0)%N with 1%N in *. replace a with 0%N by lia. replace b with 0%N by lia. reflexivity. }
  assert (Q : forall c, (c < 2 ^ n)%N -> (N.log2 c < n)%N).
  { intros c Hc. destruct (N.eq_dec c 0) as [->|Zc]; [change (N.log2 0) with 0%N; lia|]. apply N.log2_lt_pow2; [lia|exact Hc]. }
  pose proof (Q a A). pose proof (Q b C). lia.
Qed.
Lemma xor_all_lt : forall l, (forall x, In x l -> (x < 2 ^ n)%N) -> (xor_all l < 2 ^ n)%N.
Proof.
  induction l as [|x l IH]; intros H.
  - apply N.neq_0_lt_0, N.pow_nonzero; discriminate.
  - change (xor_all (x :: l)) with (N.lxor x (xor_all l)). apply xor_lt; [apply H; left; auto|apply IH; intros; apply H; right; auto].
Qed.
Lemma B_lt : forall e, (B e < 2 ^ n)%N.
Proof.
  intros e. apply xor_all_lt. intros x X. apply in_map_iff in X. destruct X as (f & <- & F). apply filter_In in F. apply Hm, F.
Qed.

Lemma res_in : forall e s, In (e, s) res <-> In e ids. Proof. intros e s. destruct Hres as (_ & H & _). apply H. Qed.
Lemma isv_end : forall v, In v res -> isv (end_of E v).
Proof. intros [e s] H. apply res_in in H. exists e. split; [exact H|]. unfold end_of. simpl. destruct s; auto. Qed.
Lemma order : forall a b c v w, res = a ++ v :: b ++ w :: c ->
  evx v < evx w \/ (end_of E v = end_of E w /\
    (snd v = true \/ (snd v = false /\ snd w = false /\ 0 < hgt (rigt (E (fst w))) (E (fst v))))).
Proof.
  intros a b c v w R. destruct Hres as (_ & _ & H).
  assert (V : In v res) by (rewrite R; apply in_or_app; right; left; auto).
  assert (W : In w res) by (rewrite R; apply in_or_app; right; right; apply in_or_app; right; left; auto).
  destruct (H a b c v w R) as [[L|(L1 & L2)]|(Q1 & Q2)].
  - left. exact L.
  - exfalso. assert (X : end_of E v = end_of E w) by (apply Hgx; [apply isv_end, V|apply isv_end, W|exact L1]). rewrite X in L2. lia.
  - right. split; [exact Q1|]. destruct Q2 as [Q2|(Q2 & Q3 & Q4)]; [left; exact Q2|right].
    split; [exact Q2|]. split; [exact Q3|]. rewrite height_hgt in Q4. exact Q4.
Qed.
Lemma order_in : forall pre v post a, res = pre ++ v :: post -> In a pre ->
  evx a < evx v \/ (end_of E a = end_of E v /\
    (snd a = true \/ (snd a = false /\ snd v = false /\ 0 < hgt (rigt (E (fst v))) (E (fst a))))).
Proof. intros pre v post a R A. apply in_split in A. destruct A as (x & y & ->). rewrite <- app_assoc in R. simpl in R. eapply order; eauto. Qed.
Lemma order_post : forall pre v post a, res = pre ++ v :: post -> In a post ->
  evx v < evx a \/ (end_of E v = end_of E a /\
    (snd v = true \/ (snd v = false /\ snd a = false /\ 0 < hgt (rigt (E (fst a))) (E (fst v))))).
Proof. intros pre v post a R A. apply in_split in A. destruct A as (x & y & ->). eapply order; eauto. Qed.
Lemma nodup_mid : forall pre v post, res = pre ++ v :: post -> ~ In v pre /\ ~ In v post.
Proof.
  intros pre v post R. destruct Hres as (ND & _). rewrite R in ND. apply NoDup_remove_2 in ND. rewrite in_app_iff in ND. tauto.
Qed.
Lemma res_split : forall pre v post a, res = pre ++ v :: post -> In a res -> a = v \/ In a pre \/ In a post.
Proof. intros pre v post a -> H. rewrite in_app_iff in H. simpl in H. destruct H as [|[->|]]; auto. Qed.

(** the edges of the sweep line just before the next event *)
Lemma active_at : forall pre v post g, res = pre ++ v :: post -> active pre g ->
  In g ids /\ (if snd v then xl (E g) < evx v <= xr (E g) else xl (E g) <= evx v < xr (E g)).
Proof.
  intros pre v post g R (A1 & A2).
  assert (G : In g ids) by (apply (res_in g false); rewrite R; apply in_or_app; auto). split; [exact G|].
  pose proof (order_in pre v post _ R A1) as O1.
  assert (I2 : In (g, true) (v :: post)).
  { destruct (res_split pre v post (g, true) R) as [X|[X|X]]; [apply res_in; exact G|left; auto|contradiction|right; auto]. }
  assert (O2 : v = (g, true) \/ evx v < evx (g, true) \/ (end_of E v = end_of E (g, true) /\ snd v = true)).
  { destruct I2 as [X|X]; [left; auto|right]. destruct (order_post pre v post _ R X) as [Y|(Y1 & [Y2|(_ & Y2 & _)])]; auto. discriminate. }
  unfold evx in *. change (end_of E (g, false)) with (left (E g)) in O1. change (end_of E (g, true)) with (rigt (E g)) in O2. simpl in O1. unfold xl, xr.
  destruct (snd v) eqn:SV.
  - destruct O1 as [O1|(_ & [O1|(_ & O1 & _)])]; try discriminate. split; [exact O1|].
    destruct O2 as [->|[O2|(O2 & _)]]; [change (end_of E (g, true)) with (rigt (E g)); lia|lia|rewrite O2; lia].
  - assert (O2' : fst (end_of E v) < fst (rigt (E g))).
    { destruct O2 as [->|[O2|(_ & O2)]]; [discriminate SV|exact O2|discriminate]. }
    split; [|exact O2']. destruct O1 as [O1|(O1 & _)]; [lia|rewrite O1; lia].
Qed.

Lemma sorted_nodup : forall S, StronglySorted (fun f g => lt f g) S -> NoDup S.
Proof.
  induction S as [|f S IH]; intros H; constructor; inversion H as [|? ? H1 H2]; subst; auto.
  intros X. rewrite Forall_forall in H2. specialize (H2 f X). rewrite lt_irrefl in H2. discriminate.
Qed.
Lemma sorted_app : forall a b, StronglySorted (fun f g => lt f g) (a ++ b) <->
  StronglySorted (fun f g => lt f g) a /\ StronglySorted (fun f g => lt f g) b /\ (forall f g, In f a -> In g b -> lt f g).
Proof.
  induction a as [|x a IH]; intros b; simpl.
  - split; [intros H; split; [constructor|split; [exact H|intros f g []]]|tauto].
  - split.
    + intros H. inversion H as [|? ? H1 H2]; subst. apply IH in H1. destruct H1 as (I1 & I2 & I3).
      rewrite Forall_app in H2. destruct H2 as (F1 & F2). split; [constructor; auto|]. split; [exact I2|].
      intros f g [ <- | F] G; [rewrite Forall_forall in F2; auto|auto].
    + intros (H1 & H2 & H3). inversion H1 as [|? ? I1 I2]; subst. constructor.
      * apply IH. split; [exact I1|]. split; [exact H2|]. intros f g F G. apply H3; auto.
      * apply Forall_app. split; [exact I2|]. apply Forall_forall. intros g G. apply H3; auto.
Qed.
Lemma sorted_filter : forall p S, StronglySorted (fun f g => lt f g) S -> StronglySorted (fun f g => lt f g) (filter p S).
Proof.
  intros p. induction S as [|f S IH]; intros H; simpl; [constructor|]. inversion H as [|? ? H1 H2]; subst.
  destruct (p f); [|auto]. constructor; [auto|]. rewrite Forall_forall in *. intros g G. apply filter_In in G. apply H2, G.
Qed.

Lemma U_add : forall S S' e g, NoDup S' -> NoDup S -> ~ In e S -> (forall x, In x S' <-> x = e \/ In x S) ->
  U S' g = N.lxor (U S g) (if ltb e g then m e else 0%N).
Proof.
  intros S S' e g N' N NE H. unfold U.
  rewrite (xor_set m (filter (fun f => ltb f g) S') (filter (fun f => ltb f g) (e :: S))).
  - simpl. destruct (ltb e g).
    + change (xor_all (map m (e :: filter (fun f => ltb f g) S))) with (N.lxor (m e) (xor_all (map m (filter (fun f => ltb f g) S)))).
      apply N.lxor_comm.
    + rewrite N.lxor_0_r. reflexivity.
  - apply NoDup_filter, N'.
  - apply NoDup_filter. constructor; auto.
  - intros x. rewrite !filter_In. simpl. rewrite H. intuition.
Qed.

Lemma delta_snoc : forall pre v, delta (pre ++ [v]) (evx v) = N.lxor (delta pre (evx v)) (m (fst v)).
Proof.
  intros pre v. unfold delta. rewrite filter_app, map_app, xor_all_app. f_equal. simpl. rewrite Z.eqb_refl.
  change (xor_all (map (fun v0 : vertex => m (fst v0)) [v])) with (N.lxor (m (fst v)) 0). apply N.lxor_0_r.
Qed.

Lemma result_step : forall pre v post, res = pre ++ v :: post ->
  (if negb (K (fst v)) then result_remove v (filter (done pre) res) else filter (done pre) res) = filter (done (pre ++ [v])) res.
Proof.
  intros pre v post R. destruct (nodup_mid pre v post R) as (NP & _).
  assert (EX : forall w, existsb (vertex_eqb w) (pre ++ [v]) = existsb (vertex_eqb w) pre || vertex_eqb w v).
  { intros w. rewrite existsb_app. simpl. rewrite orb_false_r. reflexivity. }
  destruct (K (fst v)) eqn:KV; simpl.
  - apply filter_ext. intros w. unfold done. rewrite EX, negb_orb.
    destruct (vertex_eqb w v) eqn:W; simpl; [|rewrite andb_true_r; reflexivity].
    apply vertex_eqb_eq in W. subst w. rewrite KV, !orb_true_r. reflexivity.
  - assert (PW : forall w, done (pre ++ [v]) w = done pre w && negb (vertex_eqb w v)).
    { intros w. unfold done. rewrite EX, negb_orb. destruct (vertex_eqb w v) eqn:W; simpl; [|rewrite !andb_true_r; reflexivity].
      apply vertex_eqb_eq in W. subst w. rewrite KV, !andb_false_r. reflexivity. }
    rewrite (filter_ext _ _ PW). unfold result_remove. generalize res. intros l0. induction l0 as [|w l IH]; [reflexivity|]. simpl.
    destruct (done pre w); simpl; [|exact IH]. destruct (negb (vertex_eqb w v)); simpl; [f_equal|]; exact IH.
Qed.

Lemma hgt_lt : forall g v e, In g ids -> In e ids -> g <> e -> end_of E v = end_of E v -> fst v = e ->
  overlap g e -> both g e (evx v) ->
  if ltb g e then 0 <= hgt (end_of E v) (E g) else hgt (end_of E v) (E g) <= 0.
Proof.
  intros g [e0 s] e G IE N _ EQ O Bo. simpl in EQ. subst e0. pose proof (lt_pos g e _ G IE N O Bo) as P.
  assert (0 < dx (E e)) by (pose proof (Hlr e IE); unfold dx, xl, xr in *; lia).
  unfold evx, end_of in *. simpl in *. destruct s.
  - change (fst (rigt (E e))) with (xr (E e)) in P. rewrite Df_rigt in P. destruct (ltb g e); nia.
  - change (fst (left (E e))) with (xl (E e)) in P. rewrite Df_left in P. destruct (ltb g e); nia.
Qed.

Lemma step_rigt : forall pre e post d, res = pre ++ (e, true) :: post -> Inv pre d -> Inv5 pre (rigt (E e)) (state d) ->
  exists d', event E comb (2 ^ n) (e, true) d = Some d' /\ Inv (pre ++ [(e, true)]) d' /\ Inv5 (pre ++ [(e, true)]) (rigt (E e)) (state d').
Proof.
  intros pre e post d R (I1 & I2 & I3 & I4 & I5) F.
  destruct (nodup_mid _ _ _ R) as (NP & NQ).
  assert (IE : In e ids) by (apply (res_in e true); rewrite R; apply in_or_app; right; left; auto).
  assert (IS : In e (state d)).
  { apply I1. split; [|exact NP]. destruct (res_split _ _ _ (e, false) R) as [X|[X|X]]; [apply res_in, IE|discriminate|exact X|].
    exfalso. pose proof (Hlr e IE). destruct (order_post _ _ _ _ R X) as [Y|(Y & _)]; unfold evx, end_of, xl, xr in *; simpl in *; [lia|].
    rewrite Y in H. lia. }
  unfold event. cbn [snd fst negb]. 
  assert (EX : existsb (Nat.eqb e) (state d) = true) by (apply existsb_exists; exists e; split; [exact IS|apply Nat.eqb_refl]).
  rewrite EX. cbn [negb].
  destruct (I4 e IS) as (_ & KE). rewrite KE, I5.
  eexists. split; [reflexivity|]. cbn [state mem below keep result].
  set (S' := state_edge_remove e (state d)).
  assert (S'in : forall x, In x S' <-> In x (state d) /\ x <> e).
  { intros x. unfold S', state_edge_remove. rewrite filter_In, negb_true_iff, Nat.eqb_neq. tauto. }
  assert (AC : forall g, In g (state d) -> In g ids /\ xl (E g) < xr (E e) <= xr (E g)).
  { intros g G. apply I1 in G. pose proof (active_at _ _ _ _ R G) as A. simpl in A. unfold evx, end_of in A. simpl in A. exact A. }
  split.
  - unfold Inv. cbn [state mem below keep result]. split; [|split; [|split; [|split]]].
    + intros x. rewrite S'in, I1. unfold active. rewrite !in_app_iff. simpl. split.
      * intros ((X1 & X2) & X3). split; [auto|]. intros [X|[X|[]]]; [auto|]. inversion X; congruence.
      * intros ([X1|[X1|[]]] & X2); [|discriminate]. split; [split; [exact X1|intros X; apply X2; auto]|].
        intros ->. apply X2. right; left; reflexivity.
    + apply sorted_filter, I2.
    + intros x X. unfold upd. rewrite in_app_iff in X. simpl in X. destruct (Nat.eqb_spec x e) as [->|]; [exfalso; apply X; auto|].
      apply I3. intros Y. apply X; auto.
    + intros x X. apply S'in in X. destruct X as (X & Ne). unfold upd. destruct (Nat.eqb_spec x e); [contradiction|]. apply I4, X.
    + apply (result_step pre (e, true) post R).
  - intros g G. apply S'in in G. destruct G as (G & Ne). destruct (AC g G) as (Ig & Ag).
    pose proof (Hlr e IE) as Le.
    assert (O : overlap g e) by (split; lia).
    assert (Bo : both g e (evx (e, true))) by (unfold evx, end_of, both; simpl; fold (xr (E e)); split; lia).
    pose proof (hgt_lt g (e, true) e Ig IE Ne eq_refl eq_refl O Bo) as HL. unfold end_of in HL. simpl in HL.
    pose proof (lt_anti g e Ig IE Ne O) as LA.
    assert (UA : U (state d) g = N.lxor (U S' g) (if ltb e g then m e else 0%N)).
    { apply U_add.
      - apply sorted_nodup, I2.
      - apply NoDup_filter, sorted_nodup, I2.
      - rewrite S'in. tauto.
      - intros x. rewrite S'in. destruct (Nat.eq_dec x e) as [->|]; tauto. }
    destruct (F g G) as (F1 & F2). split.
    + intros H. rewrite (F1 H), UA. destruct (ltb g e); [lia|]. rewrite LA. simpl.
      change (fst (rigt (E e))) with (evx (e, true)). rewrite delta_snoc. simpl.
      rewrite !N.lxor_assoc. f_equal. apply N.lxor_comm.
    + intros [H|H].
      * rewrite (F2 (or_introl H)), UA. rewrite LA. destruct (ltb g e); [|lia]. simpl. apply N.lxor_0_r.
      * exfalso. unfold xl, xr in Ag. rewrite H in Ag. lia.
Qed.

Lemma step_left : forall pre e post d, res = pre ++ (e, false) :: post -> Inv pre d -> Inv5 pre (left (E e)) (state d) ->
  exists d', event E comb (2 ^ n) (e, false) d = Some d' /\ Inv (pre ++ [(e, false)]) d' /\ Inv5 (pre ++ [(e, false)]) (left (E e)) (state d').
Proof.
  intros pre e post d R (I1 & I2 & I3 & I4 & I5) F.
  destruct (nodup_mid _ _ _ R) as (NP & NQ).
  assert (IE : In e ids) by (apply (res_in e false); rewrite R; apply in_or_app; right; left; auto).
  pose proof (Hlr e IE) as Le.
  assert (De : 0 < dx (E e)) by (unfold dx, xl, xr in *; lia).
  assert (AC : forall g, In g (state d) -> In g ids /\ xl (E g) <= xl (E e) < xr (E g)).
  { intros g G. apply I1 in G. pose proof (active_at _ _ _ _ R G) as A. simpl in A. unfold evx, end_of in A. simpl in A. exact A. }
  assert (NE : ~ In e (state d)) by (intros X; apply I1 in X; apply NP, X).
  assert (NER : ~ In (e, true) pre).
  { intros X. destruct (order_in _ _ _ _ R X) as [Y|(Y & _)]; unfold evx, end_of, xl, xr in *; simpl in *; [lia|rewrite Y in Le; lia]. }
  assert (OV : forall g, In g (state d) -> overlap g e) by (intros g G; destruct (AC g G); split; lia).
  destruct (insert_sorted e (state d) IE) as (lo & hi & EI & ES & L1 & L2); [|exact I2|].
  { intros f Hf. destruct (AC f Hf) as (X1 & X2). split; [exact X1|]. split; [intros ->; contradiction|exact X2]. }
  assert (NoD : NoDup (state d)) by (apply sorted_nodup, I2).
  assert (HG : forall g, In g (state d) -> if ltb g e then 0 <= hgt (left (E e)) (E g) else hgt (left (E e)) (E g) <= 0).
  { intros g G. destruct (AC g G) as (Ig & Ag). assert (g <> e) by (intros ->; contradiction).
    pose proof (hgt_lt g (e, false) e Ig IE H eq_refl eq_refl (OV g G)) as HL. unfold evx, end_of in HL. simpl in HL.
    apply HL. fold (xl (E e)). split; lia. }
  assert (H0 : forall g, In g (state d) -> hgt (left (E e)) (E g) = 0 -> left (E g) = left (E e)).
  { intros g G Z. destruct (AC g G) as (Ig & Ag). assert (g <> e) by (intros ->; contradiction).
    destruct (H3b g e (xl (E e)) Ig IE H) as ([X|X] & _); [split; lia|rewrite Df_left, Z; ring| |lia].
    apply Hgx; [apply isv_l, Ig|apply isv_l, IE|]. unfold xl in X. lia. }
  (* elements with the same left end are below *)
  assert (SAME : forall g, In g (state d) -> left (E g) = left (E e) -> ltb g e = true).
  { intros g G Q. destruct (AC g G) as (Ig & Ag). assert (Ne : g <> e) by (intros ->; contradiction).
    apply I1 in G. destruct G as (G1 & _). pose proof (order_in _ _ _ _ R G1) as O. unfold evx, end_of in O. simpl in O.
    destruct O as [O|(_ & [O|(_ & _ & O)])]; [rewrite Q in O; lia|discriminate|].
    pose proof (mid_open g e Ig IE) as M. specialize (M ltac:(split; lia)). simpl in M.
    rewrite (lt_pos_open g e _ Ig IE Ne (proj1 M) (proj2 M)). apply Z.ltb_lt.
    rewrite Df_common by exact Q. replace (Z.max (xl (E g)) (xl (E e)) + 1 - xl (E g)) with 1 by (unfold xl; rewrite Q; lia).
    rewrite Z.mul_1_l. unfold hgt, num, cross3_z, dx, dy, xl in *. rewrite Q in *. lia. }
  assert (UE : U (state d) e = B e).
  { unfold U, B. apply xor_set.
    - apply NoDup_filter, NoD.
    - apply NoDup_filter, HN.
    - intros f. unfold Bs. rewrite !filter_In, !andb_true_iff, negb_true_iff, Nat.eqb_neq, Z.leb_le, Z.ltb_lt. split.
      + intros (G & L). destruct (AC f G) as (If & Af). split; [exact If|]. split; [|exact L].
        split; [|lia]. split; [intros ->; contradiction|lia].
      + intros (If & ((Ne & X1) & X2) & L). split; [|exact L]. apply I1. split.
        * destruct (res_split _ _ _ (f, false) R) as [X|[X|X]]; [apply res_in, If|inversion X; congruence|exact X|].
          exfalso. pose proof (order_post _ _ _ _ R X) as O. unfold evx, end_of in O. simpl in O. unfold xl in X1.
          destruct O as [O|(Q & [O|(_ & _ & O)])]; [lia|discriminate|].
          assert (M := mid_open e f IE If). specialize (M ltac:(split; unfold xl, xr in *; pose proof (Hlr f If); unfold xl, xr in *; lia)). simpl in M.
          assert (LT : ltb e f = true).
          { rewrite (lt_pos_open e f _ IE If (not_eq_sym Ne) (proj1 M) (proj2 M)). apply Z.ltb_lt.
            rewrite Df_common by exact Q. replace (Z.max (xl (E e)) (xl (E f)) + 1 - xl (E e)) with 1 by (unfold xl; rewrite Q; lia).
            rewrite Z.mul_1_l. unfold hgt, num, cross3_z, dx, dy, xl in *. rewrite Q in *. lia. }
          rewrite (lt_anti e f IE If (not_eq_sym Ne)), LT in L; [discriminate|]. pose proof (Hlr f If). unfold overlap, xl, xr in *. rewrite <- Q in *. lia.
        * intros X. pose proof (order_in _ _ _ _ R X) as O. unfold evx, end_of in O. simpl in O. unfold xl, xr in *.
          destruct O as [O|(O & _)]; [lia|rewrite O in X2; lia]. }
  unfold event. cbn [snd fst negb]. rewrite EI.
  assert (BEL : match rev lo with [] => 0%N | p :: _ => N.lxor (below d p) (mem d p) end = B e).
  { rewrite <- UE. destruct (rev lo) as [|p l] eqn:RL.
    - assert (lo = []) by (apply (f_equal (@rev nat)) in RL; rewrite rev_involutive in RL; exact RL). subst lo. simpl in ES.
      unfold U. replace (filter (fun f => ltb f e) (state d)) with (@nil nat); [reflexivity|].
      symmetry. rewrite ES. clear - L2 AC OV HN Hlr Hev H3a H3b IE NE ES. 
      assert (G : forall f, In f hi -> ltb f e = false).
      { intros f Hf. assert (Hs : In f (state d)) by (rewrite ES; exact Hf). destruct (AC f Hs) as (If & _).
        assert (Ne : e <> f) by (intros ->; contradiction).
        destruct (OV f Hs) as (o1 & o2).
        rewrite (lt_anti e f IE If Ne (conj o2 o1)), (L2 f Hf). reflexivity. }
      clear - G. induction hi as [|f l IH]; [reflexivity|]. simpl. rewrite (G f (or_introl eq_refl)). apply IH. intros; apply G; right; auto.
    - assert (EL : lo = rev l ++ [p]) by (apply (f_equal (@rev nat)) in RL; rewrite rev_involutive in RL; exact RL).
      assert (Pin : In p (state d)) by (rewrite ES, EL; apply in_or_app; left; apply in_or_app; right; left; auto).
      destruct (AC p Pin) as (Ip & Ap). assert (Np : p <> e) by (intros ->; contradiction).
      destruct (I4 p Pin) as (-> & _). rewrite I3 by (apply I1 in Pin; apply Pin).
      destruct (F p Pin) as (_ & F2).
      assert (Lp : ltb p e = true) by (apply L1; rewrite EL; apply in_or_app; right; left; auto).
      rewrite F2.
      2:{ pose proof (HG p Pin) as HGp. rewrite Lp in HGp. destruct (Z.eq_dec (hgt (left (E e)) (E p)) 0) as [Z|Z]; [right; apply H0; auto|left; lia]. }
      (* those below e are those below p and p *)
      rewrite ES, EL, <- app_assoc in I2. apply sorted_app in I2. destruct I2 as (J1 & J2 & J3).
      inversion J2 as [|? ? J4 J5]; subst.
      assert (NoD' := NoD). rewrite ES, <- app_assoc in NoD'. apply NoDup_remove in NoD'. destruct NoD' as (ND1 & ND2).
      assert (Q : U (state d) p = xor_all (map m (rev l))).
      { unfold U. apply xor_set.
        - apply NoDup_filter, NoD.
        - apply NoDup_app_l in ND1. exact ND1.
        - intros f. rewrite filter_In. split.
          + intros (X & Y). rewrite ES, <- app_assoc in X. apply in_app_or in X. destruct X as [X|X]; [exact X|]. exfalso.
            destruct X as [ <- | X]; [rewrite lt_irrefl in Y; discriminate|].
            rewrite Forall_forall in J5. specialize (J5 f X).
            assert (Fs : In f (state d)) by (rewrite ES; apply in_or_app; right; exact X).
            destruct (AC f Fs) as (If & Af).
            assert (p <> f) by (intros ->; rewrite lt_irrefl in Y; discriminate).
            rewrite (lt_anti p f Ip If H), J5 in Y; [discriminate|]. unfold overlap. lia.
          + intros X. split; [rewrite ES, <- app_assoc; apply in_or_app; left; exact X|]. apply J3; [exact X|left; auto]. }
      assert (Q' : U (state d) e = xor_all (map m (rev l ++ [p]))).
      { unfold U. apply xor_set.
        - apply NoDup_filter, NoD.
        - rewrite ES in NoD. apply NoDup_app_l in NoD. exact NoD.
        - intros f. rewrite filter_In. split.
          + intros (X & Y). rewrite ES in X. apply in_app_or in X. destruct X as [X|X]; [exact X|]. exfalso.
            assert (Fs : In f (state d)) by (rewrite ES; apply in_or_app; right; exact X).
            destruct (AC f Fs) as (If & Af). assert (Ne : e <> f) by (intros ->; contradiction).
            destruct (OV f Fs) as (o1 & o2). rewrite (lt_anti e f IE If Ne (conj o2 o1)), (L2 f X) in Y. discriminate.
          + intros X. split; [rewrite ES; apply in_or_app; left; exact X|apply L1; exact X]. }
      rewrite Q, Q', map_app, xor_all_app. f_equal. simpl.
      change (xor_all [m p]) with (N.lxor (m p) 0). rewrite N.lxor_0_r. reflexivity. }
  rewrite BEL, (I3 e NER). unfold comb_eval.
  destruct (N.ltb_spec (B e) (2 ^ n)) as [_|C]; [|pose proof (B_lt e); lia].
  destruct (N.ltb_spec (N.lxor (B e) (m e)) (2 ^ n)) as [_|C]; [|pose proof (xor_lt _ _ (B_lt e) (Hm e IE)); unfold m in *; lia].
  fold (K e). rewrite I5. eexists. split; [reflexivity|]. cbn [state mem below keep result].
  set (S' := lo ++ e :: hi).
  assert (S'in : forall x, In x S' <-> x = e \/ In x (state d)).
  { intros x. unfold S'. rewrite ES, !in_app_iff. simpl. intuition congruence. }
  assert (SS' : StronglySorted (fun f g => lt f g) S').
  { rewrite ES in I2. apply sorted_app in I2. destruct I2 as (J1 & J2 & J3). apply sorted_app. split; [exact J1|]. split.
    - constructor; [exact J2|]. apply Forall_forall. exact L2.
    - intros f g Fi [ <- | G]; auto. }
  split.
  - unfold Inv. cbn [state mem below keep result]. split; [|split; [exact SS'|split; [|split]]].
    + intros x. rewrite S'in, I1. unfold active. rewrite !in_app_iff. simpl. split.
      * intros [->|(X1 & X2)].
        -- split; [auto|]. intros [X|[X|[]]]; [contradiction|discriminate].
        -- split; [auto|]. intros [X|[X|[]]]; [contradiction|discriminate].
      * intros ([X1|[X1|[]]] & X2); [right; split; [exact X1|intros X; apply X2; auto]|left; inversion X1; reflexivity].
    + intros x X. apply I3. intros Y. apply X. apply in_or_app; auto.
    + intros x X. unfold upd. destruct (Nat.eqb_spec x e) as [->|Ne]; [split; reflexivity|].
      apply I4. apply S'in in X. destruct X; [contradiction|auto].
    + apply (result_step pre (e, false) post R).
  - assert (UA : forall g, U S' g = N.lxor (U (state d) g) (if ltb e g then m e else 0%N)).
    { intros g. apply U_add; auto. apply sorted_nodup, SS'. }
    intros g G. apply S'in in G. rewrite UA. destruct G as [->|G].
    + rewrite lt_irrefl, N.lxor_0_r. split; [|intros _; symmetry; exact UE].
      intros H. exfalso. unfold hgt, num, xl in H. lia.
    + destruct (F g G) as (F1 & F2). destruct (AC g G) as (Ig & Ag). assert (Ne : g <> e) by (intros ->; contradiction).
      pose proof (HG g G) as HGg. pose proof (lt_anti g e Ig IE Ne (OV g G)) as LA. split.
      * intros H. rewrite (F1 H), LA. destruct (ltb g e); [lia|]. simpl.
        change (fst (left (E e))) with (evx (e, false)). rewrite delta_snoc. simpl.
        rewrite !N.lxor_assoc. f_equal. rewrite (N.lxor_comm (m e)), N.lxor_assoc, N.lxor_nilpotent. apply eq_sym, N.lxor_0_r.
      * intros H. rewrite (F2 H), LA. destruct (ltb g e) eqn:L; simpl; [apply eq_sym, N.lxor_0_r|]. exfalso.
        destruct H as [H|H]; [lia|]. rewrite (SAME g G H) in L. discriminate.
Qed.

Lemma delta_all : forall v, In v res -> delta res (evx v) = 0%N.
Proof.
  intros v V. set (x := end_of E v).
  set (Ls := filter (fun e => same x (left (E e))) ids). set (Rs := filter (fun e => same x (rigt (E e))) ids).
  assert (SM : forall a b, same a b = true <-> a = b).
  { intros [a1 a2] [b1 b2]. unfold same. simpl. rewrite andb_true_iff, !Z.eqb_eq. split; [intros (-> & ->); auto|intros X; inversion X; auto]. }
  assert (P : Permutation (filter (fun w => evx w =? evx v) res) (map (fun e => (e, false)) Ls ++ map (fun e => (e, true)) Rs)).
  { apply NoDup_Permutation.
    - apply NoDup_filter. apply Hres.
    - assert (NM : forall s l, NoDup l -> NoDup (map (fun e : nat => (e, s : bool)) l)).
      { intros s l Hl. apply FinFun.Injective_map_NoDup; [|exact Hl]. intros a b X. inversion X; auto. }
      assert (G : forall l1 l2, NoDup l1 -> NoDup l2 -> NoDup (map (fun e : nat => (e, false)) l1 ++ map (fun e => (e, true)) l2)).
      { intros l1 l2 N1 N2. induction l1 as [|a l IH]; simpl; [apply NM, N2|]. inversion N1; subst. constructor; [|apply IH; auto].
        rewrite in_app_iff, !in_map_iff. intros [(y & Y1 & Y2)|(y & Y1 & Y2)]; inversion Y1; subst; contradiction. }
      apply G; apply NoDup_filter, HN.
    - intros [e s]. rewrite filter_In, in_app_iff, !in_map_iff, Z.eqb_eq. split.
      + intros (W & X). assert (Q : x = end_of E (e, s)).
        { apply Hgx; [apply isv_end, V|apply isv_end, W|]. unfold evx in X. auto. }
        assert (Ie : In e ids) by (apply (res_in e s), W).
        destruct s; [right|left]; exists e; (split; [reflexivity|]); apply filter_In; (split; [exact Ie|]); apply SM; exact Q.
      + intros [(y & Y1 & Y2)|(y & Y1 & Y2)]; inversion Y1; subst; apply filter_In in Y2; destruct Y2 as (Y2 & Y3); apply SM in Y3;
          (split; [apply res_in; exact Y2|]); unfold evx; fold x; rewrite Y3; reflexivity. }
  unfold delta. rewrite (xor_all_perm _ _ (Permutation_map (fun v => m (fst v)) P)).
  rewrite map_app, !map_map, xor_all_app. simpl.
  pose proof (Hcl x) as C. fold Ls Rs in C. unfold m. rewrite C. apply N.lxor_nilpotent.
Qed.

Lemma delta_none : forall pre c, (forall a, In a pre -> evx a <> c) -> delta pre c = 0%N.
Proof.
  intros pre c H. unfold delta. replace (filter (fun v => evx v =? c) pre) with (@nil vertex); [reflexivity|]. symmetry.
  induction pre as [|a l IH]; [reflexivity|]. simpl. destruct (Z.eqb_spec (evx a) c) as [X|X]; [exfalso; apply (H a); [left; auto|auto]|].
  apply IH. intros b Hb. apply H. right; auto.
Qed.

Definition initial (b0 : nat -> N) (k0 : nat -> bool) := mk_data [] (fun e => member (E e)) b0 k0 res.

Lemma events_app : forall l1 l2 d, events E comb (2 ^ n) (l1 ++ l2) d =
  match events E comb (2 ^ n) l1 d with Some d => events E comb (2 ^ n) l2 d | None => None end.
Proof. induction l1 as [|v l1 IH]; intros l2 d; simpl; [reflexivity|]. destruct (event E comb (2 ^ n) v d); auto. Qed.

Lemma run : forall b0 k0 pre post, res = pre ++ post ->
  exists d, events E comb (2 ^ n) pre (initial b0 k0) = Some d /\ Inv pre d
  /\ (forall v, isv v -> (forall a, In a pre -> evx a <= fst v) -> (forall a, In a post -> fst v <= evx a) -> Inv5 pre v (state d))
  /\ (forall c, (forall a, In a pre -> evx a < c) -> (forall a, In a post -> c <= evx a) -> Full (state d)).
Proof.
  intros b0 k0. induction pre as [|v pre IH] using rev_ind; intros post R.
  - exists (initial b0 k0). split; [reflexivity|]. split; [|split].
    + unfold Inv, initial. cbn [state mem below keep result]. split; [|split; [|split; [|split]]].
      * intros e. split; [intros []|intros ([] & _)].
      * constructor.
      * reflexivity.
      * intros e [].
      * symmetry. unfold done. simpl. generalize res. intros l0. induction l0 as [|a l0 IHl]; simpl; [reflexivity|]. rewrite IHl at 1. reflexivity.
    + intros v V A1 A2 g [].
    + intros c A1 A2 g [].
  - rewrite <- app_assoc in R. simpl in R. destruct (IH _ R) as (d & E1 & I & I5 & _). clear IH.
    assert (V : In v res) by (rewrite R; apply in_or_app; right; left; auto).
    assert (IV := isv_end v V).
    assert (PRE : forall a, In a pre -> evx a <= evx v).
    { intros a A. destruct (order_in _ _ _ _ R A) as [X|(X & _)]; [lia|unfold evx; rewrite X; lia]. }
    assert (POST : forall a, In a post -> evx v <= evx a).
    { intros a A. destruct (order_post _ _ _ _ R A) as [X|(X & _)]; [lia|unfold evx; rewrite X; lia]. }
    specialize (I5 (end_of E v) IV PRE). specialize (I5 ltac:(intros a [ <- | A]; [unfold evx; lia|apply POST, A])).
    assert (STEP : exists d', event E comb (2 ^ n) v d = Some d' /\ Inv (pre ++ [v]) d' /\ Inv5 (pre ++ [v]) (end_of E v) (state d')).
    { destruct v as [e s]. destruct s; [apply step_rigt with (post := post); auto|apply step_left with (post := post); auto]. }
    destruct STEP as (d' & E2 & I' & I5').
    assert (FULL : (forall a, In a post -> evx v < evx a) -> Full (state d')).
    { intros PS g G.
      assert (DZ : delta (pre ++ [v]) (evx v) = 0%N).
      { rewrite <- (delta_all v V). unfold delta. rewrite R. replace (pre ++ v :: post) with ((pre ++ [v]) ++ post) by (rewrite <- app_assoc; reflexivity).
        rewrite (filter_app _ (pre ++ [v]) post), map_app, xor_all_app. fold (delta post (evx v)). rewrite (delta_none post); [apply eq_sym, N.lxor_0_r|].
        intros a A. specialize (PS a A). lia. }
      destruct (I5' g G) as (F1 & F2). unfold evx in DZ. rewrite DZ, N.lxor_0_r in F1.
      destruct I' as (J1 & _). apply J1 in G. destruct G as (G1 & G2).
      assert (Ig : In g ids).
      { apply (res_in g false). rewrite R. rewrite in_app_iff in *. simpl in *. destruct G1 as [|[|[]]]; auto. }
      destruct (Z.lt_trichotomy (hgt (end_of E v) (E g)) 0) as [H|[H|H]]; [auto| |auto].
      apply F2. right.
      (* the point is on g: it is one of its ends, the left one *)
      assert (XR : evx v < xr (E g)).
      { change (xr (E g)) with (evx (g, true)).
        assert (Q : In (g, true) (pre ++ v :: post)) by (rewrite <- R; apply res_in, Ig).
        rewrite in_app_iff in Q. simpl in Q. apply PS.
        destruct Q as [Q|[Q|Q]]; [exfalso; apply G2; apply in_or_app; auto|exfalso; apply G2; apply in_or_app; right; left; auto|exact Q]. }
      assert (XL : xl (E g) <= evx v).
      { change (xl (E g)) with (evx (g, false)). apply in_app_or in G1. destruct G1 as [G1|[ <- | []]]; [apply PRE, G1|lia]. }
      destruct v as [e s]. assert (Ie : In e ids) by (apply (res_in e s), V).
      destruct (Nat.eq_dec g e) as [->|Ne].
      { destruct s; [exfalso; apply G2; apply in_or_app; right; left; auto|reflexivity]. }
      pose proof (Hlr e Ie) as Le.
      assert (Bo : both g e (evx (e, s))).
      { split; [lia|]. destruct s; unfold evx, end_of; simpl; unfold xl, xr in *; lia. }
      destruct (H3b g e (evx (e, s)) Ig Ie Ne Bo) as ([X|X] & _); [| |lia].
      + destruct s; unfold evx, end_of in *; simpl in *; [fold (xr (E e)); rewrite Df_rigt, H; ring|fold (xl (E e)); rewrite Df_left, H; ring].
      + apply Hgx; [apply isv_l, Ig|exact IV|]. unfold xl, evx in X. lia. }
    exists d'. split; [rewrite events_app, E1; simpl; rewrite E2; reflexivity|]. split; [exact I'|]. split.
    + intros w W A1 A2.
      assert (LE : evx v <= fst w) by (apply A1; apply in_or_app; right; left; auto).
      destruct (Z.eq_dec (fst w) (evx v)) as [Q|Q].
      * assert (w = end_of E v) as -> by (apply Hgx; auto). exact I5'.
      * intros g G. rewrite (delta_none (pre ++ [v])).
        -- assert (FG : B g = U (state d') g) by (apply FULL; [intros a A; specialize (A2 a A); lia|exact G]).
           rewrite N.lxor_0_r. auto.
        -- intros a A. apply in_app_or in A. destruct A as [A|[ <- | []]]; [specialize (PRE a A); lia|lia].
    + intros c A1 A2. apply FULL. intros a A. specialize (A2 a A). specialize (A1 v ltac:(apply in_or_app; right; left; auto)). lia.
Qed.

Lemma reduce_generic : forall b0 k0, reduce E comb (2 ^ n) b0 k0 res = Some (filter (fun v => K (fst v)) res).
Proof.
  intros b0 k0. destruct (run b0 k0 res []) as (d & E1 & (_ & _ & _ & _ & I5) & _); [symmetry; apply app_nil_r|].
  unfold reduce. fold (initial b0 k0). rewrite E1, I5. f_equal.
  assert (H : forall l, (forall v, In v l -> In v res) -> filter (done res) l = filter (fun v => K (fst v)) l).
  { induction l as [|v l IH]; intros H; [reflexivity|]. simpl. rewrite IH by (intros; apply H; right; auto).
    replace (done res v) with (K (fst v)); [reflexivity|]. unfold done.
    assert (existsb (vertex_eqb v) res = true) as -> by (apply existsb_exists; exists v; split; [apply H; left; auto|apply vertex_eqb_eq; auto]).
    reflexivity. }
  apply H. auto.
Qed.

Lemma sorted_cut : forall X l, (forall a b c v w, l = a ++ v :: b ++ w :: c -> evx v <= evx w) -> (forall v, In v l -> evx v <> X) ->
  exists pre post, l = pre ++ post /\ (forall a, In a pre -> evx a < X) /\ (forall a, In a post -> X <= evx a).
Proof.
  intros X. induction l as [|v l IH]; intros H N.
  { exists [], []. split; [reflexivity|]. split; intros a []. }
  destruct (Z.lt_ge_cases (evx v) X) as [L|L].
  - destruct IH as (pre & post & E1 & E2 & E3).
    + intros a b c x y ->. apply (H (v :: a) b c x y). reflexivity.
    + intros x Hx. apply N. right; auto.
    + exists (v :: pre), post. rewrite E1. split; [reflexivity|]. split; [intros a [ <- | A]; auto|exact E3].
  - exists [], (v :: l). split; [reflexivity|]. split; [intros a []|]. intros a [ <- | A]; [exact L|].
    apply in_split in A. destruct A as (b & c & ->). specialize (H [] b c v a eq_refl). lia.
Qed.

(** What B is, from a point inside the edge *)
Lemma B_inside : forall e p, In e ids -> xl (E e) < fst p < xr (E e) -> hgt p (E e) = 0 -> (forall v, isv v -> fst v <> fst p) ->
  B e = xor_all (map m (filter (fun f => (xl (E f) <=? fst p) && (fst p <? xr (E f)) && (0 <? hgt p (E f))) ids)).
Proof.
  intros e p Ie X Hp NV.
  destruct (sorted_cut (fst p) res) as (pre & post & R & A1 & A2).
  { intros a b c v w R. destruct (order _ _ _ _ _ R) as [Y|(Y & _)]; [lia|unfold evx; rewrite Y; lia]. }
  { intros v V. apply NV, isv_end, V. }
  destruct (run (fun _ => 0%N) (fun _ => false) pre post R) as (d & _ & (I1 & I2 & _) & _ & F).
  specialize (F (fst p) A1 A2).
  assert (Sin : forall f, In f (state d) <-> In f ids /\ xl (E f) < fst p < xr (E f)).
  { intros f. rewrite I1. unfold active. split.
    - intros (Y1 & Y2). assert (If : In f ids) by (apply (res_in f false); rewrite R; apply in_or_app; auto). split; [exact If|].
      split; [apply (A1 _ Y1)|]. assert (Q : In (f, true) (pre ++ post)) by (rewrite <- R; apply res_in, If).
      apply in_app_or in Q. destruct Q as [Q|Q]; [contradiction|]. specialize (A2 _ Q). unfold evx, end_of in A2. simpl in A2.
      pose proof (NV _ (isv_r f If)). unfold xr. lia.
    - intros (If & Y1 & Y2). split.
      + assert (Q : In (f, false) (pre ++ post)) by (rewrite <- R; apply res_in, If).
        apply in_app_or in Q. destruct Q as [Q|Q]; [exact Q|]. specialize (A2 _ Q). unfold evx, end_of in A2. simpl in A2. unfold xl in Y1. lia.
      + intros Q. specialize (A1 _ Q). unfold evx, end_of in A1. simpl in A1. unfold xr in Y2. lia. }
  assert (Se : In e (state d)) by (apply Sin; auto).
  rewrite (F e Se). unfold U. apply xor_set.
  - apply NoDup_filter, sorted_nodup, I2.
  - apply NoDup_filter, HN.
  - intros f. rewrite !filter_In, Sin, !andb_true_iff, Z.leb_le, !Z.ltb_lt.
    assert (De : 0 < dx (E e)) by (unfold dx, xl, xr in *; lia).
    assert (DF : Df (E f) (E e) (fst p) = dx (E e) * hgt p (E f)) by (unfold Df, hgt in *; replace (num (E e) (fst p)) with (snd p * dx (E e)) by lia; ring).
    split.
    + intros ((If & Y) & L). pose proof (lt_ov_ne _ _ L) as Ne. rewrite (lt_pos_open f e (fst p) If Ie Ne Y X) in L.
      apply Z.ltb_lt in L. rewrite DF in L. split; [exact If|]. split; [split; lia|nia].
    + intros (If & (Y1 & Y2) & Y3).
      assert (Y : xl (E f) < fst p < xr (E f)) by (pose proof (NV _ (isv_l f If)); unfold xl in *; lia).
      split; [auto|]. assert (Ne : f <> e) by (intros ->; lia).
      rewrite (lt_pos_open f e (fst p) If Ie Ne Y X). apply Z.ltb_lt. rewrite DF. nia.
Qed.
End Generic.
