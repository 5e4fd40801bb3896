(** Proofs about the construction of paths: it succeeds for planar arrangements *)
From Coq Require Import ZArith NArith List Bool Lia Arith Permutation Sorted ZifyBool.
From Verif Require Import List_model List_spec List_proofs Reduce_model Reduce_spec Reduce_proofs Reduce_proofs2 Poly_model Poly_spec Poly_proofs Poly_proofs2 Poly_proofs3 Poly_proofs4 Poly_proofs5.
Import ListNotations.
Open Scope Z_scope.

(** ** Ends come in pairs *)
Lemma same_iff : forall a b, same a b = true <-> a = b.
Proof. intros [a1 a2] [b1 b2]. unfold same. cbn [fst snd]. rewrite andb_true_iff, !Z.eqb_eq. split; [intros (-> & ->); auto|intros X; inversion X; auto]. Qed.
Lemma same_refl : forall a, same a a = true.
Proof. intros a. apply same_iff. reflexivity. Qed.
Definition cnt {A} (f : A -> Z * Z) (x : Z * Z) (l : list A) : nat := length (filter (fun v => same x (f v)) l).
Lemma cnt_app : forall A (f : A -> Z * Z) x a b, cnt f x (a ++ b) = (cnt f x a + cnt f x b)%nat.
Proof. intros. unfold cnt. rewrite filter_app, app_length. reflexivity. Qed.
Lemma filter_split : forall A (p : A -> bool) l, length l = (length (filter p l) + length (filter (fun v => negb (p v)) l))%nat.
Proof. intros A p. induction l as [|x l IH]; [reflexivity|]. cbn [filter length]. destruct (p x); cbn [negb length]; lia. Qed.
Lemma filter_filter : forall A (p q : A -> bool) l, filter p (filter q l) = filter (fun v => q v && p v) l.
Proof. intros A p q. induction l as [|x l IH]; [reflexivity|]. cbn [filter]. destruct (q x); cbn [filter andb]; [destruct (p x); rewrite IH; reflexivity|exact IH]. Qed.
Lemma even_total : forall A (f : A -> Z * Z) n l, (length l <= n)%nat -> (forall x, Nat.Even (cnt f x l)) -> Nat.Even (length l).
Proof.
  intros A f. induction n as [|n IH]; intros l L H.
  - destruct l; [exists 0%nat; reflexivity|cbn [length] in L; lia].
  - destruct l as [|v l]; [exists 0%nat; reflexivity|]. set (x := f v). rewrite (filter_split _ (fun w => same x (f w)) (v :: l)).
    apply Nat.Even_Even_add; [apply H|]. apply IH.
    + cbn [filter]. unfold x at 1. rewrite same_refl. cbn [negb]. pose proof (filter_split _ (fun w => same x (f w)) l). cbn [length] in L. lia.
    + intros y. unfold cnt. rewrite filter_filter. destruct (same x y) eqn:Q.
      * apply same_iff in Q. subst y. rewrite (filter_ext _ (fun _ => false)) by (intros w; destruct (same x (f w)); reflexivity).
        exists 0%nat. clear. induction (v :: l) as [|z r IH]; [reflexivity|exact IH].
      * rewrite (filter_ext _ (fun w => same y (f w))); [apply H|]. intros w. destruct (same y (f w)) eqn:W; [|apply andb_false_r].
        apply same_iff in W. rewrite <- W, Q. reflexivity.
Qed.
Lemma cnt_perm : forall A (f : A -> Z * Z) x a b, Permutation a b -> cnt f x a = cnt f x b.
Proof.
  intros A f x a b P. unfold cnt. induction P; cbn [filter]; auto; try congruence.
  - destruct (same x (f x0)); cbn [length]; congruence.
  - destruct (same x (f y)), (same x (f x0)); reflexivity.
Qed.
Lemma cnt_ends : forall E ids x, cnt (end_of E) x (flat_map (fun e => [(e, LEFT); (e, RIGT)]) ids)
  = (length (filter (fun e => same x (left (E e))) ids) + length (filter (fun e => same x (rigt (E e))) ids))%nat.
Proof.
  intros E ids x. induction ids as [|e ids IH]; [reflexivity|]. cbn [flat_map]. rewrite cnt_app, IH. unfold cnt. cbn [filter end_of fst snd LEFT RIGT].
  destruct (same x (left (E e))), (same x (rigt (E e))); cbn [length]; lia.
Qed.
Lemma lex_le_anti : forall a b, lex_le a b -> lex_le b a -> a = b.
Proof. intros [a1 a2] [b1 b2]. unfold lex_le. cbn [fst snd]. intros H1 H2. f_equal; lia. Qed.
Lemma lex_le_trans : forall a b c, lex_le a b -> lex_le b c -> lex_le a c.
Proof. intros a b c. unfold lex_le. lia. Qed.
Lemma pair_same : forall E ids res pre s post, NoDup ids -> ends_of E ids res -> even_ends E ids -> weakly E res ->
  res = pre ++ s :: post -> Nat.Even (length pre) -> exists t post', post = t :: post' /\ end_of E s = end_of E t.
Proof.
  intros E ids res pre s post N (N2 & HI & HO) EE W R EV.
  assert (LE : length res = (2 * length ids)%nat) by (apply ends_length; auto).
  destruct post as [|t post].
  { exfalso. rewrite R, app_length in LE. cbn [length] in LE. destruct EV as (k & EV). lia. }
  exists t, post. split; [reflexivity|]. destruct (same (end_of E s) (end_of E t)) eqn:Q; [apply same_iff, Q|exfalso].
  assert (NQ : end_of E s <> end_of E t) by (intros X; rewrite X, same_refl in Q; discriminate). clear Q.
  assert (ST : lex_le (end_of E s) (end_of E t)) by (apply (W pre [] post s t), R).
  assert (O1 : Nat.Even (length (pre ++ [s]))).
  { apply (even_total _ (end_of E) (length (pre ++ [s])) (pre ++ [s]) (le_n _)). intros x.
    assert (TOT : Nat.Even (cnt (end_of E) x (pre ++ [s]) + cnt (end_of E) x (t :: post))).
    { rewrite <- cnt_app, <- app_assoc. cbn [app]. rewrite <- R, (cnt_perm _ (end_of E) x _ _ (all_ends ids res N N2 HI)), cnt_ends. apply EE. }
    destruct (cnt (end_of E) x (pre ++ [s])) as [|n] eqn:C1; [exists 0%nat; reflexivity|]. destruct (cnt (end_of E) x (t :: post)) as [|m] eqn:C2; [rewrite Nat.add_0_r in TOT; exact TOT|exfalso].
    assert (EX : forall l k, cnt (end_of E) x l = S k -> exists v, In v l /\ end_of E v = x).
    { intros l k H. unfold cnt in H. destruct (filter (fun v => same x (end_of E v)) l) as [|v r] eqn:F; [discriminate|].
      assert (J : In v (filter (fun v => same x (end_of E v)) l)) by (rewrite F; left; reflexivity). apply filter_In in J. destruct J as (J1 & J2). exists v. split; [exact J1|]. symmetry. apply same_iff, J2. }
    destruct (EX _ _ C1) as (v & Iv & Qv). destruct (EX _ _ C2) as (w & Iw & Qw).
    assert (VS : lex_le (end_of E v) (end_of E s)).
    { apply in_app_or in Iv. destruct Iv as [Iv|[<-|[]]]; [|unfold lex_le; lia]. apply in_split in Iv. destruct Iv as (a & b & ->). apply (W a b (t :: post) v s). rewrite R, <- app_assoc. reflexivity. }
    assert (TW : lex_le (end_of E t) (end_of E w)).
    { destruct Iw as [<-|Iw]; [unfold lex_le; lia|]. apply in_split in Iw. destruct Iw as (a & b & ->). apply (W (pre ++ [s]) a b t w). rewrite R, <- app_assoc. reflexivity. }
    rewrite Qv in VS. rewrite Qw in TW. apply NQ. apply lex_le_anti; [exact ST|]. apply (lex_le_trans _ x); assumption. }
  rewrite app_length in O1. cbn [length] in O1. destruct O1 as (a & O1), EV as (b & EV). lia.
Qed.

(** ** The loop succeeds *)
Section Total.
Variables (E : nat -> edge) (ids : list nat) (res : list (nat * bool)) (fuel : nat).
Variable G : list (nat * bool) -> pdata -> Prop.
Hypothesis HN : NoDup ids.
Hypothesis HE : ends_of E ids res.
Hypothesis HV : even_ends E ids.
Hypothesis HW : weakly E res.
Hypothesis HF : (length ids <= fuel)%nat.
Hypothesis HS : 2 * Z.of_nat (length ids) + 3 < 2 ^ 32.
Hypothesis Gext : forall pre d d1, G pre d -> line d = line d1 -> back d = back d1 -> G pre d1.
Hypothesis Gstep : forall pre s t post d, res = pre ++ s :: t :: post -> end_of E s = end_of E t -> G pre d ->
  ext E s t d /\ forall d', Poly_proofs4.post E s t d d' -> G (pre ++ [s; t]) d'.

Lemma loop_total : forall n post pre R dn d, (length post <= n)%nat -> res = pre ++ post -> Nat.Even (length pre) -> inv E pre pre R dn d -> paired pre ->
  pinv E pre (points (out d)) (pts d) -> (length (points (out d)) <= length pre)%nat -> G pre d ->
  exists R' dn' d', poly_loop E fuel post None d = Done d' /\ inv E res res R' dn' d' /\ G res d'.
Proof.
  induction n as [|n IH]; intros post pre R dn d L HR EV I PA PV LP GG.
  - destruct post; [|cbn [length] in L; lia]. rewrite app_nil_r in HR. rewrite HR. exists R, dn, d. auto.
  - destruct post as [|s post]; [rewrite app_nil_r in HR; rewrite HR; exists R, dn, d; auto|].
    destruct (pair_same E ids res pre s post HN HE HV HW HR EV) as (t & post' & -> & Q).
    pose proof (proj1 HE) as ND. rewrite HR in ND.
    assert (LE : length res = (2 * length ids)%nat) by (apply ends_length; [exact HN|apply HE|apply HE]).
    assert (LL : (length pre + S (S (length post')) = length res)%nat) by (rewrite HR, app_length; reflexivity).
    assert (Ns : ~ In s pre) by (intros J; apply NoDup_remove_2 in ND; apply ND, in_or_app; auto).
    assert (ND2 : NoDup ((pre ++ [s]) ++ t :: post')) by (rewrite <- app_assoc; exact ND).
    assert (Nt : ~ In t (pre ++ [s])) by (intros J; apply NoDup_remove_2 in ND2; apply ND2, in_or_app; auto).
    destruct (get_ok E pre pre R dn d s I PV Ns) as (r & st & i & G1 & I1 & PV1 & LP1); [apply (weakly_seen E res pre s (t :: post') HW HR)|lia|exact LP|].
    set (d1 := mk_pdata (line d) (back d) (rings d) (vupd (pidx d) s i) r (offs d) st) in *.
    destruct (get_ok E pre (pre ++ [s]) R dn d1 t I1 PV1 Nt) as (r2 & st2 & i2 & G2 & I2 & PV2 & LP2).
    { apply (weakly_seen E res (pre ++ [s]) t post' HW). rewrite HR, <- app_assoc. reflexivity. }
    { rewrite app_length. cbn [length]. lia. }
    { exact LP1. }
    set (d2 := mk_pdata (line d1) (back d1) (rings d1) (vupd (pidx d1) t i2) r2 (offs d1) st2) in *.
    assert (GG2 : G pre d2) by (apply (Gext pre d d2 GG); reflexivity).
    destruct (Gstep pre s t post' d2 HR Q GG2) as (X & Y).
    destruct (pair_step E ids fuel pre ((pre ++ [s]) ++ [t]) R dn d2 s t I2 PA) as (R3 & dn3 & d3 & A3 & I3 & PA3 & PO3); auto.
    { intros e J. apply (proj1 (proj2 HE) e LEFT). rewrite HR. apply in_or_app. auto. }
    { apply in_or_app. left. apply in_or_app. right. left. reflexivity. }
    { apply in_or_app. right. left. reflexivity. }
    { intros J. apply Nt, in_or_app. auto. }
    assert (TL : (pre ++ [s]) ++ [t] = pre ++ [s; t]) by (rewrite <- app_assoc; reflexivity). rewrite TL in *.
    pose proof (Y d3 PO3) as G3. destruct PO3 as (_ & PO2 & PO4 & _).
    destruct (IH post' (pre ++ [s; t]) R3 dn3 d3) as (R' & dn' & d' & B1 & B2 & B3); auto.
    + cbn [length] in L. lia.
    + rewrite HR, <- app_assoc. reflexivity.
    + rewrite app_length. cbn [length]. destruct EV as (k & EV). exists (S k). lia.
    + rewrite PO2, PO4. exact PV2.
    + rewrite PO2. exact LP2.
    + exists R', dn', d'. split; [|auto]. cbn [poly_loop]. rewrite G1. cbn [bind]. fold d1. rewrite G2. cbn [bind]. fold d2. rewrite A3. cbn [bind]. exact B1.
Qed.
End Total.

(** ** Shear *)
Lemma ext_T : forall k M E s t d, 0 < k -> 0 < M -> ext (fun i => TE k M (E i)) s t d -> ext E s t d.
Proof.
  intros k M E [es a] [et b] d K HM (X1 & X2 & X3). unfold ext in *. cbn [fst snd] in *. split; [|split; [exact X2|]].
  - unfold coord in *. cbn [fst snd] in *. destruct a, b; cbn [TE left rigt] in X1; apply (T_inj k M); auto.
  - destruct a, b; auto. destruct X3 as (lo & hi & lo2 & hi2 & Y1 & Y2 & Y3 & Y4 & Y5). exists lo, hi, lo2, hi2. split; [exact Y1|].
    split; [rewrite <- Y2; apply insert_by_ext; intros x; symmetry; apply tcmp_T; auto|]. split; [exact Y3|].
    split; [rewrite <- Y4; apply insert_by_ext; intros x; symmetry; apply tcmp_T; auto|exact Y5].
Qed.
Lemma post_T : forall k M E s t d d', 0 < k -> 0 < M -> Poly_proofs4.post E s t d d' -> Poly_proofs4.post (fun i => TE k M (E i)) s t d d'.
Proof.
  intros k M E [es a] [et b] d d' K HM (X1 & X2 & X3 & X4). unfold Poly_proofs4.post in *. cbn [fst snd] in *. repeat (split; [assumption|]).
  destruct a, b; auto. destruct X4 as (lo & hi & lo2 & hi2 & Y1 & Y2 & Y3 & Y4). exists lo, hi, lo2, hi2.
  split; [rewrite <- Y1; apply insert_by_ext; intros x; apply tcmp_T; auto|].
  split; [rewrite <- Y2; apply insert_by_ext; intros x; apply tcmp_T; auto|]. split; [exact Y3|exact Y4].
Qed.
Lemma rigt_order_T : forall k M E res, 0 < k -> 0 < M -> rigt_order E res -> rigt_order (fun i => TE k M (E i)) res.
Proof.
  intros k M E res K HM H a b c v w R Q. cbn [TE rigt] in Q. apply T_inj in Q; auto. specialize (H a b c v w R Q).
  unfold height in *. cbn [px py pd] in *. unfold TE, T. cbn [left rigt fst snd].
  match goal with |- ?t < 0 => replace t with (k * k * M * ((fst (rigt (E v)) - fst (left (E v))) * (snd (left (E w)) - 1 * snd (left (E v))) -
      (snd (rigt (E v)) - snd (left (E v))) * (fst (left (E w)) - 1 * fst (left (E v))))) by ring end.
  apply Z.mul_pos_neg; [nia|exact H].
Qed.

(** The number of edges below an edge *)
Definition ones (E : nat -> edge) (i : nat) : edge := mk_edge (left (E i)) (rigt (E i)) 1.
Lemma xor_ones : forall A (l : list A), xor_all (map (fun _ => 1%N) l) = if Nat.even (length l) then 0%N else 1%N.
Proof.
  intros A. induction l as [|x l IH]; [reflexivity|]. cbn [map length].
  change (xor_all (1%N :: map (fun _ => 1%N) l)) with (N.lxor 1 (xor_all (map (fun _ => 1%N) l))). rewrite IH, Nat.even_succ, <- Nat.negb_even. destruct (Nat.even (length l)); reflexivity.
Qed.
Lemma closed_ones : forall E ids, even_ends E ids -> closed (ones E) ids.
Proof.
  intros E ids H x. specialize (H x). unfold ones. cbn [member left rigt]. rewrite !xor_ones.
  set (a := length (filter (fun e => same x (left (E e))) ids)) in *. set (b := length (filter (fun e => same x (rigt (E e))) ids)) in *.
  apply Nat.even_spec in H. rewrite Nat.even_add in H. destruct (Nat.even a), (Nat.even b); auto; discriminate.
Qed.
Lemma ends_ones : forall E ids res, ends_of E ids res -> ends_of (ones E) ids res.
Proof. intros E ids res H. exact H. Qed.
Lemma planar_ones : forall E ids, planar E ids -> planar (ones E) ids.
Proof. intros E ids H. exact H. Qed.

Lemma weakly_of : forall E ids res, ends_of E ids res -> weakly E res.
Proof.
  intros E ids res (_ & _ & HO) a b c v w Q. destruct (HO a b c v w Q) as [L|(L & _)].
  - unfold lex_lt, lex_le, end_of, coord in *. destruct (snd v), (snd w); lia.
  - unfold end_of, lex_le, coord in *. destruct (snd v), (snd w); rewrite L; lia.
Qed.

Definition d_init b0 h0 p0 : pdata := mk_pdata [] b0 h0 p0 (mk_gon [] (fun _ => 0) []) 0 point_idx_init.
Lemma run_at : forall E ids res fuel b0 h0 p0 p, planar E ids -> even_ends E ids -> ends_of E ids res -> rigt_order E res ->
  (length ids <= fuel)%nat -> 2 * Z.of_nat (length ids) + 3 < 2 ^ 32 -> 0 < pd p ->
  exists R dn d, poly_loop E fuel res None (d_init b0 h0 p0) = Done d /\ inv E res res R dn d
  /\ forall e, In e ids -> inside_edge p (E e) -> back d e = Nat.even (length (filter (fun f => beneath p (E f)) ids)).
Proof.
  intros E ids res fuel b0 h0 p0 p HP HV HE HRo HF HS Hd.
  destruct (bound_exists E (2 * pd p) (2 * py p) ids) as (M & M0 & HM).
  assert (HM' : forall e, In e ids -> 2 * (pd p * yb (E e) + Z.abs (py p)) < M) by (intros e I; specialize (HM e I); unfold yb in *; nia).
  set (k := 2 * pd p). set (E' := fun i => TE k M (E i)). assert (K0 : 0 < k) by (unfold k; lia).
  pose proof (geo_step E' ids res (proj1 HP) (lr E ids p M HP Hd M0 HM') (ev_even E ids p M) (gx E ids p M Hd M0 HM')
      (h3a E ids p M HP Hd M0 HM') (h3b E ids p M HP Hd M0 HM') (ends_T E ids p M Hd M0 HM' res HE) (rigt_order_T k M E res K0 M0 HRo)) as GS.
  destruct (loop_total E ids res fuel (geo E' ids) (proj1 HP) HE HV (weakly_of E ids res HE) HF HS) with (n := length res) (post := res) (pre := @nil (nat * bool)) (R := @nil (list nat)) (dn := @nil nat) (d := d_init b0 h0 p0)
    as (R' & dn' & d' & A & I & GG); auto.
  - intros pre d d1 [G1 G2 G3 G4] Ql Qb. constructor; rewrite <- ?Ql, <- ?Qb; assumption.
  - intros pre s t post d R Q G. destruct (GS pre s t post d R) as (X & Y); [unfold E', end_of, TE in *; cbn [left rigt]; destruct (snd s), (snd t); cbn [left rigt]; rewrite Q; reflexivity|exact G|].
    split; [apply (ext_T k M E); auto|]. intros d' P. apply Y, post_T; auto.
  - exists 0%nat. reflexivity.
  - apply inv_init.
  - intros e [].
  - split; reflexivity.
  - constructor.
    + constructor.
    + intros e. split; [intros []|intros ([] & _)].
    + intros [|i] e H; discriminate.
    + intros e [].
  - exists R', dn', d'. split; [exact A|]. split; [exact I|]. intros e Ie IN. destruct GG as [_ _ _ GD].
    rewrite GD by (apply (proj1 (proj2 HE)), Ie). unfold even_below.
    assert (Q := B_inside (fun i => TE k M (ones E i)) ids (proj1 HP) (lr (ones E) ids p M HP Hd M0 HM') (ev_even (ones E) ids p M) (gx (ones E) ids p M Hd M0 HM')
      (h3a (ones E) ids p M HP Hd M0 HM') (h3b (ones E) ids p M HP Hd M0 HM') (fun _ => true) 1 res (fun e _ => eq_refl) (ends_T (ones E) ids p M Hd M0 HM' res HE) (closed_T (ones E) ids p M Hd M0 (closed_ones E ids HV)) e
      (2 * (M * px p + py p), 2 * py p) Ie).
    specialize (Q ltac:(destruct IN as (_ & L1 & L2); split; [apply (plt1 (ones E) ids p M Hd M0 HM'); [exists e; auto|exact L1]|apply (plt2 (ones E) ids p M Hd M0 HM'); [exists e; auto|exact L2]])).
    specialize (Q ltac:(pose proof (hgt_q (ones E) p M e) as HQ; change (height p (ones E e)) with (height p (E e)) in HQ; rewrite (proj1 IN) in HQ; etransitivity; [exact HQ|ring])).
    specialize (Q ltac:(apply (not_vertex (ones E) ids p M HP Hd M0 HM' e Ie IN))).
    assert (FE : forall l (h1 h2 : nat -> bool), (forall e, In e l -> h1 e = h2 e) -> filter h1 l = filter h2 l).
    { induction l as [|a l IH]; intros h1 h2 H; [reflexivity|]. cbn [filter]. rewrite (H a) by (left; auto). rewrite (IH h1 h2) by (intros; apply H; right; auto). reflexivity. }
    pose proof (FE ids _ (fun f => beneath p (E f)) (fun f F => beneath_q (ones E) ids p M HP Hd M0 HM' f F)) as FQ. apply (f_equal (fun l => xor_all (map (m (fun i => TE k M (ones E i))) l))) in FQ. pose proof (eq_trans Q FQ) as Q2. clear Q FQ. rename Q2 into Q.
    unfold B in Q. change (m (fun i => TE k M (ones E i))) with (fun _ : nat => 1%N) in Q. rewrite !xor_ones in Q.
    change (Bs (fun i => TE k M (ones E i)) ids e) with (Bs E' ids e) in Q.
    destruct (Nat.even (length (Bs E' ids e))), (Nat.even (length (filter (fun f => beneath p (E f)) ids))); congruence.
Qed.

Lemma poly_total : forall E ids res fuel b0 h0 p0, planar E ids -> even_ends E ids -> ends_of E ids res -> rigt_order E res ->
  (length ids <= fuel)%nat -> 2 * Z.of_nat (length ids) + 3 < 2 ^ 32 ->
  exists r b, poly E fuel b0 h0 p0 res = Done r
  /\ NoDup (points r) /\ Forall (fun w => NoDup w /\ w <> [] /\ forall i, In i w -> (i < length (points r))%nat) (paths r)
  /\ Permutation (flat_map (fun w => cyc_pairs (coords (points r) w)) (paths r)) (map (fun e => directed (E e) (b e)) ids)
  /\ forall e p, In e ids -> 0 < pd p -> inside_edge p (E e) -> b e = Nat.even (length (filter (fun f => beneath p (E f)) ids)).
Proof.
  intros E ids res fuel b0 h0 p0 HP HV HE HRo HF HS.
  destruct (run_at E ids res fuel b0 h0 p0 (mk_point 0 0 1) HP HV HE HRo HF HS ltac:(cbn; lia)) as (R & dn & d & A & I & _).
  exists (out d), (back d). split; [unfold poly; fold (d_init b0 h0 p0); rewrite A; reflexivity|].
  destruct (inv_final E ids res R dn d (proj1 HP) (proj1 (proj2 HE)) I) as (-> & _).
  destruct (poly_edges_of E ids res dn d I (proj1 HP) (proj1 (proj2 HE))) as (X1 & X2 & X3). split; [exact X1|]. split; [exact X2|]. split; [exact X3|].
  intros e p Ie Hd IN. destruct (run_at E ids res fuel b0 h0 p0 p HP HV HE HRo HF HS Hd) as (R' & dn' & d2 & A2 & _ & D). rewrite A in A2. injection A2 as <-. apply D; assumption.
Qed.
