(** Proofs about the construction of paths: planar arrangements, with different abscissas for different ends *)
From Coq Require Import ZArith List Bool Lia Arith Permutation Sorted ZifyBool.
From Verif Require Import List_model List_spec List_proofs Reduce_model Reduce_spec Reduce_proofs Poly_model Poly_spec Poly_proofs Poly_proofs2 Poly_proofs3 Poly_proofs4.
Import ListNotations.
Open Scope Z_scope.

(** ** Sequences *)
Lemma succ_mid : forall a e f c, NoDup (a ++ e :: f :: c) -> succ_of e (a ++ e :: f :: c) = Some f.
Proof.
  induction a as [|x a IH]; intros e f c N.
  - cbn [app succ_of]. rewrite Nat.eqb_refl. reflexivity.
  - cbn [app] in *. inversion N as [|? ? N1 N2]; subst. specialize (IH e f c N2).
    assert (X : x <> e) by (intros ->; apply N1, in_mid; auto).
    destruct (a ++ e :: f :: c) as [|y l] eqn:Q; [destruct a; discriminate|].
    change (succ_of e (x :: y :: l)) with (if (x =? e)%nat then Some y else succ_of e (y :: l)). destruct (Nat.eqb_spec x e); [contradiction|exact IH].
Qed.
Definition last_opt (l : list nat) : option nat := match rev l with [] => None | x :: _ => Some x end.
Lemma pred_mid : forall a e c, NoDup (a ++ e :: c) -> pred_of e (a ++ e :: c) = last_opt a.
Proof.
  intros a e c. destruct a as [|x a] using rev_ind; intros N.
  - cbn [app]. unfold last_opt. cbn [rev]. assert (NI : ~ In e c) by (inversion N; assumption). clear N.
    assert (G : forall l x, ~ In e l -> pred_of e (x :: l) = None).
    { induction l as [|y l IH]; intros x H; [reflexivity|].
      change (pred_of e (x :: y :: l)) with (if (y =? e)%nat then Some x else pred_of e (y :: l)).
      destruct (Nat.eqb_spec y e) as [->|_]; [exfalso; apply H; left; reflexivity|]. apply IH. intros J. apply H. right. exact J. }
    apply G, NI.
  - clear IHa. unfold last_opt. rewrite rev_app_distr. cbn [rev app]. rewrite <- app_assoc in N. rewrite <- app_assoc. cbn [app] in *.
    induction a as [|z a IH].
    + cbn [app pred_of]. rewrite Nat.eqb_refl. reflexivity.
    + cbn [app] in *. inversion N as [|? ? N1 N2]; subst. specialize (IH N2).
      destruct (a ++ x :: e :: c) as [|y l] eqn:Q; [destruct a; discriminate|].
      change (pred_of e (z :: y :: l)) with (if (y =? e)%nat then Some z else pred_of e (y :: l)).
      destruct (Nat.eqb_spec y e) as [->|_]; [exfalso|exact IH].
      destruct a as [|w a]; cbn [app] in Q; injection Q as -> <-.
      * cbn [app] in N2. inversion N2 as [|? ? M1 M2]; subst. apply M1. left. reflexivity.
      * inversion N2 as [|? ? M1 M2]; subst. apply M1. apply in_or_app. right. right. left. reflexivity.
Qed.
Lemma map_repl : forall a e b c, NoDup (a ++ e :: c) -> map (fun x => if (x =? e)%nat then b else x) (a ++ e :: c) = a ++ b :: c.
Proof.
  intros a e b c N. rewrite map_app. cbn [map]. rewrite Nat.eqb_refl.
  assert (G : forall l, ~ In e l -> map (fun x => if (x =? e)%nat then b else x) l = l).
  { induction l as [|x l IH]; intros H; [reflexivity|]. cbn [map]. rewrite IH by (intros J; apply H; right; exact J).
    destruct (Nat.eqb_spec x e) as [->|_]; [exfalso; apply H; left; reflexivity|reflexivity]. }
  apply NoDup_remove_2 in N. rewrite !G; [reflexivity| |]; intros J; apply N, in_or_app; auto.
Qed.
Lemma remove_none : forall e l, ~ In e l -> state_edge_remove e l = l.
Proof.
  intros e. induction l as [|x l IH]; intros H; [reflexivity|]. unfold state_edge_remove in *. cbn [filter].
  destruct (Nat.eqb_spec x e) as [->|_]; cbn [negb]; [exfalso; apply H; left; reflexivity|]. f_equal. apply IH. intros J. apply H. right. exact J.
Qed.
Lemma remove_mid : forall a e c, NoDup (a ++ e :: c) -> state_edge_remove e (a ++ e :: c) = a ++ c.
Proof.
  intros a e c N. apply NoDup_remove_2 in N. unfold state_edge_remove. rewrite filter_app. cbn [filter]. rewrite Nat.eqb_refl. cbn [negb].
  fold (state_edge_remove e a) (state_edge_remove e c). rewrite !remove_none; [reflexivity| |]; intros J; apply N, in_or_app; auto.
Qed.
Lemma nth_mid : forall (a : list nat) e c i x, nth_error (a ++ e :: c) i = Some x ->
  (i < length a /\ nth_error a i = Some x)%nat \/ (i = length a /\ x = e) \/ (length a < i /\ nth_error c (i - length a - 1) = Some x)%nat.
Proof.
  intros a e c i x H. destruct (Nat.lt_trichotomy i (length a)) as [L|[L|L]].
  - left. rewrite nth_error_app1 in H by exact L. auto.
  - right. left. subst i. rewrite nth_error_app2, Nat.sub_diag in H by lia. injection H as ->. auto.
  - right. right. rewrite nth_error_app2 in H by lia. destruct (i - length a)%nat as [|k] eqn:Q; [lia|]. split; [exact L|]. cbn [nth_error] in H. replace (S k - 1)%nat with k by lia. exact H.
Qed.

Section Geo.
Variables (E : nat -> edge) (ids : list nat) (res : list (nat * bool)).
Hypothesis HN : NoDup ids.
Hypothesis Hlr : forall e, In e ids -> xl (E e) < xr (E e).
Hypothesis Hev : forall v, isv E ids v -> exists k, fst v = 2 * k.
Hypothesis Hgx : forall v w, isv E ids v -> isv E ids w -> fst v = fst w -> v = w.
Hypothesis H3a : forall f g X Y, In f ids -> In g ids -> f <> g -> both E f g X -> both E f g Y -> 0 < Df (E f) (E g) X -> 0 <= Df (E f) (E g) Y.
Hypothesis H3b : forall f g X, In f ids -> In g ids -> f <> g -> both E f g X -> Df (E f) (E g) X = 0 ->
  (X = xl (E f) \/ X = xr (E f)) /\ (X = xl (E g) \/ X = xr (E g)).
Hypothesis Hres : ends_of E ids res.
Hypothesis Hro : rigt_order E res.

Notation lt f g := (ltb E f g = true).
Notation sorted := (StronglySorted (fun f g => lt f g)).
Let anti := lt_anti E ids Hlr Hev H3a H3b.
Let active_at := active_at E ids Hgx res Hres.
Let order_in := order_in E ids Hgx res Hres.
Let order_post := order_post E ids Hgx res Hres.
Let hgt_lt := hgt_lt E ids Hlr Hev H3a H3b.
Let sapp := sorted_app E (fun _ => true) 0%N.

Lemma anti_false : forall f g, In f ids -> In g ids -> overlap E f g -> lt f g -> lt g f -> False.
Proof.
  intros f g F G O A B. assert (N : f <> g) by (intros ->; rewrite lt_irrefl in A; discriminate).
  rewrite (anti f g F G N O), A in B. discriminate.
Qed.
Lemma lt_ne : forall f g, lt f g -> f <> g.
Proof. intros f g H ->. rewrite lt_irrefl in H. discriminate. Qed.
Lemma same_left_lt : forall e f, In e ids -> In f ids -> e <> f -> left (E e) = left (E f) -> 0 < hgt (rigt (E f)) (E e) -> lt e f.
Proof.
  intros e f IE IF N Q O. pose proof (Hlr e IE) as Le. pose proof (Hlr f IF) as Lf.
  assert (M := mid_open E ids Hlr Hev e f IE IF). specialize (M ltac:(unfold overlap, xl, xr in *; rewrite Q in *; lia)). simpl in M.
  rewrite (lt_pos_open E ids Hlr Hev H3a H3b e f _ IE IF N (proj1 M) (proj2 M)). apply Z.ltb_lt.
  rewrite Df_common by exact Q. replace (Z.max (xl (E e)) (xl (E f)) + 1 - xl (E e)) with 1 by (unfold xl; rewrite Q; lia).
  rewrite Z.mul_1_l. clear - O Q. unfold hgt, num, cross3_z, dx, dy, xl in *. rewrite Q in *. lia.
Qed.
Lemma Df_common_r : forall f g X, rigt f = rigt g -> Df f g X = (xr f - X) * - hgt (left f) g.
Proof.
  intros f g X Q. unfold Df, hgt, num, xl, xr, dx, dy. rewrite Q. ring.
Qed.
Lemma same_rigt_lt : forall v w, In v ids -> In w ids -> v <> w -> rigt (E v) = rigt (E w) -> hgt (left (E w)) (E v) < 0 -> lt w v.
Proof.
  intros v w V W N Q O. pose proof (Hlr v V) as Lv. pose proof (Hlr w W) as Lw.
  assert (M := mid_open E ids Hlr Hev w v W V). specialize (M ltac:(unfold overlap, xl, xr in *; rewrite Q in *; lia)). simpl in M.
  rewrite (lt_pos_open E ids Hlr Hev H3a H3b w v _ W V (not_eq_sym N) (proj1 M) (proj2 M)). apply Z.ltb_lt.
  rewrite Df_common_r by (symmetry; exact Q). apply Z.mul_pos_pos; lia.
Qed.
Lemma order_rigt : forall a b c v w, res = a ++ (v, true) :: b ++ (w, true) :: c -> rigt (E v) = rigt (E w) -> hgt (left (E w)) (E v) < 0.
Proof. intros a b c v w R Q. pose proof (Hro a b c v w R Q) as H. rewrite height_hgt in H. exact H. Qed.

Lemma in_ids : forall e s, In (e, s) res -> In e ids.
Proof. intros e s H. apply (proj1 (proj2 Hres) e s), H. Qed.
Lemma in_res : forall e s, In e ids -> In (e, s) res.
Proof. intros e s H. apply (proj1 (proj2 Hres) e s), H. Qed.
Lemma mid_nd : forall pre v post, res = pre ++ v :: post -> ~ In v pre /\ ~ In v post.
Proof. intros pre v post R. pose proof (proj1 Hres) as ND. rewrite R in ND. apply NoDup_remove_2 in ND. rewrite in_app_iff in ND. tauto. Qed.
Lemma left_first : forall pre e post, res = pre ++ (e, false) :: post -> ~ In (e, true) pre.
Proof.
  intros pre e post R X. assert (IE : In e ids) by (apply (in_ids e false); rewrite R; apply in_or_app; right; left; reflexivity).
  pose proof (Hlr e IE) as Le. destruct (order_in _ _ _ _ R X) as [Y|(Y & _)]; unfold evx, end_of, xl, xr in *; simpl in *; [lia|rewrite Y in Le; lia].
Qed.
Lemma rigt_active : forall pre e post, res = pre ++ (e, true) :: post -> active pre e.
Proof.
  intros pre e post R. destruct (mid_nd _ _ _ R) as (NP & _).
  assert (IE : In e ids) by (apply (in_ids e true); rewrite R; apply in_or_app; right; left; reflexivity). split; [|exact NP].
  pose proof (in_res e false IE) as X. rewrite R in X. apply in_app_or in X. destruct X as [X|[X|X]]; [exact X|discriminate|exfalso].
  pose proof (Hlr e IE) as Le. destruct (order_post _ _ _ _ R X) as [Y|(Y & _)]; unfold evx, end_of, xl, xr in *; simpl in *; [lia|rewrite Y in Le; lia].
Qed.
Lemma active_left : forall pre e post f, res = pre ++ (e, false) :: post -> (active (pre ++ [(e, false)]) f <-> f = e \/ active pre f).
Proof.
  intros pre e post f R. pose proof (left_first _ _ _ R) as L. unfold active. rewrite !in_app_iff. cbn [In]. split.
  - intros ([A|[A|[]]] & B); [right; tauto|left; congruence].
  - intros [->|(A & B)]; (split; [tauto|]); intros [C|[C|[]]]; try discriminate; contradiction.
Qed.
Lemma active_rigt : forall pre e f, active (pre ++ [(e, true)]) f <-> active pre f /\ f <> e.
Proof.
  intros pre e f. unfold active. rewrite !in_app_iff. cbn [In]. split.
  - intros ([A|[A|[]]] & B); [|discriminate]. split; [tauto|]. intros ->. apply B. right. left. reflexivity.
  - intros ((A & B) & C). split; [tauto|]. intros [D|[D|[]]]; [contradiction|congruence].
Qed.

(** The edges below an edge at its left end *)
Lemma Bs_active : forall pre e post f, res = pre ++ (e, false) :: post -> (In f (Bs E ids e) <-> active pre f /\ lt f e).
Proof.
  intros pre e post f R. destruct (mid_nd _ _ _ R) as (NP & _).
  assert (IE : In e ids) by (apply (in_ids e false); rewrite R; apply in_or_app; right; left; reflexivity).
  unfold Bs. rewrite filter_In, !andb_true_iff, negb_true_iff, Nat.eqb_neq, Z.leb_le, Z.ltb_lt. split.
  - intros (If & ((Ne & X1) & X2) & L). split; [|exact L]. pose proof (Hlr f If) as Lf. pose proof (Hlr e IE) as Le. split.
    + pose proof (in_res f false If) as X. rewrite R in X. apply in_app_or in X. destruct X as [X|[X|X]]; [exact X|congruence|exfalso].
      pose proof (order_post _ _ _ _ R X) as O. unfold evx, end_of in O. simpl in O. unfold xl in X1.
      destruct O as [O|(Q & [O|(_ & _ & O)])]; [lia|discriminate|].
      apply (anti_false e f); auto; [unfold overlap, xl in *; rewrite Q in *; lia|]. apply same_left_lt; auto.
    + intros X. pose proof (order_in _ _ _ _ R X) as O. unfold evx, end_of in O. simpl in O. unfold xl, xr in *.
      destruct O as [O|(O & _)]; [lia|rewrite O in X2; lia].
  - intros (A & L). pose proof (active_at _ _ _ _ R A) as (If & B). cbn [snd] in B. unfold evx, end_of in B. cbn [fst snd] in B. fold (xl (E e)) in B.
    split; [exact If|]. split; [|exact L]. split; [|lia]. split; [apply lt_ne, L|lia].
Qed.
Lemma Bs_count : forall pre e post l, res = pre ++ (e, false) :: post -> NoDup l -> (forall f, In f l <-> active pre f /\ lt f e) -> length (Bs E ids e) = length l.
Proof.
  intros pre e post l R N H. apply Permutation_length, NoDup_Permutation; [apply NoDup_filter, HN|exact N|].
  intros f. rewrite (Bs_active _ _ _ f R), H. tauto.
Qed.

Definition even_below (e : nat) : bool := Nat.even (length (Bs E ids e)).
Record geo (pre : list (nat * bool)) (d : pdata) : Prop := mk_geo {
  g_sorted : sorted (line d);
  g_active : forall e, In e (line d) <-> active pre e;
  g_alt : forall i e, nth_error (line d) i = Some e -> back d e = Nat.even i;
  g_dir : forall e, In (e, false) pre -> back d e = even_below e
}.

(** No edge between two edges that start at the same point *)
Lemma between_left : forall pre es et post f, res = pre ++ (es, false) :: (et, false) :: post -> left (E es) = left (E et) ->
  active pre f -> lt es f -> lt f et -> False.
Proof.
  intros pre es et post f R Q A L1 L2.
  assert (IS : In es ids) by (apply (in_ids es false); rewrite R; apply in_or_app; right; left; reflexivity).
  assert (IT : In et ids) by (apply (in_ids et false); rewrite R; apply in_or_app; right; right; left; reflexivity).
  pose proof (active_at _ _ _ _ R A) as (If & B). cbn [snd] in B. unfold evx, end_of in B. cbn [fst snd] in B. fold (xl (E es)) in B.
  pose proof (Hlr es IS) as Ls. pose proof (Hlr et IT) as Lt'. assert (XT : xl (E et) = xl (E es)) by (unfold xl; rewrite Q; reflexivity).
  assert (N1 : f <> es) by (apply not_eq_sym, lt_ne, L1). assert (N2 : f <> et) by (apply lt_ne, L2).
  assert (O1 : overlap E f es) by (unfold overlap; lia). assert (O2 : overlap E f et) by (unfold overlap; lia).
  assert (L1' : ltb E f es = false). { destruct (ltb E f es) eqn:X; [exfalso|reflexivity]. apply (anti_false f es); auto. }
  pose proof (hgt_lt f (es, false) es If IS N1 eq_refl eq_refl O1) as G1. rewrite L1' in G1. unfold evx, end_of in G1. cbn [fst snd] in G1. specialize (G1 ltac:(unfold both; fold (xl (E es)); lia)).
  pose proof (hgt_lt f (et, false) et If IT N2 eq_refl eq_refl O2) as G2. rewrite L2 in G2. unfold evx, end_of in G2. cbn [fst snd] in G2. specialize (G2 ltac:(unfold both; fold (xl (E et)); lia)).
  rewrite <- Q in G2. assert (Z : hgt (left (E es)) (E f) = 0) by lia.
  destruct (H3b f es (xl (E es)) If IS N1) as ([X|X] & _); [unfold both; lia|rewrite Df_left, Z; ring| |lia].
  assert (LL : left (E f) = left (E es)) by (apply Hgx; [exists f; auto|exists es; auto|exact (eq_sym X)]).
  destruct A as (A & _). destruct (order_in _ _ _ _ R A) as [O|(_ & [O|(_ & _ & O)])]; [unfold evx, end_of in O; cbn [fst snd] in O; rewrite LL in O; lia|discriminate|].
  cbn [fst] in O. apply (anti_false f es); auto. apply same_left_lt; auto.
Qed.
(** No edge between two edges that end at the same point, if all above have been removed *)
Lemma between_rigt : forall pre es et post f, res = pre ++ (es, true) :: (et, true) :: post -> rigt (E es) = rigt (E et) ->
  active pre f -> lt et f -> lt f es -> False.
Proof.
  intros pre es et post f R Q A L1 L2.
  assert (IS : In es ids) by (apply (in_ids es true); rewrite R; apply in_or_app; right; left; reflexivity).
  assert (IT : In et ids) by (apply (in_ids et true); rewrite R; apply in_or_app; right; right; left; reflexivity).
  pose proof (active_at _ _ _ _ R A) as (If & B). cbn [snd] in B. unfold evx, end_of in B. cbn [fst snd] in B. fold (xr (E es)) in B.
  pose proof (Hlr es IS) as Ls. pose proof (Hlr et IT) as Lt'. assert (XT : xr (E et) = xr (E es)) by (unfold xr; rewrite Q; reflexivity).
  assert (N1 : f <> et) by (apply not_eq_sym, lt_ne, L1). assert (N2 : f <> es) by (apply lt_ne, L2).
  assert (O1 : overlap E f et) by (unfold overlap; lia). assert (O2 : overlap E f es) by (unfold overlap; lia).
  assert (L1' : ltb E f et = false). { destruct (ltb E f et) eqn:X; [exfalso|reflexivity]. apply (anti_false f et); auto. }
  pose proof (hgt_lt f (et, true) et If IT N1 eq_refl eq_refl O1) as G1. rewrite L1' in G1. unfold evx, end_of in G1. cbn [fst snd] in G1. specialize (G1 ltac:(unfold both; fold (xr (E et)); lia)).
  pose proof (hgt_lt f (es, true) es If IS N2 eq_refl eq_refl O2) as G2. rewrite L2 in G2. unfold evx, end_of in G2. cbn [fst snd] in G2. specialize (G2 ltac:(unfold both; fold (xr (E es)); lia)).
  rewrite <- Q in G1. assert (Z : hgt (rigt (E es)) (E f) = 0) by lia.
  destruct (H3b f es (xr (E es)) If IS N2) as ([X|X] & _); [unfold both; lia|rewrite Df_rigt, Z; ring|lia|].
  assert (LL : rigt (E f) = rigt (E es)) by (apply Hgx; [exists f; auto|exists es; auto|exact (eq_sym X)]).
  destruct A as (_ & A). pose proof (in_res f true If) as Y. rewrite R in Y. apply in_app_or in Y. destruct Y as [Y|[Y|[Y|Y]]]; [contradiction|congruence|congruence|].
  apply in_split in Y. destruct Y as (y1 & y2 & ->).
  assert (R' : res = (pre ++ [(es, true)]) ++ (et, true) :: y1 ++ (f, true) :: y2) by (rewrite R, <- app_assoc; reflexivity).
  pose proof (order_rigt _ _ _ _ _ R' ltac:(congruence)) as O.
  apply (anti_false et f); auto; [unfold overlap in *; lia|]. apply same_rigt_lt; auto. congruence.
Qed.
(** The neighbours of an edge at a bend *)
Lemma at_bend : forall pre es et post f, res = pre ++ (es, true) :: (et, false) :: post -> rigt (E es) = left (E et) ->
  active pre f -> f <> es -> (lt f es -> lt f et) /\ (lt es f -> lt et f).
Proof.
  intros pre es et post f R Q A N.
  assert (IS : In es ids) by (apply (in_ids es true); rewrite R; apply in_or_app; right; left; reflexivity).
  assert (IT : In et ids) by (apply (in_ids et false); rewrite R; apply in_or_app; right; right; left; reflexivity).
  pose proof (active_at _ _ _ _ R A) as (If & B). cbn [snd] in B. unfold evx, end_of in B. cbn [fst snd] in B. fold (xr (E es)) in B.
  pose proof (Hlr es IS) as Ls. pose proof (Hlr et IT) as Lt'. pose proof (Hlr f If) as Lf. assert (XT : xl (E et) = xr (E es)) by (unfold xl, xr; rewrite Q; reflexivity).
  assert (O1 : overlap E f es) by (unfold overlap; lia).
  assert (NR : rigt (E f) <> rigt (E es)).
  { intros RR. destruct A as (_ & A). pose proof (in_res f true If) as Y. rewrite R in Y. apply in_app_or in Y. destruct Y as [Y|[Y|[Y|Y]]]; [contradiction|congruence|congruence|].
    assert (R' : res = (pre ++ [(es, true)]) ++ (et, false) :: post) by (rewrite R, <- app_assoc; reflexivity).
    destruct (order_post _ _ _ _ R' Y) as [O|(_ & [O|(_ & O & _)])]; [unfold evx, end_of in O; cbn [fst snd] in O; rewrite RR, Q in O; lia|discriminate|discriminate]. }
  assert (XF : xr (E es) < xr (E f)).
  { assert (xr (E f) <> xr (E es)); [|lia]. intros X. apply NR, Hgx; [exists f; auto|exists es; auto|exact X]. }
  assert (NT : f <> et) by (intros ->; lia).
  assert (O2 : overlap E f et) by (unfold overlap; lia).
  assert (NZ : hgt (rigt (E es)) (E f) <> 0).
  { intros Z. destruct (H3b f es (xr (E es)) If IS N) as ([X|X] & _); [unfold both; lia|rewrite Df_rigt, Z; ring|lia|lia]. }
  pose proof (hgt_lt f (es, true) es If IS N eq_refl eq_refl O1) as G1. unfold evx, end_of in G1. cbn [fst snd] in G1. specialize (G1 ltac:(unfold both; fold (xr (E es)); lia)).
  pose proof (hgt_lt f (et, false) et If IT NT eq_refl eq_refl O2) as G2. unfold evx, end_of in G2. cbn [fst snd] in G2. specialize (G2 ltac:(unfold both; fold (xl (E et)); lia)).
  rewrite <- Q in G2. split; intros L.
  - rewrite L in G1. destruct (ltb E f et); [reflexivity|lia].
  - destruct (ltb E f es) eqn:X; [exfalso; apply (anti_false f es); auto|]. rewrite (anti f et If IT NT O2). destruct (ltb E f et); [lia|reflexivity].
Qed.

Lemma app_tail : forall (pre : list (nat * bool)) s t, pre ++ [s; t] = (pre ++ [s]) ++ [t].
Proof. intros. rewrite <- app_assoc. reflexivity. Qed.
Lemma even_SS : forall n, Nat.even (S (S n)) = Nat.even n. Proof. reflexivity. Qed.

Lemma start_geo : forall pre es et post d, res = pre ++ (es, false) :: (et, false) :: post -> left (E es) = left (E et) -> geo pre d ->
  Poly_proofs4.ext E (es, false) (et, false) d /\ forall d', Poly_proofs4.post E (es, false) (et, false) d d' -> geo (pre ++ [(es, false); (et, false)]) d'.
Proof.
  intros pre es et post d R Q [GS GA GL GD].
  assert (R' : res = (pre ++ [(es, false)]) ++ (et, false) :: post) by (rewrite R, <- app_assoc; reflexivity).
  assert (IS : In es ids) by (apply (in_ids es false); rewrite R; apply in_or_app; right; left; reflexivity).
  assert (IT : In et ids) by (apply (in_ids et false); rewrite R'; apply in_or_app; right; left; reflexivity).
  destruct (mid_nd _ _ _ R) as (Ns & Ns'). destruct (mid_nd _ _ _ R') as (Nt & Nt').
  assert (NE : es <> et) by (intros ->; apply Ns'; left; reflexivity).
  pose proof (Hlr es IS) as Ls. pose proof (Hlr et IT) as Lt'. assert (XT : xl (E et) = xl (E es)) by (unfold xl; rewrite Q; reflexivity).
  assert (LT : lt es et).
  { destruct (order_in _ _ _ (es, false) R') as [O|(_ & [O|(_ & _ & O)])]; [apply in_or_app; right; left; reflexivity|unfold evx, end_of in O; cbn [fst snd] in O; unfold xl in XT; lia|discriminate|].
    apply same_left_lt; auto. }
  assert (OST : overlap E es et) by (unfold overlap; lia).
  assert (NIs : ~ In es (line d)) by (rewrite GA; intros (J & _); contradiction).
  assert (NIt : ~ In et (line d)) by (rewrite GA; intros (J & _); apply Nt, in_or_app; auto).
  assert (AC : forall g, In g (line d) -> In g ids /\ xl (E g) <= xl (E es) < xr (E g)).
  { intros g G. apply GA in G. exact (active_at _ _ _ _ R G). }
  destruct (insert_sorted E ids Hlr Hev Hgx H3a H3b es (line d) IS) as (lo & hi & EI & ES & L1 & L2); [|exact GS|].
  { intros f Hf. destruct (AC f Hf) as (X1 & X2). split; [exact X1|]. split; [intros ->; contradiction|exact X2]. }
  assert (SS : sorted (lo ++ es :: hi)).
  { rewrite ES in GS. apply sapp in GS. destruct GS as (J1 & J2 & J3). apply sapp. split; [exact J1|]. split.
    - constructor; [exact J2|]. apply Forall_forall. exact L2.
    - intros f g Fi [ <- | G]; auto. }
  assert (IN2 : forall f, In f (lo ++ es :: hi) <-> f = es \/ In f (line d)) by (intros f; rewrite ES, in_mid, in_app_iff; tauto).
  destruct (insert_sorted E ids Hlr Hev Hgx H3a H3b et (lo ++ es :: hi) IT) as (lo2 & hi2 & EI2 & ES2 & L3 & L4); [|exact SS|].
  { intros f Hf. apply IN2 in Hf. rewrite XT. destruct Hf as [->|Hf]; [split; [exact IS|]; split; [exact NE|lia]|].
    destruct (AC f Hf) as (X1 & X2). split; [exact X1|]. split; [intros ->; contradiction|exact X2]. }
  assert (PT : lo2 = lo ++ [es] /\ hi2 = hi).
  { assert (NH : ~ In es hi2) by (intros J; apply (anti_false es et); auto).
    assert (K : forall f, In f hi -> In f lo2 -> False).
    { intros f J1 J2. apply (between_left pre es et post f); auto. apply GA. rewrite ES. apply in_or_app. auto. }
    apply app_eq_app in ES2. destruct ES2 as (l & [(X1 & X2)|(X1 & X2)]).
    - exfalso. apply NH. rewrite X2. apply in_or_app. right. left. reflexivity.
    - destruct l as [|z l]; cbn [app] in X2; [exfalso; apply NH; rewrite <- X2; left; reflexivity|]. injection X2 as <- X2.
      destruct l as [|f l]; [split; [exact X1|exact (eq_sym X2)]|exfalso]. apply (K f); [rewrite X2; left; reflexivity|rewrite X1; apply in_or_app; right; right; left; reflexivity]. }
  destruct PT as (-> & ->).
  assert (NEW : (lo ++ [es]) ++ et :: hi = lo ++ es :: et :: hi) by (rewrite <- app_assoc; reflexivity).
  assert (SN : sorted (lo ++ es :: et :: hi)).
  { rewrite <- NEW. rewrite ES2 in SS. apply sapp in SS. destruct SS as (J1 & J2 & J3). apply sapp. split; [exact J1|]. split.
    - constructor; [exact J2|]. apply Forall_forall. exact L4.
    - intros f g Fi [ <- | G]; auto. }
  assert (ND : NoDup (lo ++ es :: et :: hi)) by (apply (sorted_nodup E), SN).
  split.
  - unfold Poly_proofs4.ext. cbn [fst snd]. split; [exact Q|]. split; [exact NE|]. exists lo, hi, (lo ++ [es]), hi.
    split; [exact NIs|]. split; [exact EI|]. split; [exact NIt|]. split; [exact EI2|]. rewrite NEW. apply succ_mid, ND.
  - intros d' (_ & _ & _ & P). cbn [fst snd] in P. destruct P as (lo' & hi' & lo2' & hi2' & P1 & P2 & P3 & P4).
    rewrite EI in P1. injection P1 as <- <-. rewrite EI2 in P2. injection P2 as <- <-. rewrite NEW in P3.
    assert (BB : Poly_proofs4.bottom_back d (line d') es = Nat.even (length lo)).
    { unfold Poly_proofs4.bottom_back. rewrite P3, pred_mid by exact ND. unfold last_opt. destruct lo as [|x lo] using rev_ind; [reflexivity|]. clear IHlo.
      rewrite rev_app_distr. cbn [rev app]. rewrite (GL (length lo) x).
      - rewrite app_length. cbn [length]. rewrite Nat.add_1_r, Nat.even_succ, <- Nat.negb_even. reflexivity.
      - rewrite ES, <- app_assoc, nth_error_app2, Nat.sub_diag by lia. reflexivity. }
    rewrite BB in P4.
    assert (Bs_ : back d' es = Nat.even (length lo)) by (rewrite P4; destruct (Nat.eqb_spec es et); [contradiction|]; rewrite Nat.eqb_refl; reflexivity).
    assert (Bt_ : back d' et = negb (Nat.even (length lo))) by (rewrite P4, Nat.eqb_refl; reflexivity).
    assert (Bo_ : forall e, e <> es -> e <> et -> back d' e = back d e).
    { intros e N1 N2. rewrite P4. destruct (Nat.eqb_spec e et); [contradiction|]. destruct (Nat.eqb_spec e es); [contradiction|reflexivity]. }
    assert (A1 : forall f, active (pre ++ [(es, false)]) f <-> f = es \/ active pre f) by (intros f; apply (active_left _ _ _ f R)).
    assert (A2 : forall f, active (pre ++ [(es, false); (et, false)]) f <-> f = et \/ f = es \/ active pre f).
    { intros f. rewrite app_tail, (active_left _ _ _ f R'), A1. tauto. }
    constructor.
    + rewrite P3. exact SN.
    + intros e. rewrite A2, P3, !in_mid, <- GA, ES, in_app_iff. cbn [In]. intuition.
    + intros i e H. rewrite P3 in H. apply nth_mid in H. destruct H as [(X1 & X2)|[(-> & ->)|(X1 & X2)]].
      * rewrite Bo_.
        -- apply GL. rewrite ES, nth_error_app1 by exact X1. exact X2.
        -- intros ->. apply nth_error_In in X2. apply NIs. rewrite ES. apply in_or_app. auto.
        -- intros ->. apply nth_error_In in X2. apply NIt. rewrite ES. apply in_or_app. auto.
      * exact Bs_.
      * destruct (i - length lo - 1)%nat as [|k] eqn:K; cbn [nth_error] in X2.
        -- injection X2 as <-. rewrite Bt_. replace i with (S (length lo)) by lia. rewrite Nat.even_succ, <- Nat.negb_even. reflexivity.
        -- rewrite Bo_.
           ++ replace i with (S (S (length lo + k))) by lia. rewrite even_SS. apply GL. rewrite ES, nth_error_app2 by lia. replace (length lo + k - length lo)%nat with k by lia. exact X2.
           ++ intros ->. apply nth_error_In in X2. apply NIs. rewrite ES. apply in_or_app. auto.
           ++ intros ->. apply nth_error_In in X2. apply NIt. rewrite ES. apply in_or_app. auto.
    + intros e H. apply in_app_or in H. destruct H as [H|[H|[H|[]]]].
      * rewrite Bo_; [apply GD, H| |]; intros ->; [contradiction|apply Nt, in_or_app; auto].
      * injection H as <-. rewrite Bs_. unfold even_below. rewrite (Bs_count pre es _ lo R); [reflexivity|apply NoDup_app_l in ND; exact ND|].
        intros f. rewrite <- GA, ES, in_app_iff. split; [intros J; split; [auto|apply L1, J]|]. intros ([J|J] & L); [exact J|exfalso].
        assert (J' : In f (line d)) by (rewrite ES; apply in_or_app; auto). destruct (AC f J') as (If & Xf).
        apply (anti_false f es); auto. unfold overlap. lia.
      * injection H as <-. rewrite Bt_. unfold even_below. rewrite (Bs_count _ et _ (lo ++ [es]) R').
        -- rewrite app_length. cbn [length]. rewrite Nat.add_1_r, Nat.even_succ, <- Nat.negb_even. reflexivity.
        -- rewrite <- NEW in ND. apply NoDup_app_l in ND. exact ND.
        -- intros f. rewrite A1, <- GA, <- IN2, ES2, (in_app_iff (lo ++ [es]) hi). split; [intros J; split; [auto|apply L3, J]|]. intros ([J|J] & L); [exact J|exfalso].
           assert (J' : In f (line d)) by (rewrite ES; apply in_or_app; right; exact J).
           destruct (AC f J') as (If & Xf). apply (anti_false f et); auto. unfold overlap. lia.
Qed.

Lemma end_geo : forall pre es et post d, res = pre ++ (es, true) :: (et, true) :: post -> rigt (E es) = rigt (E et) -> geo pre d ->
  Poly_proofs4.ext E (es, true) (et, true) d /\ forall d', Poly_proofs4.post E (es, true) (et, true) d d' -> geo (pre ++ [(es, true); (et, true)]) d'.
Proof.
  intros pre es et post d R Q [GS GA GL GD].
  assert (R' : res = (pre ++ [(es, true)]) ++ (et, true) :: post) by (rewrite R, <- app_assoc; reflexivity).
  assert (IS : In es ids) by (apply (in_ids es true); rewrite R; apply in_or_app; right; left; reflexivity).
  assert (IT : In et ids) by (apply (in_ids et true); rewrite R'; apply in_or_app; right; left; reflexivity).
  destruct (mid_nd _ _ _ R) as (Ns & Ns'). assert (NE : es <> et) by (intros ->; apply Ns'; left; reflexivity).
  assert (Is : In es (line d)) by (apply GA, (rigt_active _ _ _ R)).
  assert (It : In et (line d)). { apply GA. pose proof (rigt_active _ _ _ R') as X. apply active_rigt in X. tauto. }
  assert (LT : lt et es). { apply same_rigt_lt; auto. apply (order_rigt pre [] post es et); auto. }
  pose proof (Hlr es IS) as Ls. pose proof (Hlr et IT) as Lt'. assert (XT : xr (E et) = xr (E es)) by (unfold xr; rewrite Q; reflexivity).
  assert (ND : NoDup (line d)) by (apply (sorted_nodup E), GS).
  assert (SP : exists a c, line d = a ++ et :: es :: c).
  { apply in_split in It. destruct It as (a & r & ES). rewrite ES in Is. apply in_app_or in Is.
    assert (OTS : overlap E et es) by (unfold overlap; lia).
    rewrite ES in GS. apply sapp in GS. destruct GS as (_ & S2 & S3). destruct Is as [Is|[Is|Is]]; [|congruence|].
    - exfalso. apply (anti_false et es); auto. apply S3; [exact Is|left; reflexivity].
    - apply in_split in Is. destruct Is as (b & c & ->). destruct b as [|f b]; [exists a, c; exact ES|exfalso].
      apply StronglySorted_inv in S2. destruct S2 as (S4 & S5). rewrite Forall_forall in S5. apply (between_rigt pre es et post f); auto.
      + apply GA. rewrite ES. apply in_or_app. right. right. left. reflexivity.
      + apply S5. left. reflexivity.
      + change ((f :: b) ++ es :: c) with ([f] ++ (b ++ es :: c)) in S4. apply sapp in S4. apply S4; [left; reflexivity|apply in_mid; auto]. }
  destruct SP as (a & c & ES). rewrite ES in ND.
  assert (Bt : back d et = Nat.even (length a)) by (apply GL; rewrite ES, nth_error_app2, Nat.sub_diag by lia; reflexivity).
  assert (Bs_ : back d es = negb (Nat.even (length a))).
  { rewrite (GL (S (length a)) es); [rewrite Nat.even_succ, <- Nat.negb_even; reflexivity|]. rewrite ES, nth_error_app2 by lia. replace (S (length a) - length a)%nat with 1%nat by lia. reflexivity. }
  split.
  - unfold Poly_proofs4.ext. cbn [fst snd]. split; [exact Q|]. split; [exact NE|]. split; [rewrite Bt, Bs_; destruct (Nat.even (length a)); reflexivity|].
    rewrite ES. apply succ_mid, ND.
  - intros d' (_ & _ & _ & P). cbn [fst snd] in P. destruct P as (P1 & P2).
    assert (P1' : line d' = a ++ c).
    { rewrite P1, ES. change (a ++ et :: es :: c) with (a ++ [et] ++ es :: c). rewrite app_assoc, remove_mid.
      - rewrite <- app_assoc. cbn [app]. apply remove_mid. change (a ++ et :: es :: c) with (a ++ [et] ++ es :: c) in ND. rewrite app_assoc in ND. apply NoDup_remove_1 in ND. rewrite <- app_assoc in ND. exact ND.
      - rewrite <- app_assoc. exact ND. }
    assert (NI : ~ In et (a ++ c) /\ ~ In es (a ++ c)).
    { split; [intros J; apply NoDup_remove_2 in ND; apply ND; rewrite in_app_iff in *; cbn [In]; tauto|].
      change (a ++ et :: es :: c) with (a ++ [et] ++ es :: c) in ND. rewrite app_assoc in ND. apply NoDup_remove_2 in ND. intros J; apply ND. rewrite !in_app_iff in *. cbn [In]. tauto. }
    constructor.
    + rewrite P1'. rewrite ES in GS. apply sapp in GS. destruct GS as (S1 & S2 & S3). apply sapp. split; [exact S1|]. apply StronglySorted_inv in S2. destruct S2 as (S4 & S5). apply StronglySorted_inv in S4. destruct S4 as (S6 & _).
      split; [assumption|]. intros f g F G. apply S3; [exact F|right; right; exact G].
    + intros e. rewrite app_tail, !active_rigt, <- GA, P1', ES. rewrite !in_app_iff. cbn [In]. rewrite in_app_iff in NI. destruct NI as (N1 & N2). rewrite in_app_iff in N2.
      split; [intros J; repeat split; [tauto| |]; intros ->; tauto|]. intros (([J|[J|[J|J]]] & X1) & X2); auto; congruence.
    + intros i e H. rewrite P2. rewrite P1' in H. destruct (Nat.lt_ge_cases i (length a)) as [L|L].
      * rewrite nth_error_app1 in H by exact L. apply GL. rewrite ES, nth_error_app1 by exact L. exact H.
      * rewrite nth_error_app2 in H by exact L. rewrite <- even_SS. apply GL. rewrite ES, nth_error_app2 by lia. replace (S (S i) - length a)%nat with (S (S (i - length a))) by lia. exact H.
    + intros e H. rewrite P2. apply GD. apply in_app_or in H. destruct H as [H|[H|[H|[]]]]; [exact H|discriminate|discriminate].
Qed.

Lemma bend_geo : forall pre es et post d, res = pre ++ (es, true) :: (et, false) :: post -> rigt (E es) = left (E et) -> geo pre d ->
  Poly_proofs4.ext E (es, true) (et, false) d /\ forall d', Poly_proofs4.post E (es, true) (et, false) d d' -> geo (pre ++ [(es, true); (et, false)]) d'.
Proof.
  intros pre es et post d R Q [GS GA GL GD].
  assert (R' : res = (pre ++ [(es, true)]) ++ (et, false) :: post) by (rewrite R, <- app_assoc; reflexivity).
  assert (IS : In es ids) by (apply (in_ids es true); rewrite R; apply in_or_app; right; left; reflexivity).
  assert (IT : In et ids) by (apply (in_ids et false); rewrite R'; apply in_or_app; right; left; reflexivity).
  pose proof (Hlr es IS) as Ls. pose proof (Hlr et IT) as Lt'. assert (XT : xl (E et) = xr (E es)) by (unfold xl, xr; rewrite Q; reflexivity).
  assert (NE : es <> et) by (intros ->; lia).
  destruct (mid_nd _ _ _ R') as (Nt & Nt').
  assert (Is : In es (line d)) by (apply GA, (rigt_active _ _ _ R)).
  assert (NIt : ~ In et (line d)) by (rewrite GA; intros (J & _); apply Nt, in_or_app; auto).
  assert (ND : NoDup (line d)) by (apply (sorted_nodup E), GS).
  split.
  - unfold Poly_proofs4.ext. cbn [fst snd]. split; [exact Q|]. split; [exact NE|]. split; [exact Is|exact NIt].
  - intros d' (_ & _ & _ & P). cbn [fst snd] in P. destruct P as (P1 & P2).
    apply in_split in Is. destruct Is as (a & c & ES). rewrite ES in ND. rewrite ES, map_repl in P1 by exact ND.
    assert (NM : ~ In es (a ++ c)) by (apply NoDup_remove_2 in ND; exact ND).
    assert (AT : forall f, In f (a ++ c) -> In f ids /\ f <> es /\ (lt f es -> lt f et) /\ (lt es f -> lt et f)).
    { intros f J. assert (f <> es) by (intros ->; contradiction). assert (A : active pre f) by (apply GA; rewrite ES; apply in_mid; right; exact J).
      split; [exact (proj1 (active_at _ _ _ _ R A))|]. split; [assumption|]. apply (at_bend pre es et post f); auto. }
    assert (SN : sorted (a ++ et :: c) /\ (forall f, In f a -> lt f et) /\ (forall f, In f c -> lt et f)).
    { rewrite ES in GS. apply sapp in GS. destruct GS as (S1 & S2 & S3). apply StronglySorted_inv in S2. destruct S2 as (S4 & S5). rewrite Forall_forall in S5.
      assert (A1 : forall f, In f a -> lt f et) by (intros f F; apply AT; [apply in_or_app; auto|apply S3; [exact F|left; reflexivity]]).
      assert (A2 : forall f, In f c -> lt et f) by (intros f F; apply AT; [apply in_or_app; auto|apply S5, F]).
      split; [|split; assumption]. apply sapp. split; [exact S1|]. split; [constructor; [exact S4|apply Forall_forall; exact A2]|].
      intros f g F [<-|G]; [apply A1, F|apply S3; [exact F|right; exact G]]. }
    destruct SN as (SN & A1 & A2).
    assert (Bt_ : back d' et = Nat.even (length a)).
    { rewrite P2, Nat.eqb_refl. apply GL. rewrite ES, nth_error_app2, Nat.sub_diag by lia. reflexivity. }
    assert (Bo_ : forall e, e <> et -> back d' e = back d e) by (intros e N; rewrite P2; destruct (Nat.eqb_spec e et); [contradiction|reflexivity]).
    assert (AC1 : forall f, active (pre ++ [(es, true)]) f <-> In f (a ++ c)).
    { intros f. rewrite active_rigt, <- GA, ES, in_mid, in_app_iff. rewrite in_app_iff in NM. split; [intros ([J|[J|J]] & N); [congruence|tauto|tauto]|intros J; split; [tauto|intros ->; tauto]]. }
    constructor.
    + rewrite P1. exact SN.
    + intros e. rewrite app_tail, (active_left _ _ _ e R'), AC1, P1, in_mid, in_app_iff. tauto.
    + intros i e H. rewrite P1 in H. apply nth_mid in H. destruct H as [(X1 & X2)|[(-> & ->)|(X1 & X2)]].
      * rewrite Bo_; [apply GL; rewrite ES, nth_error_app1 by exact X1; exact X2|]. intros ->. apply nth_error_In in X2. apply NIt. rewrite ES. apply in_or_app. auto.
      * exact Bt_.
      * rewrite Bo_; [apply GL; rewrite ES, nth_error_app2 by lia; destruct (i - length a)%nat eqn:K; [lia|]; cbn [nth_error]; rewrite <- X2; f_equal; lia|].
        intros ->. apply nth_error_In in X2. apply NIt. rewrite ES. apply in_or_app. right. right. exact X2.
    + intros e H. apply in_app_or in H. destruct H as [H|[H|[H|[]]]]; [|discriminate|].
      * rewrite Bo_; [apply GD, H|]. intros ->. apply Nt, in_or_app. auto.
      * injection H as <-. rewrite Bt_. unfold even_below. rewrite (Bs_count _ et _ a R'); [reflexivity|apply NoDup_app_l in ND; exact ND|].
        intros f. rewrite AC1, in_app_iff. split; [intros J; split; [auto|apply A1, J]|]. intros ([J|J] & L); [exact J|exfalso].
        assert (J' : In f (a ++ c)) by (apply in_or_app; auto). destruct (AT f J') as (If & Nf & _).
        assert (Af : active pre f) by (apply GA; rewrite ES; apply in_mid; auto).
        pose proof (A2 f J) as L'. apply (anti_false f et); auto.
        assert (AF2 : active (pre ++ [(es, true)]) f) by (apply AC1, J').
        pose proof (active_at _ _ _ _ R' AF2) as (_ & X). cbn [snd] in X. unfold evx, end_of in X. cbn [fst snd] in X. fold (xl (E et)) in X. unfold overlap. lia.
Qed.

Lemma geo_step : forall pre s t post d, res = pre ++ s :: t :: post -> end_of E s = end_of E t -> geo pre d ->
  Poly_proofs4.ext E s t d /\ forall d', Poly_proofs4.post E s t d d' -> geo (pre ++ [s; t]) d'.
Proof.
  intros pre [es a] [et b] post d R Q G. unfold end_of in Q. destruct a, b; cbn [fst snd] in Q.
  - apply (end_geo _ _ _ _ _ R Q G).
  - apply (bend_geo _ _ _ _ _ R Q G).
  - exfalso. assert (R' : res = (pre ++ [(es, false)]) ++ (et, true) :: post) by (rewrite R, <- app_assoc; reflexivity).
    destruct (order_in _ _ _ (es, false) R') as [O|(_ & [O|(_ & O & _)])]; [apply in_or_app; right; left; reflexivity|unfold evx, end_of in O; cbn [fst snd] in O; rewrite Q in O; lia|discriminate|discriminate].
  - apply (start_geo _ _ _ _ _ R Q G).
Qed.
End Geo.
