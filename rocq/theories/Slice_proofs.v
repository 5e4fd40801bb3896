(** Proofs for C10, C11. *)
From Coq Require Import ZArith Bool List Permutation Lia ZifyBool Sorted Arith.
From Verif Require Import Matq_model Matq_spec Matq_proofs Slice_model Slice_spec.
Import ListNotations.
Local Open Scope Z_scope.

Lemma bind_ok {A B} (x : res A) (f : A -> res B) b : bind x f = Ok b -> exists a, x = Ok a /\ f a = Ok b.
Proof. destruct x; cbn; try discriminate. eauto. Qed.

(** *** one edge *)
Definition cutr (z : Z) (e : vec3 * vec3) : res vec2 :=
  if z3 (fst e) <? z3 (snd e) then cut_z z (fst e) (snd e) else cut_z z (snd e) (fst e).

Lemma polyline_eq out z a b :
  polyline out z a b = if crossing z (a, b) then (let! p := cutr z (a, b) in Ok (out ++ [p])) else Ok out.
Proof.
  unfold polyline, crossing, cutr. cbn [fst snd].
  destruct (z3 b <? z3 a) eqn:L, (z3 a <? z3 b) eqn:L2;
  repeat match goal with |- context [?u <=? ?v] => destruct (u <=? v) eqn:? end;
  repeat match goal with |- context [?u <? ?v] => destruct (u <? v) eqn:? end; cbn; try lia; try reflexivity;
  repeat match goal with |- context [?u =? ?v] => destruct (u =? v) eqn:? end; cbn; try lia; reflexivity.
Qed.

Lemma crossing_sym z a b : crossing z (a, b) = crossing z (b, a).
Proof. unfold crossing. cbn. lia. Qed.
Lemma cutr_sym z a b : crossing z (a, b) = true -> cutr z (a, b) = cutr z (b, a).
Proof.
  unfold crossing, cutr. cbn. intros H.
  destruct (z3 a <? z3 b) eqn:L, (z3 b <? z3 a) eqn:L2; try reflexivity; lia.
Qed.

Lemma polyline_sym out z a b : polyline out z a b = polyline out z b a.
Proof.
  rewrite !polyline_eq, crossing_sym. destruct (crossing z (b, a)) eqn:C; [|reflexivity].
  rewrite cutr_sym; [reflexivity|]. rewrite crossing_sym. exact C.
Qed.

Lemma between_ (d u v a0 a1 : Z) : 0 < d -> 0 <= u -> 0 <= v -> u + v = d ->
  forall lo hi, lo <= a0 <= hi -> lo <= a1 <= hi -> lo * d <= a0 * u + a1 * v <= hi * d.
Proof. intros. subst d. nia. Qed.

Lemma round_between d n q lo hi : 0 < d -> lo * d <= n <= hi * d -> 2 * n - d < 2 * d * q <= 2 * n + d ->
  lo <= q <= hi.
Proof. nia. Qed.

Lemma interpol_ok z z0 z1 a0 a1 : small z0 -> small z1 -> small a0 -> small a1 -> z0 <= z < z1 ->
  exists p, interpol z z0 z1 a0 a1 = Ok p /\ small p /\ rounded z z0 z1 a0 a1 p.
Proof.
  unfold small. intros B0 B1 A0 A1 L. unfold interpol, dim_sub, dim_mul, dimw_add, ck32, ck64, check.
  rewrite (proj2 (Z.ltb_lt z0 z1)), (proj2 (Z.leb_le z0 z)), (proj2 (Z.leb_le z z1)) by lia. cbn [bind].
  assert (E1 : fits32 (z1 - z) = true) by (unfold fits32; lia). rewrite E1. cbn [bind].
  assert (E2 : fits32 (z - z0) = true) by (unfold fits32; lia).
  assert (E3 : fits32 (z1 - z0) = true) by (unfold fits32; lia).
  pose proof (between_ (z1 - z0) (z1 - z) (z - z0) a0 a1 ltac:(lia) ltac:(lia) ltac:(lia) ltac:(lia)
    (-1073741824) 1073741823 ltac:(lia) ltac:(lia)) as BB.
  assert (R0 : -1073741824 * 2147483647 <= a0 * (z1 - z) <= 1073741824 * 2147483647) by (clear - A0 B0 B1 L; nia).
  assert (R1 : -1073741824 * 2147483647 <= a1 * (z - z0) <= 1073741824 * 2147483647) by (clear - A1 B0 B1 L; nia).
  assert (F0 : fits64 (a0 * (z1 - z)) = true) by (unfold fits64; clear - R0; lia).
  assert (F1 : fits64 (a1 * (z - z0)) = true) by (unfold fits64; clear - R1; lia).
  assert (F2 : fits64 (a0 * (z1 - z) + a1 * (z - z0)) = true) by (unfold fits64; clear - R1 R0; lia).
  rewrite F0. cbn [bind]. rewrite E2. cbn [bind]. rewrite F1. cbn [bind]. rewrite F2. cbn [bind].
  rewrite E3. cbn [bind].
  destruct (divw_rnd_ok (a0 * (z1 - z) + a1 * (z - z0)) (z1 - z0)) as (q & Q & QB).
  { unfold is_llong. clear - R0 R1. lia. } { unfold is_llong. lia. } { lia. }
  rewrite Q. cbn [bind].
  assert (DP : 0 < z1 - z0) by lia. assert (BQ := round_between _ _ _ _ _ DP BB QB).
  assert (S : s32 q = q).
  { unfold s32, W. rewrite Z.mod_small; lia. }
  rewrite S, Z.eqb_refl. cbn [bind]. exists q. split; [reflexivity|]. split; [lia|].
  unfold rounded. cbn zeta. replace (a0 * (z1 - z0) + (a1 - a0) * (z - z0)) with (a0 * (z1 - z) + a1 * (z - z0)) by ring.
  clear - QB. lia.
Qed.

Lemma cutr_ok z e : small3 (fst e) -> small3 (snd e) -> crossing z e = true ->
  exists p, cutr z e = Ok p /\ small (fst p) /\ small (snd p) /\ cut_point z e p.
Proof.
  destruct e as [a b]. unfold small3, crossing, cutr, cut_point, cut_z. cbn [fst snd].
  intros (A1 & A2 & A3) (B1 & B2 & B3) C.
  destruct (z3 a <? z3 b) eqn:L.
  - destruct (interpol_ok z (z3 a) (z3 b) (x3 a) (x3 b)) as (p & E & S & R); try assumption; [lia|].
    destruct (interpol_ok z (z3 a) (z3 b) (y3 a) (y3 b)) as (q & E2 & S2 & R2); try assumption; [lia|].
    rewrite E. cbn [bind]. rewrite E2. cbn [bind]. eexists. split; [reflexivity|]. cbn [fst snd]. tauto.
  - destruct (interpol_ok z (z3 b) (z3 a) (x3 b) (x3 a)) as (p & E & S & R); try assumption; [lia|].
    destruct (interpol_ok z (z3 b) (z3 a) (y3 b) (y3 a)) as (q & E2 & S2 & R2); try assumption; [lia|].
    rewrite E. cbn [bind]. rewrite E2. cbn [bind]. eexists. split; [reflexivity|]. cbn [fst snd]. tauto.
Qed.

(** *** the loop over the edges *)
Fixpoint eloop (z : Z) (es : list (vec3 * vec3)) : res (list vec2) :=
  match es with
  | [] => Ok []
  | e :: es =>
      if crossing z e then let! p := cutr z e in let! r := eloop z es in Ok (p :: r)
      else eloop z es
  end.

Lemma edges_length f : length (edges f) = length f.
Proof.
  unfold edges. rewrite combine_length, app_length. destruct f; cbn [tl firstn length]; lia.
Qed.

Lemma edges_nth f i : (i < length f)%nat ->
  exists a b, nth_error f i = Some a /\
    nth_error f (if Nat.eqb (i + 1) (length f) then 0%nat else (i + 1)%nat) = Some b /\
    nth_error (edges f) i = Some (a, b).
Proof.
  intros L.
  destruct (nth_error f i) as [a|] eqn:A; [|apply nth_error_None in A; lia].
  assert (C : forall (l m : list vec3) i a b, nth_error l i = Some a -> nth_error m i = Some b ->
     nth_error (combine l m) i = Some (a, b)).
  { clear. induction l as [|x l IH]; intros m i a b.
    - destruct i; discriminate.
    - destruct m as [|y m]; [destruct i; discriminate|]. destruct i; cbn.
      + congruence.
      + apply IH. }
  destruct f as [|x f]; [cbn in L; lia|].
  destruct (Nat.eqb_spec (i + 1) (length (x :: f))) as [E|N]; cbn [length] in *.
  - exists a, x. split; [reflexivity|]. split; [reflexivity|]. apply C; [exact A|]. cbn [tl firstn].
    rewrite nth_error_app2 by lia. replace (i - length f)%nat with 0%nat by lia. reflexivity.
  - rewrite Nat.add_1_r. cbn [nth_error].
    destruct (nth_error f i) as [b|] eqn:B; [|apply nth_error_None in B; lia].
    exists a, b. split; [reflexivity|]. split; [reflexivity|]. apply C; [exact A|]. cbn [tl firstn].
    rewrite nth_error_app1 by lia. exact B.
Qed.

Lemma skipn_nth {A} (l : list A) i x : nth_error l i = Some x -> skipn i l = x :: skipn (S i) l.
Proof.
  revert i. induction l as [|y l IH]; intros [|i]; cbn; try discriminate.
  - congruence.
  - apply IH.
Qed.

Lemma face_loop_eq z f : forall n i out, (n + i = length f)%nat ->
  face_loop z f n i out = let! r := eloop z (skipn i (edges f)) in Ok (out ++ r).
Proof.
  induction n as [|n IH]; intros i out L.
  - cbn [face_loop]. rewrite skipn_all2 by (rewrite edges_length; lia). cbn. rewrite app_nil_r. reflexivity.
  - destruct (edges_nth f i) as (a & b & A & B & E); [lia|].
    cbn [face_loop]. cbn zeta. rewrite A, B, (skipn_nth _ _ _ E). cbn [eloop].
    rewrite polyline_eq. destruct (crossing z (a, b)).
    + destruct (cutr z (a, b)) as [p| |]; cbn [bind]; try reflexivity.
      rewrite IH by lia. rewrite Nat.add_1_r.
      destruct (eloop z (skipn (S i) (edges f))) as [r| |]; cbn [bind]; try reflexivity.
      rewrite <- app_assoc. reflexivity.
    + cbn [bind]. rewrite IH by lia. rewrite Nat.add_1_r. reflexivity.
Qed.

Lemma eloop_length z es r : eloop z es = Ok r -> length r = length (filter (crossing z) es).
Proof.
  revert r. induction es as [|e es IH]; intros r; cbn [eloop filter].
  - intros [= <-]. reflexivity.
  - destruct (crossing z e).
    + intros H. apply bind_ok in H as (p & _ & H). apply bind_ok in H as (s & S & [= <-]). cbn. rewrite (IH s S). reflexivity.
    + apply IH.
Qed.

(** *** parity *)
Lemma path_parity z : forall l a b,
  Nat.odd (length (filter (crossing z) (combine (a :: l) (l ++ [b])))) = xorb (z3 a <=? z) (z3 b <=? z).
Proof.
  assert (X : forall a b, crossing z (a, b) = xorb (z3 a <=? z) (z3 b <=? z)).
  { intros a b. unfold crossing. cbn [fst snd]. destruct (z3 a <=? z) eqn:A, (z3 b <=? z) eqn:B; cbn; lia. }
  induction l as [|c l IH]; intros a b.
  - cbn [app combine filter]. rewrite X. destruct (z3 a <=? z), (z3 b <=? z); reflexivity.
  - cbn [app]. change (combine (a :: c :: l) (c :: l ++ [b])) with ((a, c) :: combine (c :: l) (l ++ [b])).
    cbn [filter]. specialize (IH c b). rewrite X.
    destruct (xorb (z3 a <=? z) (z3 c <=? z)) eqn:Y.
    + cbn [length]. rewrite Nat.odd_succ, <- Nat.negb_odd, IH.
      destruct (z3 a <=? z), (z3 b <=? z), (z3 c <=? z); cbn in *; congruence.
    + rewrite IH. destruct (z3 a <=? z), (z3 b <=? z), (z3 c <=? z); cbn in *; congruence.
Qed.

Lemma cycle_even z f : Nat.even (length (filter (crossing z) (edges f))) = true.
Proof.
  destruct f as [|a f]; [reflexivity|]. unfold edges. cbn [tl firstn].
  rewrite <- Nat.negb_odd, path_parity, xorb_nilpotent. reflexivity.
Qed.

(** *** one face *)
Lemma keys_snd o l ks : keys o l = Ok ks -> map snd ks = l.
Proof.
  revert ks. induction l as [|p l IH]; intros ks; cbn [keys].
  - intros [= <-]. reflexivity.
  - intros H. apply bind_ok in H as (k & _ & H). apply bind_ok in H as (r & R & [= <-]). cbn. f_equal. auto.
Qed.

Lemma add_face_inv qsort out z f out2 : sorts qsort -> add_face qsort out z f = Ok out2 ->
  exists r new, out2 = out ++ new /\ Permutation r new /\
   (if Nat.ltb (length f) 3 then r = [] else eloop z (edges f) = Ok r).
Proof.
  intros QS. unfold add_face. destruct (Nat.ltb (length f) 3).
  { intros [= <-]. exists [], []. rewrite app_nil_r. auto. }
  intros H. apply bind_ok in H as (_ & _ & H). apply bind_ok in H as (o2 & L & H).
  rewrite face_loop_eq in L by lia. cbn [skipn] in L. apply bind_ok in L as (r & R & [= <-]).
  rewrite skipn_app, firstn_app, firstn_all, skipn_all, Nat.sub_diag, app_length in H. cbn [skipn firstn app] in H.
  rewrite app_nil_r in H. replace (length out + length r - length out)%nat with (length r) in H by lia.
  apply bind_ok in H as (_ & _ & H).
  destruct (Nat.eqb_spec (length r) 0) as [Z|Z].
  - injection H as <-. destruct r; [|discriminate]. exists [], []. auto.
  - apply bind_ok in H as (ks & K & [= <-]). exists r, (map snd (qsort ks)).
    split; [reflexivity|]. split; [|exact R].
    rewrite <- (keys_snd _ _ _ K). apply Permutation_map, QS.
Qed.

Lemma eloop_ok z es : (forall e, In e es -> small3 (fst e) /\ small3 (snd e)) ->
  exists r, eloop z es = Ok r /\ Forall2 (cut_point z) (filter (crossing z) es) r /\
    forall p, In p r -> small (fst p) /\ small (snd p).
Proof.
  induction es as [|e es IH]; intros S; cbn [eloop filter].
  - exists []. repeat split; auto; destruct H.
  - destruct IH as (r & R & F & P). { intros e' I. apply S. right. exact I. }
    destruct (crossing z e) eqn:C.
    + destruct (S e (or_introl eq_refl)) as [S1 S2].
      destruct (cutr_ok z e S1 S2 C) as (p & E & P1 & P2 & P3).
      rewrite E. cbn [bind]. rewrite R. cbn [bind]. eexists. split; [reflexivity|]. split.
      * constructor; assumption.
      * intros q [<-|I]; auto.
    + eauto.
Qed.

Lemma edges_small f : Forall small3 f -> forall e, In e (edges f) -> small3 (fst e) /\ small3 (snd e).
Proof.
  rewrite Forall_forall. intros S [a b] I. cbn [fst snd]. split.
  - apply in_combine_l in I. auto.
  - apply in_combine_r in I. apply in_app_iff in I. destruct f as [|x f]; cbn [tl firstn] in I; [destruct I as [[]|[]]|].
    destruct I as [I|[<-|[]]]; apply S; cbn; auto.
Qed.

Lemma bb_min_small l m : small (fst m) -> small (snd m) ->
  (forall p, In p l -> small (fst p) /\ small (snd p)) ->
  let b := fold_left (fun m p : vec2 => (Z.min (fst m) (fst p), Z.min (snd m) (snd p))) l m in
  small (fst b) /\ small (snd b).
Proof.
  revert m. induction l as [|p l IH]; intros m M1 M2 P; cbn [fold_left].
  - split; assumption.
  - destruct (P p (or_introl eq_refl)) as [P1 P2]. apply IH; cbn [fst snd]; unfold small in *; try lia.
    intros q I. apply P. right. exact I.
Qed.

Lemma sqr_dist_ok a b : small (fst a) -> small (snd a) -> small (fst b) -> small (snd b) ->
  exists k, vec2_sqr_dist a b = Ok k.
Proof.
  unfold small. intros A1 A2 B1 B2. unfold vec2_sqr_dist, sqr_len, dim_sub, dim_mul, dimw_add, ck32, ck64.
  assert (F1 : fits32 (fst a - fst b) = true) by (unfold fits32; lia).
  assert (F2 : fits32 (snd a - snd b) = true) by (unfold fits32; lia).
  rewrite F1. cbn [bind]. rewrite F2. cbn [bind].
  assert (H : forall u, -2147483647 <= u <= 2147483647 -> 0 <= u * u <= 4611686014132420609) by (clear; intros; nia).
  pose proof (H (fst a - fst b) ltac:(lia)) as H1. pose proof (H (snd a - snd b) ltac:(lia)) as H2.
  assert (F3 : fits64 ((fst a - fst b) * (fst a - fst b)) = true) by (unfold fits64; clear - H1; lia).
  assert (F4 : fits64 ((snd a - snd b) * (snd a - snd b)) = true) by (unfold fits64; clear - H2; lia).
  rewrite F3. cbn [bind]. rewrite F4. cbn [bind].
  match goal with |- context [fits64 ?e] => assert (F5 : fits64 e = true) by (unfold fits64; clear - H1 H2; lia) end.
  rewrite F5. eauto.
Qed.

Lemma keys_ok o l : small (fst o) -> small (snd o) -> (forall p, In p l -> small (fst p) /\ small (snd p)) ->
  exists ks, keys o l = Ok ks.
Proof.
  intros O1 O2. induction l as [|p l IH]; intros P; cbn [keys]; [eauto|].
  destruct (P p (or_introl eq_refl)) as [P1 P2].
  destruct (sqr_dist_ok p o P1 P2 O1 O2) as (k & ->). cbn [bind].
  destruct IH as (ks & ->). { intros q I. apply P. right. exact I. } cbn [bind]. eauto.
Qed.

Lemma add_face_ok qsort out z f : sorts qsort -> Forall small3 f -> Nat.Even (length out) -> (3 <= length f)%nat ->
  exists cuts new, add_face qsort out z f = Ok (out ++ new) /\ Nat.Even (length new) /\
    Forall2 (cut_point z) (filter (crossing z) (edges f)) cuts /\ Permutation cuts new.
Proof.
  intros QS S EV L3.
  destruct (eloop_ok z (edges f) (edges_small f S)) as (r & R & F & P).
  assert (EVR : Nat.even (length r) = true) by (rewrite (eloop_length _ _ _ R); apply cycle_even).
  assert (OK : exists o2, add_face qsort out z f = Ok o2).
  { unfold add_face. destruct (Nat.ltb_spec (length f) 3); [lia|].
    apply Nat.even_spec in EV. rewrite EV. cbn [check bind].
    rewrite face_loop_eq by lia. cbn [skipn]. rewrite R. cbn [bind]. cbn zeta.
    rewrite skipn_app, firstn_app, firstn_all, skipn_all, Nat.sub_diag, app_length. cbn [skipn firstn app].
    replace (length out + length r - length out)%nat with (length r) by lia. rewrite EVR. cbn [check bind].
    destruct (Nat.eqb_spec (length r) 0) as [Z|Z]; [eauto|].
    destruct r as [|p0 r]; [cbn in Z; lia|].
    assert (B : small (fst (bb_min (p0 :: r))) /\ small (snd (bb_min (p0 :: r)))).
    { unfold bb_min. cbn [fold_left fst snd]. apply bb_min_small; cbn [fst snd].
      - destruct (P p0 (or_introl eq_refl)). unfold small in *. lia.
      - destruct (P p0 (or_introl eq_refl)). unfold small in *. lia.
      - intros q I. apply P. right. exact I. }
    destruct (keys_ok (bb_min (p0 :: r)) (p0 :: r) (proj1 B) (proj2 B) P) as (ks & ->). cbn [bind]. eauto. }
  destruct OK as (o2 & O). destruct (add_face_inv _ _ _ _ _ QS O) as (r' & new & -> & PM & E).
  destruct (Nat.ltb_spec (length f) 3); [lia|].
  rewrite R in E. injection E as <-. exists r, new. split; [exact O|]. split; [|tauto].
  rewrite <- (Permutation_length PM). apply Nat.even_spec. exact EVR.
Qed.

Lemma add_face_parity qsort out z f out2 : sorts qsort ->
  add_face qsort out z f = Ok out2 -> exists new, out2 = out ++ new /\ Nat.Even (length new).
Proof.
  intros QS H. destruct (add_face_inv _ _ _ _ _ QS H) as (r & new & -> & P & E). exists new. split; [reflexivity|].
  rewrite <- (Permutation_length P). destruct (Nat.ltb (length f) 3).
  - subst r. exists 0%nat. reflexivity.
  - rewrite (eloop_length _ _ _ E). apply Nat.even_spec, cycle_even.
Qed.

(** the assertion about the parity of the number of cut points is never what fails *)
Lemma face_parity z f out out2 : face_loop z f (length f) 0 out = Ok out2 ->
  Nat.even (length out2 - length out) = true.
Proof.
  rewrite face_loop_eq by lia. intros H. apply bind_ok in H as (r & R & [= <-]).
  rewrite app_length. replace (length out + length r - length out)%nat with (length r) by lia.
  rewrite (eloop_length _ _ _ R). apply cycle_even.
Qed.

(** *** all faces *)
Definition cutb (z : Z) (p : vec2) (e : vec3 * vec3) : bool :=
  crossing z e && match cutr z e with Ok q => veq p q | _ => false end.

Lemma veq_eq a b : veq a b = true <-> a = b.
Proof.
  destruct a as [x y], b as [u v]. unfold veq. cbn [fst snd]. rewrite andb_true_iff, !Z.eqb_eq.
  split; [intros [-> ->]; reflexivity|]. intros [= -> ->]. auto.
Qed.

Lemma v3eq_eq a b : v3eq a b = true <-> a = b.
Proof.
  destruct a, b. unfold v3eq. cbn. rewrite !andb_true_iff, !Z.eqb_eq.
  split; [intros [[-> ->] ->]; reflexivity|]. intros [= -> -> ->]. auto.
Qed.

Lemma eloop_count z p es r : eloop z es = Ok r -> length (filter (veq p) r) = length (filter (cutb z p) es).
Proof.
  revert r. induction es as [|e es IH]; intros r; cbn [eloop filter].
  - intros [= <-]. reflexivity.
  - unfold cutb at 1. destruct (crossing z e); cbn [andb].
    + intros H. apply bind_ok in H as (q & Q & H). apply bind_ok in H as (s & S & [= <-]). rewrite Q. cbn [filter].
      destruct (veq p q); cbn [length]; rewrite (IH _ S); reflexivity.
    + intros H. apply IH, H.
Qed.

Lemma filter_perm_length {A} (g : A -> bool) l m : Permutation l m -> length (filter g l) = length (filter g m).
Proof.
  intros P. induction P as [|x l m P IH|x y l|l m n P1 IH1 P2 IH2]; cbn [filter].
  - reflexivity.
  - destruct (g x); cbn; lia.
  - destruct (g x), (g y); reflexivity.
  - lia.
Qed.

Lemma even_add_iff n m : Nat.Even n -> (Nat.Even (n + m) <-> Nat.Even m).
Proof.
  intros [k ->]. split; intros [j E]; [exists (j - k)%nat | exists (j + k)%nat]; lia.
Qed.

Lemma small_face_even z p f : (length f < 3)%nat -> Nat.Even (length (filter (cutb z p) (edges f))).
Proof.
  destruct f as [|a [|b [|c f]]]; cbn [length]; try lia; intros _; unfold edges; cbn [tl firstn app combine filter].
  - exists 0%nat. reflexivity.
  - assert (E : cutb z p (a, a) = false) by (unfold cutb, crossing; cbn [fst snd]; lia). rewrite E. exists 0%nat. reflexivity.
  - assert (E : cutb z p (a, b) = cutb z p (b, a)).
    { unfold cutb. rewrite crossing_sym. destruct (crossing z (b, a)) eqn:C; [|reflexivity].
      rewrite (cutr_sym z b a C). reflexivity. }
    rewrite E. destruct (cutb z p (b, a)); [exists 1%nat | exists 0%nat]; reflexivity.
Qed.

Lemma add_faces_count qsort z p faces : sorts qsort -> forall out out2, add_faces qsort out z faces = Ok out2 ->
  exists new, out2 = out ++ new /\ Nat.Even (length new) /\
    Nat.Even (length (filter (veq p) new) + length (filter (cutb z p) (flat_map edges faces))).
Proof.
  intros QS. induction faces as [|f faces IH]; intros out out2; cbn [add_faces flat_map].
  - intros [= <-]. exists []. rewrite app_nil_r. split; [reflexivity|]. split; exists 0%nat; reflexivity.
  - intros H. apply bind_ok in H as (o & O & H).
    destruct (add_face_parity _ _ _ _ _ QS O) as (new0 & -> & EV0).
    destruct (add_face_inv _ _ _ _ _ QS O) as (r & new & E & P & R). apply app_inv_head in E. subst new0.
    destruct (IH _ _ H) as (new2 & -> & EV & EC).
    exists (new ++ new2). rewrite app_assoc. split; [reflexivity|]. rewrite filter_app, !app_length. split.
    { apply even_add_iff; assumption. }
    rewrite filter_app, app_length, <- (filter_perm_length _ _ _ P).
    assert (Q : Nat.Even (length (filter (veq p) r) + length (filter (cutb z p) (edges f)))).
    { destruct (Nat.ltb_spec (length f) 3) as [L|L].
      - subst r. cbn [filter length Nat.add]. apply small_face_even, L.
      - rewrite (eloop_count z p _ _ R). eexists. ring_simplify. reflexivity. }
    destruct Q as [i Q], EC as [j EC]. exists (i + j)%nat. lia.
Qed.

Lemma edge_is_eq a b e : edge_is a b e = true <-> e = (a, b) \/ e = (b, a).
Proof.
  unfold edge_is. destruct e as [x y]. cbn [fst snd]. rewrite orb_true_iff, !andb_true_iff, !v3eq_eq.
  split; [intros [[-> ->]|[-> ->]]; auto | intros [[= -> ->]|[= -> ->]]; auto].
Qed.

(** *** every edge occurs evenly often, so every cut point occurs evenly often *)
Lemma symm_even (g : vec3 * vec3 -> bool) : (forall a b, g (a, b) = g (b, a)) -> (forall a, g (a, a) = false) ->
  forall n es, (length es <= n)%nat ->
  (forall a b, a <> b -> Nat.Even (length (filter (edge_is a b) es))) -> Nat.Even (length (filter g es)).
Proof.
  intros GS GR. induction n as [|n IH]; intros es L H.
  - destruct es; [exists 0%nat; reflexivity | cbn in L; lia].
  - destruct es as [|[a b] es]; [exists 0%nat; reflexivity|].
    set (h := edge_is a b).
    assert (PT : forall (k : vec3 * vec3 -> bool) l, length (filter k l) =
       (length (filter k (filter h l)) + length (filter k (filter (fun e => negb (h e)) l)))%nat).
    { intros k l. induction l as [|e l IHl]; cbn [filter]; [reflexivity|].
      destruct (h e); cbn [negb filter]; destruct (k e); cbn [length]; lia. }
    assert (SM : (length (filter (fun e => negb (h e)) ((a, b) :: es)) <= n)%nat).
    { cbn [filter]. assert (E : h (a, b) = true) by (apply edge_is_eq; auto). rewrite E. cbn [negb].
      cbn [length] in L. etransitivity; [|apply le_S_n, L].
      clear. induction es as [|e es IHe]; cbn [filter]; [lia|]. destruct (negb (h e)); cbn [length]; lia. }
    assert (CL : forall c d, c <> d -> Nat.Even (length (filter (edge_is c d) (filter (fun e => negb (h e)) ((a, b) :: es))))).
    { intros c d CD. specialize (H c d CD). rewrite PT in H.
      destruct (edge_is a b (c, d)) eqn:EQ.
      - assert (N : filter (edge_is c d) (filter (fun e => negb (h e)) ((a, b) :: es)) = []).
        { apply edge_is_eq in EQ.
          generalize ((a, b) :: es). intros l. induction l as [|e l IHl]; [reflexivity|]. cbn [filter].
          destruct (h e) eqn:HE; cbn [negb]; [exact IHl|]. cbn [filter].
          destruct (edge_is c d e) eqn:CE; [|exact IHl]. exfalso.
          apply edge_is_eq in CE. assert (T : h e = true); [|congruence]. apply edge_is_eq.
          destruct EQ as [[= -> ->]|[= -> ->]], CE as [ -> | -> ]; auto. }
        rewrite N. exists 0%nat. reflexivity.
      - assert (N : filter (edge_is c d) (filter h ((a, b) :: es)) = []).
        { generalize ((a, b) :: es). intros l. induction l as [|e l IHl]; [reflexivity|]. cbn [filter].
          destruct (h e) eqn:HE; [|exact IHl]. cbn [filter].
          destruct (edge_is c d e) eqn:CE; [|exact IHl]. exfalso.
          apply edge_is_eq in CE. apply edge_is_eq in HE. assert (T : edge_is a b (c, d) = true); [|congruence].
          apply edge_is_eq. destruct CE as [ -> | -> ], HE as [[= -> ->]|[= -> ->]]; auto. }
        rewrite N in H. exact H. }
    pose proof (IH _ SM CL) as R. rewrite PT. apply Nat.Even_Even_add; [|exact R].
    assert (V : forall l, filter g (filter h l) = if g (a, b) then filter h l else []).
    { intros l. induction l as [|e l IHl]; cbn [filter]; [destruct (g (a, b)); reflexivity|].
      destruct (h e) eqn:HE; [|exact IHl]. cbn [filter].
      assert (GE : g e = g (a, b)). { apply edge_is_eq in HE as [ -> | -> ]; [reflexivity|apply GS]. }
      rewrite GE, IHl. destruct (g (a, b)); reflexivity. }
    rewrite V. destruct (g (a, b)) eqn:GE.
    + apply H. intros ->. rewrite GR in GE. discriminate.
    + exists 0%nat. reflexivity.
Qed.

Lemma closed_even z p faces : closed faces -> Nat.Even (length (filter (cutb z p) (flat_map edges faces))).
Proof.
  intros C. eapply (symm_even (cutb z p)); [| |apply Nat.le_refl|exact C].
  - intros a b. unfold cutb. rewrite crossing_sym. destruct (crossing z (b, a)) eqn:D; [|reflexivity].
    rewrite (cutr_sym z b a D). reflexivity.
  - intros a. unfold cutb, crossing. cbn [fst snd]. lia.
Qed.

(** *** removal of lines without length *)
Lemma pairs_up_inv out l : pairs_up out = Ok l -> flat_map (fun l => [fst l; snd l]) l = out.
Proof.
  revert l. assert (G : forall n out l, (length out <= n)%nat -> pairs_up out = Ok l ->
    flat_map (fun l : line2 => [fst l; snd l]) l = out).
  { clear. induction n as [|n IH]; intros [|a [|b out]] l; cbn [pairs_up length]; try lia; try discriminate;
      try (intros _ [= <-]; reflexivity).
    intros L H. apply bind_ok in H as (m & M & [= <-]). cbn [flat_map fst snd app]. do 2 f_equal. apply IH; [lia|exact M]. }
  intros l. apply (G (length out)). lia.
Qed.

Lemma pairs_up_ok out : Nat.Even (length out) -> exists l, pairs_up out = Ok l.
Proof.
  assert (G : forall n out, (length out <= n)%nat -> Nat.Even (length out) -> exists l, pairs_up out = Ok l).
  { clear. induction n as [|n IH]; intros [|a [|b out]]; cbn [pairs_up length]; try lia; eauto.
    - intros _ [k E]. lia.
    - intros L [k E]. destruct (IH out) as (l & ->); [lia|exists (k - 1)%nat; lia|]. cbn [bind]. eauto. }
  apply (G (length out)). lia.
Qed.

Definition long (l : line2) : bool := negb (veq (fst l) (snd l)).

Lemma fini_loop_ok : forall fuel i r, (length r - i < fuel)%nat -> Forall (fun l => long l = true) (firstn i r) ->
  exists r', fini_loop fuel i r = Ok r' /\ Permutation (filter long r) r'.
Proof.
  induction fuel as [|fuel IH]; intros i r L F; [lia|]. cbn [fini_loop].
  destruct (nth_error r i) as [[a b]|] eqn:E.
  - assert (I : (i < length r)%nat) by (apply nth_error_Some; congruence).
    destruct (veq a b) eqn:V.
    + destruct (nth_error r (length r - 1)) as [x|] eqn:X; [|apply nth_error_None in X; lia].
      apply nth_error_split in E as (l1 & l2 & -> & LI). subst i.
      assert (FN : forall m, firstn (length l1) (l1 ++ m) = l1).
      { intros m. rewrite firstn_app, firstn_all, Nat.sub_diag. cbn [firstn]. apply app_nil_r. }
      rewrite FN in F |- *.
      rewrite skipn_app, skipn_all2 by lia.
      replace (length l1 + 1 - length l1)%nat with 1%nat by lia. cbn [skipn app].
      rewrite app_length in *. cbn [length] in *.
      replace (length l1 + S (length l2) - 1)%nat with (length l1 + length l2)%nat in * by lia.
      destruct (@exists_last line2 ((a, b) :: l2)) as (l3 & y & Y); [discriminate|].
      assert (XY : x = y).
      { assert (X' : nth_error (l1 ++ (l3 ++ [y])) (length l1 + length l2) = Some x) by (rewrite <- Y; exact X).
        clear X. rename X' into X. assert (LL : length ((a, b) :: l2) = S (length l3)) by (rewrite Y, app_length; cbn; lia).
        cbn in LL. injection LL as LL. rewrite nth_error_app2 in X by lia.
        replace (length l1 + length l2 - length l1)%nat with (length l3) in X by lia.
        rewrite nth_error_app2 in X by lia. rewrite Nat.sub_diag in X. cbn in X. congruence. }
      subst y.
      assert (PM : firstn (length l1 + length l2) (l1 ++ x :: l2) = l1 ++ match l2 with [] => [] | _ => x :: firstn (length l2 - 1) l2 end).
      { rewrite firstn_app_2. destruct l2 as [|u l2]; [reflexivity|]. cbn [length firstn]. rewrite Nat.sub_succ, Nat.sub_0_r. reflexivity. }
      rewrite PM.
      destruct (IH (length l1) (l1 ++ match l2 with [] => [] | _ => x :: firstn (length l2 - 1) l2 end)) as (r' & R & P).
      { rewrite app_length. destruct l2 as [|u l2]; cbn [length]; [lia|]. rewrite firstn_length. cbn [length] in *. lia. }
      { rewrite firstn_app, firstn_all, Nat.sub_diag. cbn [firstn]. rewrite app_nil_r. exact F. }
      exists r'. split; [exact R|]. rewrite <- P, !filter_app. apply Permutation_app_head. cbn [filter].
      assert (LF : long (a, b) = false) by (unfold long; cbn [fst snd]; rewrite V; reflexivity). rewrite LF.
      destruct l2 as [|u l2]; [constructor|].
      assert (E2 : u :: l2 = firstn (length (u :: l2) - 1) (u :: l2) ++ [x]).
      { destruct l3 as [|w l3]; [discriminate|]. cbn [app] in Y. injection Y as _ Y. rewrite Y, app_length. cbn [length].
        replace (length l3 + 1 - 1)%nat with (length l3) by lia. rewrite firstn_app, firstn_all, Nat.sub_diag. cbn. rewrite app_nil_r. reflexivity. }
      rewrite E2 at 1. rewrite filter_app. cbn [filter]. destruct (long x).
      * rewrite Permutation_app_comm. reflexivity.
      * rewrite app_nil_r. reflexivity.
    + apply IH; [lia|]. rewrite Nat.add_1_r. 
      apply nth_error_split in E as (l1 & l2 & -> & LI). subst i.
      rewrite firstn_app, firstn_all in F. rewrite Nat.sub_diag in F. cbn [firstn] in F. rewrite app_nil_r in F.
      rewrite firstn_app, firstn_all2 by lia. replace (S (length l1) - length l1)%nat with 1%nat by lia. cbn [firstn].
      apply Forall_app. split; [exact F|]. constructor; [|constructor]. unfold long. cbn [fst snd]. rewrite V. reflexivity.
  - apply nth_error_None in E. exists r. split; [reflexivity|].
    rewrite firstn_all2 in F by lia. clear -F. induction F as [|l r H F IHF]; cbn [filter]; [constructor|]. rewrite H. constructor. exact IHF.
Qed.

Lemma fini_ok out : Nat.Even (length out) ->
  exists r r', pairs_up out = Ok r /\ fini out = Ok r' /\ Permutation (filter long r) r'.
Proof.
  intros E. destruct (pairs_up_ok out E) as (r & R).
  destruct (fini_loop_ok (S (length r)) 0 r) as (r' & R' & P); [lia|constructor|].
  exists r, r'. split; [exact R|]. split; [|exact P]. unfold fini. rewrite R. exact R'.
Qed.

Lemma filter_ends p l : Nat.Even (ends p l + ends p (filter long l)).
Proof.
  unfold ends. induction l as [|[a b] l IH]; [exists 0%nat; reflexivity|]. cbn [filter flat_map app fst snd].
  destruct (long (a, b)) eqn:L; cbn [flat_map app fst snd filter];
    destruct (veq p a) eqn:A, (veq p b) eqn:B; cbn [length]; destruct IH as [k IH];
    try (exists k; lia); try (exists (S k); lia); try (exists (S (S k)); lia);
    unfold long in L; cbn [fst snd] in L; apply negb_false_iff, veq_eq in L; subst b; congruence.
Qed.

Lemma flat_map_perm_length {A} (g : A -> bool) (h : line2 -> list A) l m : Permutation l m ->
  length (filter g (flat_map h l)) = length (filter g (flat_map h m)).
Proof. intros P. apply filter_perm_length, Permutation_flat_map, P. Qed.

Lemma slice_closed qsort z faces lines : sorts qsort -> closed faces -> slice_poly qsort z faces = Ok lines ->
  (forall p, Nat.Even (ends p lines)) /\ (forall a b, In (a, b) lines -> a <> b).
Proof.
  intros QS C H. apply bind_ok in H as (out & O & F).
  assert (EV : Nat.Even (length out)).
  { destruct (add_faces_count qsort z (0, 0) faces QS [] out O) as (new & -> & E & _). exact E. }
  destruct (fini_ok out EV) as (r & r' & R & R' & P). rewrite R' in F. injection F as <-. split.
  - intros p. destruct (add_faces_count qsort z p faces QS [] out O) as (new & E & _ & EC). cbn [app] in E. subst new.
    pose proof (closed_even z p faces C) as CE.
    assert (E1 : Nat.Even (length (filter (veq p) out))).
    { apply (even_add_iff _ (length (filter (veq p) out)) CE). rewrite Nat.add_comm. exact EC. }
    unfold ends. rewrite <- (flat_map_perm_length _ _ _ _ P).
    apply (even_add_iff (ends p r)); [|apply filter_ends].
    unfold ends. rewrite (pairs_up_inv _ _ R). exact E1.
  - intros a b I ->. apply (Permutation_in _ (Permutation_sym P)) in I. apply filter_In in I as [_ I].
    unfold long in I. cbn [fst snd] in I. rewrite (proj2 (veq_eq b b) eq_refl) in I. discriminate.
Qed.

Lemma add_faces_ok qsort z faces : sorts qsort -> Forall (Forall small3) faces -> forall out, Nat.Even (length out) ->
  exists new, add_faces qsort out z faces = Ok (out ++ new) /\ Nat.Even (length new).
Proof.
  intros QS S. induction S as [|f faces F S IH]; intros out E; cbn [add_faces].
  - exists []. rewrite app_nil_r. split; [reflexivity|]. exists 0%nat. reflexivity.
  - assert (G : exists new, add_face qsort out z f = Ok (out ++ new) /\ Nat.Even (length new)).
    { destruct (le_lt_dec 3 (length f)) as [L|L].
      - destruct (add_face_ok qsort out z f QS F E L) as (c & new & A & B & _). eauto.
      - exists []. unfold add_face. destruct (Nat.ltb_spec (length f) 3); [|lia]. rewrite app_nil_r. split; [reflexivity|].
        exists 0%nat. reflexivity. }
    destruct G as (new & G & EN). rewrite G. cbn [bind].
    destruct (IH (out ++ new)) as (new2 & N & EN2). { rewrite app_length. apply Nat.Even_Even_add; assumption. }
    rewrite N. exists (new ++ new2). rewrite app_assoc, app_length. split; [reflexivity|]. apply Nat.Even_Even_add; assumption.
Qed.

Lemma slice_ok qsort z faces : sorts qsort -> Forall (Forall small3) faces ->
  exists lines, slice_poly qsort z faces = Ok lines.
Proof.
  intros QS S. destruct (add_faces_ok qsort z faces QS S [] (ex_intro _ 0%nat eq_refl)) as (new & N & E).
  unfold slice_poly. rewrite N. cbn [bind app]. destruct (fini_ok new E) as (r & r' & _ & R & _). eauto.
Qed.
