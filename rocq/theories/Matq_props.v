(** C01-C06: exact arithmetic and plane geometry. *)
From Coq Require Import ZArith QArith Bool Lia Lqa.
From Verif Require Import Matq_model Matq_spec Matq_proofs Matq_proofs2 Matq_proofs3 Matq_proofs4 Matq_proofs5.
Local Open Scope Z_scope.

(** ** C01 *)

(** Division of int and of long long: exact, with a remainder that is never negative.  The
    excluded pair is the one whose quotient does not fit. *)
Theorem C01_divmod : forall x d, is_int x -> is_int d -> d <> 0 -> (x <> -2147483648 \/ d <> -1) ->
  exists q m, divmod x d = Ok (q, m) /\ x = d * q + m /\ 0 <= m < Z.abs d.
Proof. exact divmod_ok. Qed.
Example C01_divmod_ex : divmod (-7) 3 = Ok (-3, 2) /\ divmod (-7) (-3) = Ok (3, 2) /\ divmod 7 (-3) = Ok (-2, 1).
Proof. repeat split. Qed.

Theorem C01_divmodw : forall x d, is_llong x -> is_llong d -> d <> 0 -> (x <> -9223372036854775808 \/ d <> -1) ->
  exists q m, divmodw x d = Ok (q, m) /\ x = d * q + m /\ 0 <= m < Z.abs d.
Proof. exact divmodw_ok. Qed.
Example C01_divmodw_ex : divmodw (-9223372036854775808) 10 = Ok (-922337203685477581, 2).
Proof. reflexivity. Qed.

(** Long long by int with int quotient: only if the dividend is an int, too.  The full statement,
    as for the other two, has [is_llong x], [is_int d] and a quotient that [is_int]; it is
    refuted below. *)
Theorem C01_divmodx_partial : forall x d, is_int x -> is_int d -> d <> 0 -> (x <> -2147483648 \/ d <> -1) ->
  exists q m, divmodx x d = Ok (q, m) /\ x = d * q + m /\ 0 <= m < Z.abs d.
Proof. exact divmodx_ok. Qed.
Example C01_divmodx_ex : divmodx (-2147483648) 1000 = Ok (-2147484, 352).
Proof. reflexivity. Qed.

Definition divmodx_full : Prop := forall x d, is_llong x -> is_int d -> d <> 0 -> is_int (x / d) ->
  exists q m, divmodx x d = Ok (q, m) /\ x = d * q + m /\ 0 <= m < Z.abs d.
Theorem C01_divmodx_refuted : ~ divmodx_full.
Proof.
  intros H. destruct (H (2 ^ 40) (2 ^ 20)) as (q & m & E & _); [| | | |discriminate E];
    unfold is_llong, is_int; vm_compute; intuition discriminate.
Qed.
Example C01_divmodx_refuted_ex : divmodx (2 ^ 40) (2 ^ 20) = UB.
Proof. reflexivity. Qed.

(** ** C02 *)

Theorem C02_divw_rnd : forall x d, is_llong x -> is_llong d -> 0 < d ->
  exists q, divw_rnd x d = Ok q /\ 2 * x - d < 2 * d * q <= 2 * x + d.
Proof. exact divw_rnd_ok. Qed.
Example C02_divw_rnd_ex : divw_rnd 5 2 = Ok 3 /\ divw_rnd (-5) 2 = Ok (-2) /\ divw_rnd (-8) 3 = Ok (-3).
Proof. repeat split. Qed.

(** Rounding an integer plus fraction: if the value is not above the largest int. *)
Theorem C02_round : forall x, valid x -> dif_i x < 2147483647 ->
  exists q, round x = Ok q /\ (inject_Z q - (1 # 2) <= value x /\ value x < inject_Z q + (1 # 2))%Q.
Proof. exact round_ok. Qed.
Example C02_round_ex : round (mk_dimif (-4) 1 2) = Ok (-3) /\ round (mk_dimif 7 2 5) = Ok 7 /\
  valid (mk_dimif (-4) 1 2).
Proof. repeat split; vm_compute; discriminate. Qed.

(** ** C03 *)

Theorem C03_mul_64x64 : forall a b, is_ullong a -> is_ullong b ->
  exists h l, udimw_mul_aux a b = Ok (h, l) /\ is_ullong h /\ is_ullong l /\ h * 2 ^ 64 + l = a * b.
Proof. exact udimw_mul_aux_ok. Qed.
Example C03_mul_64x64_ex : udimw_mul_aux (2 ^ 64 - 1) (2 ^ 64 - 1) = Ok (2 ^ 64 - 2, 1).
Proof. reflexivity. Qed.

(** 96 bit numbers are a 64 bit upper part and a 32 bit lower part. *)
Theorem C03_mul_64x32 : forall a b, is_ullong a -> is_uint b ->
  let u := udime_mul_wn a b in
  is_ullong (e_hi u) /\ is_uint (e_lo u) /\ e_hi u * 2 ^ 32 + e_lo u = a * b.
Proof.
  intros a b A B u. destruct (udime_mul_wn_ok a b A B) as [[H L] E]. repeat split; try apply H; try apply L. exact E.
Qed.
Example C03_mul_64x32_ex : udime_mul_wn (2 ^ 64 - 1) (2 ^ 32 - 1) = mk_udime (2 ^ 64 - 2 ^ 32 - 1) 1.
Proof. reflexivity. Qed.

Theorem C03_div_96_64 : forall u v, is_ullong (e_hi u) -> is_uint (e_lo u) -> is_ullong v -> e_hi u < v ->
  div_ew u v = Ok ((e_hi u * 2 ^ 32 + e_lo u) / v).
Proof. intros u v H L V B. exact (div_ew_ok u v (conj H L) V B). Qed.
Example C03_div_96_64_ex :
  div_ew (mk_udime (2 ^ 63 + 5) 77) (2 ^ 63 + 2 ^ 31 + 9) = Ok (((2 ^ 63 + 5) * 2 ^ 32 + 77) / (2 ^ 63 + 2 ^ 31 + 9)).
Proof. reflexivity. Qed.

Theorem C03_add_96 : forall a b, is_ullong (e_hi a) /\ is_uint (e_lo a) -> is_ullong (e_hi b) /\ is_uint (e_lo b) ->
  e_hi a * 2 ^ 32 + e_lo a + (e_hi b * 2 ^ 32 + e_lo b) < 2 ^ 96 ->
  exists c, udime_add a b = Ok c /\ (is_ullong (e_hi c) /\ is_uint (e_lo c)) /\
    e_hi c * 2 ^ 32 + e_lo c = e_hi a * 2 ^ 32 + e_lo a + (e_hi b * 2 ^ 32 + e_lo b).
Proof. exact udime_add_ok. Qed.
Theorem C03_sub_96 : forall a b, is_ullong (e_hi a) /\ is_uint (e_lo a) -> is_ullong (e_hi b) /\ is_uint (e_lo b) ->
  e_hi b * 2 ^ 32 + e_lo b <= e_hi a * 2 ^ 32 + e_lo a ->
  exists c, udime_sub a b = Ok c /\ (is_ullong (e_hi c) /\ is_uint (e_lo c)) /\
    e_hi c * 2 ^ 32 + e_lo c = e_hi a * 2 ^ 32 + e_lo a - (e_hi b * 2 ^ 32 + e_lo b).
Proof. exact udime_sub_ok. Qed.
Example C03_add_sub_ex : udime_add (mk_udime 3 4294967295) (mk_udime 5 1) = Ok (mk_udime 9 0) /\
  udime_sub (mk_udime 9 0) (mk_udime 5 1) = Ok (mk_udime 3 4294967295).
Proof. split; reflexivity. Qed.

(** The product by a proper fraction: exact as an integer plus fraction. *)
Theorem C03_mul_div : forall sx sm sd,
  is_int sx -> sx <> -2147483648 -> is_llong sm -> is_llong sd -> sd <> -9223372036854775808 ->
  0 < Z.abs sm < Z.abs sd ->
  exists r, mul_div_nww sx sm sd = Ok r /\ valid r /\
    (value r == inject_Z sx * (inject_Z sm / inject_Z sd))%Q.
Proof.
  intros sx sm sd X XN M D DN B. destruct (mul_div_nww_ok sx sm sd X XN M D DN B) as (r & E & RD & V & EQ & _).
  exists r. split; [exact E|]. split; [exact V|].
  destruct r as [i n d]. cbn [dif_i dif_n dif_d] in *. subst d. rewrite value_frac by lia.
  assert (N1 : ~ (inject_Z (Z.abs sd) == 0)%Q) by (apply iZ_nz; lia).
  assert (N2 : ~ (inject_Z sd == 0)%Q) by (apply iZ_nz; lia).
  apply (Qmult_inj_r _ _ (inject_Z (Z.abs sd))); [exact N1|].
  rewrite <- (Qmult_assoc (inject_Z sx)).
  assert (S : (inject_Z (Z.abs sd) == inject_Z sd * inject_Z (Z.sgn sd))%Q).
  { rewrite <- inject_Z_mult. rewrite Z.sgn_abs. reflexivity. }
  assert (L : (inject_Z (i * Z.abs sd + n) / inject_Z (Z.abs sd) * inject_Z (Z.abs sd) == inject_Z (i * Z.abs sd + n))%Q).
  { field. exact N1. }
  rewrite L, S.
  assert (R : (inject_Z sx * (inject_Z sm / inject_Z sd * (inject_Z sd * inject_Z (Z.sgn sd))) == inject_Z (sx * sm * Z.sgn sd))%Q).
  { rewrite !inject_Z_mult. field. exact N2. }
  rewrite R, <- EQ. apply Qeq_eq. f_equal.
  destruct (Z.sgn_spec sd) as [[P ->]|[[P ->]|[P ->]]]; lia.
Qed.
Example C03_mul_div_ex : mul_div_nww (-100) 3 7 = Ok (mk_dimif (-43) 1 7) /\
  mul_div_nww 2147483647 (-9223372036854775806) 9223372036854775807 = Ok (mk_dimif (-2147483647) 2147483647 9223372036854775807).
Proof. split; reflexivity. Qed.

(** ** C04 *)

(** [native]: whether there is a 128 bit type. *)
Theorem C04_dimif_cmp : forall native a b, valid a -> valid b ->
  dimif_cmp native a b = Ok (sign_of (Qcompare (value a) (value b))).
Proof. exact dimif_cmp_ok. Qed.
Example C04_dimif_cmp_ex :
  dimif_cmp false (mk_dimif 3 1 3) (mk_dimif 3 6148914691236517205 18446744073709551615) = Ok 0 /\
  dimif_cmp false (mk_dimif 3 1 3) (mk_dimif 3 6148914691236517206 18446744073709551615) = Ok (-1) /\
  dimif_cmp true (mk_dimif (-3) 1 3) (mk_dimif (-4) 1 2) = Ok 1 /\
  valid (mk_dimif 3 6148914691236517206 18446744073709551615).
Proof. repeat split; vm_compute; discriminate. Qed.

Theorem C04_vec2if_cmp : forall native a b, valid (fst a) -> valid (snd a) -> valid (fst b) -> valid (snd b) ->
  vec2if_cmp native a b =
  Ok (sign_of (match Qcompare (value (fst a)) (value (fst b)) with
               | Eq => Qcompare (value (snd a)) (value (snd b))
               | c => c
               end)).
Proof. exact vec2if_cmp_ok. Qed.
Theorem C04_vec2if_eq : forall native a b, valid (fst a) -> valid (snd a) -> valid (fst b) -> valid (snd b) ->
  exists r, vec2if_eq native a b = Ok r /\
    (r = true <-> (value (fst a) == value (fst b))%Q /\ (value (snd a) == value (snd b))%Q).
Proof. exact vec2if_eq_ok. Qed.
Theorem C04_vec2_vec2if_cmp : forall a b, valid (fst b) -> valid (snd b) ->
  vec2_vec2if_cmp a b =
  sign_of (match Qcompare (inject_Z (fst a)) (value (fst b)) with
           | Eq => Qcompare (inject_Z (snd a)) (value (snd b))
           | c => c
           end).
Proof. exact vec2_vec2if_cmp_ok. Qed.
Example C04_vec2if_ex :
  vec2if_cmp false (mk_dimif 1 1 2, mk_dimif 0 1 2) (mk_dimif 1 2 4, mk_dimif 0 1 3) = Ok 1 /\
  vec2if_eq true (mk_dimif 1 1 2, mk_dimif 0 1 3) (mk_dimif 1 2 4, mk_dimif 0 2 6) = Ok true /\
  vec2_vec2if_cmp (5, 7) (mk_dimif 5 0 3, mk_dimif 6 2 3) = 1.
Proof. repeat split. Qed.

(** The order of points is antisymmetric and transitive. *)
Theorem C04_antisym : forall native a b, valid a -> valid b ->
  exists r, dimif_cmp native a b = Ok r /\ dimif_cmp native b a = Ok (- r).
Proof.
  intros nat a b A B. rewrite !dimif_cmp_ok by assumption. eexists. split; [reflexivity|].
  rewrite <- (Qcompare_antisym (value a) (value b)). destruct (value a ?= value b)%Q; reflexivity.
Qed.
Theorem C04_trans : forall native a b c r s, valid a -> valid b -> valid c ->
  dimif_cmp native a b = Ok r -> dimif_cmp native b c = Ok s -> r <= 0 -> s <= 0 ->
  exists t, dimif_cmp native a c = Ok t /\ t <= 0 /\ (t = 0 -> r = 0 /\ s = 0).
Proof.
  intros nat a b c r s A B C. rewrite !dimif_cmp_ok by assumption. intros [= <-] [= <-] R S.
  eexists. split; [reflexivity|].
  destruct (Qcompare_spec (value a) (value b)), (Qcompare_spec (value b) (value c)); cbn [sign_of] in *; try lia;
  destruct (Qcompare_spec (value a) (value c)); cbn [sign_of]; try (split; lia); exfalso; lra.
Qed.
Example C04_order_ex : dimif_cmp false (mk_dimif 3 1 3) (mk_dimif 3 1 2) = Ok (-1) /\
  dimif_cmp false (mk_dimif 3 1 2) (mk_dimif 3 1 3) = Ok 1 /\ dimif_cmp false (mk_dimif 3 1 2) (mk_dimif 3 2 4) = Ok 0.
Proof. repeat split. Qed.

(** ** C05 *)

(** For all segments whatsoever, the result, if there is any, is the exact one; there is no
    undefined behaviour; and if the end points are in the supported range, there is a result. *)
Theorem C05_intersect : forall p1 p2 p3 p4, vec_int p1 -> vec_int p2 -> vec_int p3 -> vec_int p4 ->
  match vec2if_intersect p1 p2 p3 p4 with
  | Ok (r, i) => intersect_spec p1 p2 p3 p4 r i
  | Fail => ~ (vec_range p1 /\ vec_range p2 /\ vec_range p3 /\ vec_range p4)
  | UB => False
  end.
Proof.
  intros p1 p2 p3 p4 A B C D. pose proof (intersect_sat p1 p2 p3 p4 A B C D) as H.
  destruct (vec2if_intersect p1 p2 p3 p4) as [[r i]| |]; exact H.
Qed.
Example C05_intersect_ex :
  vec2if_intersect (0, 0) (10, 10) (0, 7) (9, -2) = Ok (1, Some (mk_dimif 3 90 180, mk_dimif 3 90 180)) /\
  vec2if_intersect (0, 0) (10, 10) (10, 10) (20, 5) = Ok (13, Some (mk_dimif 10 0 1, mk_dimif 10 0 1)) /\
  vec2if_intersect (0, 0) (10, 10) (1, 0) (11, 10) = Ok (-1, None) /\
  vec2if_intersect (0, 0) (10, 10) (11, 0) (12, 70) = Ok (0, None) /\
  vec_range (9, -2).
Proof. repeat split; vm_compute; reflexivity. Qed.

(** ** C06 *)

(** For edges that are given from left (k) to right (l), as the sweep does. *)
Theorem C06_cmp_edge_rnd : forall v l k, vec_int v -> vec_int l -> vec_int k -> k <> l -> fst k <= fst l ->
  match cmp_edge_rnd (fst v) (snd v) (fst l) (snd l) (fst k) (snd k) with
  | Ok r => edge_rnd_spec v l k r
  | Fail => ~ (vec_range v /\ vec_range l /\ vec_range k)
  | UB => False
  end.
Proof. exact edge_rnd_sat. Qed.
(** The edge (0,0)--(6,3), in its cells, below, above, and behind its end *)
Example C06_ex : cmp_edge_rnd 1 1 6 3 0 0 = Ok 0 /\ cmp_edge_rnd 1 0 6 3 0 0 = Ok 0 /\
  cmp_edge_rnd 2 0 6 3 0 0 = Ok (-1) /\ cmp_edge_rnd 2 2 6 3 0 0 = Ok 1 /\ cmp_edge_rnd 8 4 6 3 0 0 = Ok 1.
Proof. repeat split. Qed.

(** For edges from right to left this is wrong, even in the middle of the edge. *)
Definition edge_rnd_any_direction : Prop := forall v l k r,
  vec_range v -> vec_range l -> vec_range k -> k <> l ->
  cmp_edge_rnd (fst v) (snd v) (fst l) (snd l) (fst k) (snd k) = Ok r -> 
  (r = 0 <-> exists x y, on_segment x y k l /\ in_cell x y (fst v) (snd v)).
Theorem C06_any_direction_refuted : ~ edge_rnd_any_direction.
Proof.
  intros H. specialize (H (2, 1) (0, 0) (6, 3) 1).
  assert (R : 1 = 0); [|discriminate R]. apply H.
  - split; vm_compute; reflexivity.
  - split; vm_compute; reflexivity.
  - split; vm_compute; reflexivity.
  - discriminate.
  - reflexivity.
  - exists 2%Q, 1%Q. split.
    + exists (2 # 3)%Q. repeat split; vm_compute; congruence.
    + repeat split; vm_compute; congruence.
Qed.
Example C06_any_direction_ex : cmp_edge_rnd 2 1 0 0 6 3 = Ok 1 /\ cmp_edge_rnd 2 1 6 3 0 0 = Ok 0.
Proof. split; reflexivity. Qed.

Print Assumptions C01_divmod.
Print Assumptions C01_divmodw.
Print Assumptions C01_divmodx_partial.
Print Assumptions C01_divmodx_refuted.
Print Assumptions C02_divw_rnd.
Print Assumptions C02_round.
Print Assumptions C03_mul_64x64.
Print Assumptions C03_mul_64x32.
Print Assumptions C03_div_96_64.
Print Assumptions C03_add_96.
Print Assumptions C03_sub_96.
Print Assumptions C03_mul_div.
Print Assumptions C04_dimif_cmp.
Print Assumptions C04_vec2if_cmp.
Print Assumptions C04_vec2if_eq.
Print Assumptions C04_vec2_vec2if_cmp.
Print Assumptions C04_antisym.
Print Assumptions C04_trans.
Print Assumptions C05_intersect.
Print Assumptions C06_cmp_edge_rnd.
Print Assumptions C06_any_direction_refuted.
