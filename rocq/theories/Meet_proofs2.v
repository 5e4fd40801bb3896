(** The test of one pair of lines and the loops. *)
From Coq Require Import ZArith QArith Bool List Lia Lqa ZifyBool.
From Verif Require Import Matq_model Matq_spec Matq_proofs Matq_proofs2 Matq_proofs3 Matq_proofs4 Matq_props Meet_model Meet_spec Meet_proofs.
Import ListNotations.
Local Open Scope Z_scope.

Lemma zero_or (t : Q) (z : Z) : (t * iZ z == 0)%Q -> ~ (t == 0)%Q -> z = 0.
Proof.
  intros E N. apply Qmult_integral in E as [E|E]; [now elim N|].
  apply inject_Z_injective. exact E.
Qed.

Lemma inside_iff x y l : proper l ->
  inside x y l <-> on_segment x y (fst l) (snd l) /\ ~ point_is (fst l) x y /\ ~ point_is (snd l) x y.
Proof.
  destruct l as [[px py] [qx qy]]. unfold proper, inside, on_segment, point_is; cbn [fst snd]. intros N. split.
  - intros (t & (T0 & T1) & X & Y). split; [exists t; split; [lra|auto]|].
    split; intros [A B]; apply N.
    + assert (qx - px = 0) by (apply (zero_or t); [rewrite iZ_sub; lra|lra]).
      assert (qy - py = 0) by (apply (zero_or t); [rewrite iZ_sub; lra|lra]). f_equal; lia.
    + assert (qx - px = 0) by (apply (zero_or (1 - t)); [rewrite iZ_sub; lra|lra]).
      assert (qy - py = 0) by (apply (zero_or (1 - t)); [rewrite iZ_sub; lra|lra]). f_equal; lia.
  - intros ((t & (T0 & T1) & X & Y) & A & B). exists t. split; [|auto].
    split; apply Qnot_le_lt; intros L.
    + apply A. assert (E : (t == 0)%Q) by lra. split; [rewrite X|rewrite Y]; rewrite E; ring.
    + apply B. assert (E : (t == 1)%Q) by lra. split; [rewrite X|rewrite Y]; rewrite E; ring.
Qed.

(** lines that are not parallel have a common point or not *)
Lemma common_dec p1 p2 p3 p4 : ~ parallel p1 p2 p3 p4 ->
  (exists x y, on_segment x y p1 p2 /\ on_segment x y p3 p4) \/
  (forall x y, on_segment x y p1 p2 -> ~ on_segment x y p3 p4).
Proof.
  intros NP.
  assert (DN : DD p1 p2 p3 p4 <> 0).
  { intros E. apply NP. unfold parallel. unfold DD, SX, SY, TX, TY in E. lia. }
  set (dn := DD p1 p2 p3 p4 <? 0).
  set (d := Z.abs (DD p1 p2 p3 p4)).
  set (tau := if dn then - TT p1 p3 p4 else TT p1 p3 p4).
  set (ups := if dn then - UU p1 p2 p3 else UU p1 p2 p3).
  assert (SG : (d = DD p1 p2 p3 p4 /\ tau = TT p1 p3 p4 /\ ups = UU p1 p2 p3) \/
          (d = - DD p1 p2 p3 p4 /\ tau = - TT p1 p3 p4 /\ ups = - UU p1 p2 p3)).
  { subst d tau ups dn. destruct (Z.ltb_spec (DD p1 p2 p3 p4) 0); [right|left]; lia. }
  assert (PD : 0 < d) by (subst d; lia).
  assert (DEC : (0 <= tau <= d /\ 0 <= ups <= d) \/ ~ (0 <= tau <= d /\ 0 <= ups <= d)) by lia.
  destruct DEC as [[T U]|N].
  - left. exists (px p1 p2 tau d), (py p1 p2 tau d).
    eapply on_both; [exact PD|exact SG|exact T|exact U].
  - right. intros x y A B. apply N.
    destruct (both_params p1 p2 p3 p4 tau ups d PD SG x y A B) as (? & ? & _). auto.
Qed.

Lemma same_parallel a b : same a b -> parallel (fst a) (snd a) (fst b) (snd b).
Proof. intros [->| ->]; unfold parallel; cbn; ring. Qed.

Lemma bits1 r : 0 < r < 32 -> Z.testbit r 0 = true ->
  r = 1 <-> Z.testbit r 1 <> true /\ Z.testbit r 2 <> true /\ Z.testbit r 3 <> true /\ Z.testbit r 4 <> true.
Proof.
  intros R B.
  assert (E : exists n, (n < 32)%nat /\ r = Z.of_nat n) by (exists (Z.to_nat r); lia).
  destruct E as (n & L & ->).
  revert B. generalize (Nat.lt_le_pred _ _ L). clear. cbn [Nat.pred]. intros L.
  assert (H : forallb (fun n => let r := Z.of_nat n in
     implb (Z.testbit r 0) (Bool.eqb (r =? 1) (negb (Z.testbit r 1) && negb (Z.testbit r 2) && negb (Z.testbit r 3) && negb (Z.testbit r 4))))
     (seq 0 32) = true) by (vm_compute; reflexivity).
  rewrite forallb_forall in H. specialize (H n). cbv zeta in H.
  intros B. rewrite B in H. cbn [implb] in H.
  assert (I : In n (seq 0 32)) by (apply in_seq; lia).
  specialize (H I). apply Bool.eqb_prop in H.
  rewrite <- Z.eqb_eq, H, !andb_true_iff, !negb_true_iff, !not_true_iff_false. tauto.
Qed.

(** the meaning of the return value 1 *)
Lemma cross_case a b r i : proper a -> proper b -> ~ parallel (fst a) (snd a) (fst b) (snd b) ->
  intersect_spec (fst a) (snd a) (fst b) (snd b) r i ->
  r <> -1 /\
  (r = 1 -> exists vx vy, i = Some (vx, vy) /\ valid vx /\ valid vy /\
     inside (value vx) (value vy) a /\ inside (value vx) (value vy) b) /\
  (r <> 1 -> ~ meet a b).
Proof.
  intros PA PB NP (_ & S0 & S1). destruct (common_dec _ _ _ _ NP) as [(x & y & A & B)|N].
  - destruct (S1 NP x y A B) as (vx & vy & EI & V1 & V2 & X & Y & R & B0 & B1 & B2 & B3 & B4).
    pose proof (bits1 r R B0) as H1. rewrite B1, B2, B3, B4 in H1.
    split; [lia|]. split.
    + intros E. apply H1 in E as (N1 & N2 & N3 & N4). exists vx, vy. repeat (split; [assumption|]).
      assert (IA : inside x y a) by (apply inside_iff; auto).
      assert (IB : inside x y b) by (apply inside_iff; auto).
      unfold inside in *. setoid_rewrite X. setoid_rewrite Y. auto.
    + intros NE (_ & x' & y' & IA & IB). apply NE, H1.
      apply inside_iff in IA as (OA & A1 & A2); [|assumption].
      apply inside_iff in IB as (OB & A3 & A4); [|assumption].
      assert (E : (x' == x)%Q /\ (y' == y)%Q).
      { destruct (S1 NP x' y' OA OB) as (wx & wy & EI' & _ & _ & X' & Y' & _).
        rewrite EI in EI'. injection EI' as <- <-. split; [rewrite <- X', X|rewrite <- Y', Y]; reflexivity. }
      destruct E as [EX EY].
      assert (PI : forall v, point_is v x y -> point_is v x' y').
      { intros v [U W]. split; [rewrite EX|rewrite EY]; assumption. }
      repeat split; intros P; apply PI in P; tauto.
  - destruct (S0 NP N) as [-> ->]. split; [lia|]. split; [lia|].
    intros _ (_ & x & y & IA & IB).
    apply inside_iff in IA as (OA & _); [|assumption]. apply inside_iff in IB as (OB & _); [|assumption].
    exact (N x y OA OB).
Qed.

Definition found (a b : line) (i : vec2if) : Prop :=
  (valid (fst i) /\ valid (snd i) /\ inside (value (fst i)) (value (snd i)) a /\ inside (value (fst i)) (value (snd i)) b)
  \/ (parallel (fst a) (snd a) (fst b) (snd b) /\ (end_of i a \/ end_of i b)).

Definition pair_ok (a b : line) (o : option vec2if) : Prop :=
  match o with
  | None => ~ meet a b
  | Some i => meet a b /\ found a b i
  end.

Lemma final_tests (a b : line) (M : Prop) a1 a2 b1 b2 :
  (M <-> overlap1 a1 a2 b1 b2) ->
  parallel (fst a) (snd a) (fst b) (snd b) ->
  (M <-> meet a b) ->
  forall rng,
  sat (if (b1 <? a1) && (a1 <? b2) then Ok (Some (vec2ifi (fst a))) else
       if (b1 <? a2) && (a2 <? b2) then Ok (Some (vec2ifi (snd a))) else
       if (a1 <? b1) && (b1 <? a2) then Ok (Some (vec2ifi (fst b))) else
       if (a1 <? b2) && (b2 <? a2) then Ok (Some (vec2ifi (snd b))) else Ok None) rng (pair_ok a b).
Proof.
  intros O P ME rng. unfold overlap1 in O. rewrite ME in O. unfold end_of.
  destruct ((b1 <? a1) && (a1 <? b2)) eqn:E1.
  { cbn. split; [apply O; lia|]. right. unfold end_of. auto. }
  destruct ((b1 <? a2) && (a2 <? b2)) eqn:E2.
  { cbn. split; [apply O; lia|]. right. unfold end_of. auto. }
  destruct ((a1 <? b1) && (b1 <? a2)) eqn:E3.
  { cbn. split; [apply O; lia|]. right. unfold end_of. auto. }
  destruct ((a1 <? b2) && (b2 <? a2)) eqn:E4.
  { cbn. split; [apply O; lia|]. right. unfold end_of. auto. }
  cbn. rewrite O. lia.
Qed.

Lemma swap_minmax a1 a2 : (if a2 <? a1 then (a2, a1) else (a1, a2)) = (Z.min a1 a2, Z.max a1 a2).
Proof. destruct (Z.ltb_spec a2 a1); f_equal; lia. Qed.

Lemma pair_sat a b : line_int a -> line_int b -> proper a -> proper b ->
  sat (pair_test a b) (line_range a /\ line_range b) (pair_ok a b).
Proof.
  intros [I1 I2] [I3 I4] PA PB. unfold pair_test. apply sat_bind.
  pose proof (intersect_sat _ _ _ _ I1 I2 I3 I4) as S.
  destruct (vec2if_intersect _ _ _ _) as [[r i]| |]; cbn [sat fst snd] in S |- *;
    [|unfold line_range; tauto|assumption].
  assert (PD : parallel (fst a) (snd a) (fst b) (snd b) \/ ~ parallel (fst a) (snd a) (fst b) (snd b))
    by (unfold parallel; lia).
  destruct PD as [P|NP].
  2:{ destruct (cross_case a b r i PA PB NP S) as (N & C1 & C2).
      destruct (Z.eqb_spec r 1) as [E|E].
      - destruct (C1 E) as (vx & vy & -> & V1 & V2 & IA & IB). cbn. split.
        + split; [intros SM; now apply NP, same_parallel|]. eauto.
        + left. auto.
      - destruct (Z.eqb_spec r (-1)); [contradiction|]. cbn. auto. }
  destruct S as (S & _). destruct (S P) as [-> ->]. cbn [Z.eqb Z.opp].
  change (-1 =? 1) with false. change (-1 =? -1) with true. cbn [negb].
  destruct a as [[p q] [p' q']], b as [[u v] [u' v']].
  unfold line_range, vec_range, in_range, proper, parallel in *; cbn [fst snd] in *.
  change (2 ^ 30) with 1073741824.
  set (rng := _ /\ _).
  assert (RI : rng -> (is_int (p' - p) /\ is_int (q' - q) /\ is_int (u' - p) /\ is_int (v' - q)) /\
     Z.abs (p' - p) <= 2147483646 /\ Z.abs (q' - q) <= 2147483646 /\ Z.abs (u' - p) <= 2147483646 /\ Z.abs (v' - q) <= 2147483646).
  { clear. unfold rng, is_int. intros (((A1 & A2) & A3 & A4) & (B1 & B2) & B3 & B4).
    split; [|split; [|split; [|split]]]; lia. }
  unfold right_cross3_z, dim_sub.
  apply sat_bind. apply sat_bind, sat_ck32; [tauto|intros _]. apply sat_bind, sat_ck32; [tauto|intros _].
  apply sat_bind, sat_ck32; [tauto|intros _]. apply sat_bind, sat_ck32; [tauto|intros _].
  apply cross_z_sat; [tauto|]. intros _.
  destruct (Z.eqb_spec ((p' - p) * (v' - q) - (q' - q) * (u' - p)) 0) as [C|C]; cbn [negb].
  2:{ cbn. intros (_ & x & y & IA & IB). apply C. exact (off_line _ _ _ _ _ _ _ _ _ _ P IA IB). }
  destruct (Z.eqb_spec p p') as [E|NE].
  - (* vertical *)
    subst p'. assert (NQ : q <> q') by congruence.
    assert (u = u') by nia. subst u'. assert (NV : v <> v') by congruence.
    assert (u = p) by nia. subst u.
    rewrite !swap_minmax. cbv beta iota.
    pose proof (collinear_x q p q' p v p v' p NQ NV ltac:(lia) ltac:(lia)) as M.
    replace (Z.min q q' =? Z.max q q') with false by lia.
    replace (Z.min v v' =? Z.max v v') with false by lia. cbn [negb check bind].
    eapply (final_tests ((p, q), (p, q')) ((p, v), (p, v'))).
    + exact M.
    + unfold parallel; cbn. lia.
    + rewrite (meet_swp ((p, q), (p, q')) _). reflexivity.
  - assert (NU : u <> u').
    { intros <-. apply PB. f_equal. assert ((p' - p) * (v' - v) = 0) by lia. apply Z.mul_eq_0 in H. lia. }
    rewrite !swap_minmax. cbv beta iota.
    pose proof (collinear_x p q p' q' u v u' v' NE NU P C) as M.
    replace (Z.min p p' =? Z.max p p') with false by lia.
    replace (Z.min u u' =? Z.max u u') with false by lia. cbn [negb check bind].
    eapply (final_tests ((p, q), (p', q')) ((u, v), (u', v'))).
    + exact M.
    + unfold parallel; cbn. lia.
    + reflexivity.
Qed.

(** the loops *)
Definition good (l : line) : Prop := line_int l /\ proper l.

Definition run_ok (as_ bs : list line) (o : option (vec2if * line * line)) : Prop :=
  match o with
  | None => forall a b, In a as_ -> In b bs -> ~ meet a b
  | Some (i, a, b) => In a as_ /\ In b bs /\ meet a b /\ found a b i
  end.

Lemma inner_sat (rng : Prop) a bs : good a -> Forall good bs ->
  (rng -> line_range a /\ Forall line_range bs) ->
  sat (inner a bs) rng (run_ok [a] bs).
Proof.
  intros [IA PA] F. induction F as [|b bs [IB PB] F IH]; intros R; cbn [inner].
  - cbn. intros ? ? _ [].
  - apply sat_bind. pose proof (pair_sat a b IA IB PA PB) as S.
    assert (R' : rng -> line_range a /\ line_range b) by (intros G; destruct (R G) as [? H]; inversion H; auto).
    destruct (pair_test a b) as [[i|]| |]; cbn [sat pair_ok] in S |- *; [| |tauto|assumption].
    + cbn. tauto.
    + assert (R2 : rng -> line_range a /\ Forall line_range bs) by (intros G; destruct (R G) as [? H]; inversion H; auto).
      specialize (IH R2). destruct (inner a bs) as [[[[i a'] b']|]| |]; cbn in IH |- *; [| |assumption|assumption].
      * tauto.
      * intros a' b' [<-|[]] [<-|HB]; [assumption|]. apply IH; auto.
Qed.

Lemma outer_sat (rng : Prop) as_ bs : Forall good as_ -> Forall good bs ->
  (rng -> Forall line_range as_ /\ Forall line_range bs) ->
  sat (outer as_ bs) rng (run_ok as_ bs).
Proof.
  intros F FB. induction F as [|a as_ GA F IH]; intros R; cbn [outer].
  - cbn. intros ? ? [].
  - apply sat_bind.
    assert (R1 : rng -> line_range a /\ Forall line_range bs) by (intros G; destruct (R G) as [H ?]; inversion H; auto).
    pose proof (inner_sat rng a bs GA FB R1) as S.
    destruct (inner a bs) as [[[[i a'] b']|]| |]; cbn [sat] in S |- *; [| |assumption|assumption].
    + cbn in S |- *. tauto.
    + assert (R2 : rng -> Forall line_range as_ /\ Forall line_range bs) by (intros G; destruct (R G) as [H ?]; inversion H; auto).
      specialize (IH R2). destruct (outer as_ bs) as [[[[i a'] b']|]| |]; cbn in IH, S |- *; [| |assumption|assumption].
      * tauto.
      * intros a' b' [<-|HA] HB; [apply S; auto|auto].
Qed.
