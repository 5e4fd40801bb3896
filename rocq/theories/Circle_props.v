(** C47, C48: points of circles, and exact sines *)
From Coq Require Import ZArith Bool List Arith Lia Permutation Reals Lra.
From Verif Require Import Circle_model Circle_spec Circle_proofs Circle_proofs2.
Import ListNotations.

(** The loop visits every index exactly once, with the coordinates of that index; those are symmetric.  For all numbers of points *)
Theorem C47_circle : forall (F : Type) (one mone zero : F) opp cosd sind n,
  Permutation (map (fun t => (idx t, (i_cos t, i_sin t))) (circle one mone zero opp cosd sind n)) (map (fun k => (k, coords one mone zero opp cosd sind n k)) (seq 0 n)).
Proof. intros F. exact (@circle_perm F). Qed.
Example C47_circle_ex : map (fun t => (idx t, (i_cos t, i_sin t))) (circle 1%Z (-1)%Z 0%Z Z.opp (fun k => Z.of_nat k * 10)%Z (fun k => Z.of_nat k * 10 + 1)%Z 6)
  = [(0, (1, 0)%Z); (1, (10, 11)%Z); (5, (10, -11)%Z); (2, (20, 21)%Z); (4, (20, -21)%Z); (3, (-1, 0)%Z)].
Proof. reflexivity. Qed.
(** With the real functions: the points are those of the regular polygon *)
Theorem C47_regular : forall n t, let a k := (2 * PI * INR k / INR n)%R in
  In t (circle 1%R (-1)%R 0%R Ropp (fun k => cos (a k)) (fun k => sin (a k)) n) -> idx t < n /\ i_cos t = cos (a (idx t)) /\ i_sin t = sin (a (idx t)).
Proof.
  intros n t a H. pose proof (C47_circle R 1%R (-1)%R 0%R Ropp (fun k => cos (a k)) (fun k => sin (a k)) n) as P.
  assert (I : In (idx t, (i_cos t, i_sin t)) (map (fun k => (k, coords 1%R (-1)%R 0%R Ropp (fun k => cos (a k)) (fun k => sin (a k)) n k)) (seq 0 n))).
  { eapply Permutation_in; [exact P|]. apply (in_map (fun t => (idx t, (i_cos t, i_sin t)))). exact H. }
  apply in_map_iff in I as (k & E & K). apply in_seq in K. pose proof (f_equal fst E) as E1. pose proof (f_equal snd E) as E2. cbn [fst snd] in E1, E2. rewrite <- E1. split; [lia|]. clear E H P E1. assert (N : INR n <> 0%R) by (apply not_0_INR; lia).
  unfold coords in E2. destruct (Nat.eqb_spec k 0) as [-> | NK].
  { inversion E2 as [[E3 E4]]. unfold a. replace (2 * PI * INR 0 / INR n)%R with 0%R by (cbn; field; auto). rewrite cos_0, sin_0. split; congruence. }
  destruct (Nat.compare_spec (2 * k) n) as [E|E|E]; inversion E2 as [[E3 E4]].
  - unfold a. subst n. rewrite mult_INR. assert (INR k <> 0)%R by (apply not_0_INR; lia). replace (2 * PI * INR k / (INR 2 * INR k))%R with PI by (cbn; field; auto). rewrite cos_PI, sin_PI. split; congruence.
  - split; congruence.
  - assert (A : a (n - k) = (- a k + 2 * INR 1 * PI)%R) by (unfold a; rewrite minus_INR by lia; cbn; field; auto). rewrite A, cos_period, sin_period, cos_neg, sin_neg. split; [reflexivity|ring].
Qed.
Example C47_regular_ex : In (mk_iter (-1)%R 0%R 1 1) (circle 1%R (-1)%R 0%R Ropp (fun k => cos (2 * PI * INR k / INR 2)) (fun k => sin (2 * PI * INR k / INR 2)) 2).
Proof. cbn [circle each step init i_i i_cos i_sin idx]. right. left. reflexivity. Qed.

Local Open Scope Z_scope.
(** A double is recognised as an integer exactly if it is one, is not 0, and is less than 2^53 *)
Theorem C48_integer : forall u i, 0 <= u < 2 ^ 64 -> get_int u = Some i <-> i <> 0 /\ Z.abs i < 2 ^ 53 /\ is_int u i.
Proof. exact get_int_ok. Qed.
(** The bits of -90.0 and of 0.5 *)
Example C48_integer_ex : get_int 0xC056800000000000 = Some (-90) /\ get_int 0x3FE0000000000000 = None /\ get_int 0x433FFFFFFFFFFFFF = Some (2 ^ 53 - 1) /\ get_int 0x4340000000000000 = None.
Proof. repeat split; reflexivity. Qed.
Lemma sin_deg_ok u r : sin_deg u = Exact2 r <-> exists i, get_int u = Some i /\ exact_sin2 i = Some r.
Proof. unfold sin_deg. split; [|intros (i & -> & ->); reflexivity]. destruct (get_int u) as [i|]; [|discriminate]. destruct (exact_sin2 i) as [r'|] eqn:E; [|discriminate]. intros H. inversion H; subst. eauto. Qed.
Lemma cos_deg_ok u r : cos_deg u = Exact2 r <-> exists i, get_int u = Some i /\ exact_sin2 (i + 90) = Some r.
Proof. unfold cos_deg. split; [|intros (i & -> & ->); reflexivity]. destruct (get_int u) as [i|]; [|discriminate]. destruct (exact_sin2 (i + 90)) as [r'|] eqn:E; [|discriminate]. intros H. inversion H; subst. eauto. Qed.
(** The sine is exact for exactly those angles (but 0) that are integers and for which twice the real sine is an integer, and has that value *)
Theorem C48_sin : forall u r, 0 <= u < 2 ^ 64 -> sin_deg u = Exact2 r <-> exists i, i <> 0 /\ Z.abs i < 2 ^ 53 /\ is_int u i /\ (2 * sin (IZR i * PI / 180) = IZR r)%R.
Proof.
  intros u r U. rewrite sin_deg_ok. split.
  - intros (i & H & E). apply get_int_ok in H as (A & B & C); auto. exists i. split; [exact A|]. split; [exact B|]. split; [exact C|]. now apply exact_sound.
  - intros (i & A & B & C & E). exists i. split; [apply get_int_ok; auto|now apply exact_complete].
Qed.
Example C48_sin_ex : sin_deg 0xC056800000000000 = Exact2 (-2) /\ sin_deg 0x403E000000000000 = Exact2 1 /\ sin_deg 0x4046800000000000 = Library.
Proof. repeat split; reflexivity. Qed.
Theorem C48_cos : forall u r, 0 <= u < 2 ^ 64 -> cos_deg u = Exact2 r <-> exists i, i <> 0 /\ Z.abs i < 2 ^ 53 /\ is_int u i /\ (2 * cos (IZR i * PI / 180) = IZR r)%R.
Proof.
  assert (S : forall i, cos (IZR i * PI / 180) = sin (rad (i + 90))). { intros i. rewrite cos_sin. f_equal. unfold rad. rewrite plus_IZR. field. }
  intros u r U. rewrite cos_deg_ok. split.
  - intros (i & H & E). apply get_int_ok in H as (A & B & C); auto. exists i. split; [exact A|]. split; [exact B|]. split; [exact C|]. rewrite S. now apply exact_sound.
  - intros (i & A & B & C & E). exists i. split; [apply get_int_ok; auto|]. rewrite S in E. now apply exact_complete.
Qed.
Example C48_cos_ex : cos_deg 0xC056800000000000 = Exact2 0 /\ cos_deg 0x404E000000000000 = Exact2 1 /\ cos_deg 0x403E000000000000 = Library.
Proof. repeat split; reflexivity. Qed.

Print Assumptions C47_circle.
Print Assumptions C47_regular.
Print Assumptions C48_integer.
Print Assumptions C48_sin.
Print Assumptions C48_cos.
