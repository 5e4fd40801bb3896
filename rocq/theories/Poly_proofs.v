(** Proofs about the construction of paths: appending to a path *)
From Coq Require Import ZArith List Bool Lia Arith Permutation ZifyBool.
From Verif Require Import Reduce_model Poly_model Poly_spec.
Import ListNotations.
Open Scope Z_scope.

(** ** Open chains *)
Fixpoint opn {A} (a : A) (l : list A) : list (A * A) := match l with [] => [] | b :: l => (a, b) :: opn b l end.
Lemma opn_app : forall A l (a b : A) m, opn a (l ++ b :: m) = opn a l ++ (last l a, b) :: opn b m.
Proof.
  intros A. induction l as [|x l IH]; intros a b m; [reflexivity|]. cbn [app opn]. rewrite IH. f_equal. f_equal. f_equal. f_equal.
  destruct l as [|y l]; [reflexivity|]. change (last (x :: y :: l) a) with (last (y :: l) a). clear. revert y. induction l as [|z l IH]; intros y; [reflexivity|]. apply (IH z).
Qed.
Lemma combine_opn : forall A (l : list A) a z, combine (a :: l) (l ++ [z]) = opn a l ++ [(last l a, z)].
Proof.
  intros A. induction l as [|x l IH]; intros a z; [reflexivity|]. cbn [app]. change (combine (a :: x :: l) (x :: l ++ [z])) with ((a, x) :: combine (x :: l) (l ++ [z])).
  rewrite IH. cbn [opn app]. f_equal. f_equal. f_equal. f_equal. destruct l as [|y l]; [reflexivity|]. change (last (x :: y :: l) a) with (last (y :: l) a). clear. revert y. induction l as [|w l IH]; intros y; [reflexivity|]. apply (IH w).
Qed.
Lemma cyc_opn : forall A (l : list A) a, cyc_pairs (a :: l) = opn a l ++ [(last l a, a)].
Proof. intros A l a. apply combine_opn. Qed.

Lemma set_at_nth : forall A (l : list A) n x y, nth_error l n = Some y -> nth_error (set_at n x l) n = Some x.
Proof. induction l as [|z l IH]; intros [|n] x y H; try discriminate; [reflexivity|]. apply (IH n x y H). Qed.
Lemma set_at_end : forall A (l : list A) x y, set_at (length l) x (l ++ [y]) = l ++ [x].
Proof. induction l as [|z l IH]; intros x y; [reflexivity|]. cbn [length app set_at]. f_equal. apply IH. Qed.
Lemma set_at_length : forall A (l : list A) n x, length (set_at n x l) = length l.
Proof. induction l as [|z l IH]; intros [|n] x; cbn; auto. Qed.
Lemma set_at_app : forall A (l m : list A) n x, (n < length l)%nat -> set_at n x (l ++ m) = set_at n x l ++ m.
Proof. induction l as [|z l IH]; intros m [|n] x H; cbn in *; try lia; auto. f_equal. apply IH. lia. Qed.
Lemma set_at_set : forall A (l : list A) n x y, set_at n y (set_at n x l) = set_at n y l.
Proof. induction l as [|z l IH]; intros [|n] x y; cbn; auto. f_equal. apply IH. Qed.
Lemma nth_app_some : forall A (l m : list A) n x, nth_error l n = Some x -> nth_error (l ++ m) n = Some x.
Proof. intros A l m n x H. rewrite nth_error_app1; auto. apply nth_error_Some. congruence. Qed.

Lemma upd_fold : forall (l : list nat) (x : Z) a i, fold_left (fun a i => upd a i x) l a i = if existsb (Nat.eqb i) l then x else a i.
Proof.
  induction l as [|j l IH]; intros x a i; [reflexivity|]. cbn [fold_left existsb]. rewrite IH. destruct (existsb (Nat.eqb i) l); [destruct (i =? j)%nat; reflexivity|].
  unfold upd. destruct (i =? j)%nat; reflexivity.
Qed.
Lemma existsb_In : forall i l, existsb (Nat.eqb i) l = true <-> In i l.
Proof.
  intros i l. rewrite existsb_exists. split; [intros (x & I & H); apply Nat.eqb_eq in H; subst; auto|intros I; exists i; split; auto; apply Nat.eqb_refl].
Qed.

(** ** One step *)
Record good (r : gon) (vi : nat) (o : Z) (v : list nat) : Prop := {
  g_path : nth_error (paths r) vi = Some v;
  g_nodup : NoDup v;
  g_len : 0 < o /\ o + Z.of_nat (length v) <= 2 ^ 32;
  g_in : forall i p, nth_error v i = Some p -> aux r p = o + Z.of_nat i;
  g_out : forall p, (p < length (points r))%nat -> ~ In p v -> 0 <= aux r p < o
}.

Lemma u32_id : forall x, 0 <= x < 2 ^ 32 -> u32 x = x.
Proof. intros x H. unfold u32. apply Z.mod_small. exact H. Qed.
Lemma u32_neg : forall x, - 2 ^ 32 <= x < 0 -> u32 x = x + 2 ^ 32.
Proof. intros x H. unfold u32. rewrite <- (Z_mod_plus_full x 1). apply Z.mod_small. lia. Qed.

Definition open_pairs (v : list nat) : list (nat * nat) := match v with [] => [] | a :: l => opn a l end.
Definition join (v : list nat) (p : nat) : list (nat * nat) := match v with [] => [] | a :: l => opn a l ++ [(last l a, p)] end.

Lemma append_ok : forall r vi o v p, good r vi o v -> (p < length (points r))%nat -> o + Z.of_nat (length v) + 1 <= 2 ^ 32 ->
  exists r' v' ex, append vi o p r = Done r' /\ good r' vi o v' /\ points r' = points r /\ paths r' = set_at vi v' (paths r) ++ ex
  /\ Forall (fun w => NoDup w /\ w <> []) ex /\ (exists l, v' = hd p v :: l /\ last l (hd p v) = p)
  /\ join v p = open_pairs v' ++ flat_map cyc_pairs ex /\ (forall x, In x (v' ++ concat ex) -> In x (p :: v)) /\ (length v' <= length v + 1)%nat.
Proof.
  intros r vi o v p [GP GN (GO & GL) GI GU] Hp HL.
  unfold append. rewrite GP. assert (LP : (p <? length (points r))%nat = true) by (apply Nat.ltb_lt; exact Hp). rewrite LP. unfold check.
  destruct (in_dec Nat.eq_dec p v) as [I|I].
  - (* cut *)
    apply in_split in I. destruct I as (v1 & v2 & ->).
    assert (A : aux r p = o + Z.of_nat (length v1)).
    { apply GI. rewrite nth_error_app2 by lia. rewrite Nat.sub_diag. reflexivity. }
    rewrite app_length in *. cbn [length] in *.
    assert (U : u32 (aux r p - o) = Z.of_nat (length v1)) by (rewrite A, u32_id; lia). rewrite U.
    assert (LE : (Z.of_nat (length v1 + S (length v2)) <=? Z.of_nat (length v1)) = false) by lia. rewrite LE. rewrite Nat2Z.id.
    assert (Q1 : nth_error (v1 ++ p :: v2) (length v1) = Some p) by (rewrite nth_error_app2, Nat.sub_diag by lia; reflexivity). rewrite Q1, Nat.eqb_refl.
    assert (Q2 : skipn (length v1) (v1 ++ p :: v2) = p :: v2) by (rewrite skipn_app, Nat.sub_diag, skipn_all; reflexivity). rewrite Q2.
    assert (Q3 : firstn (length v1 + 1) (v1 ++ p :: v2) = v1 ++ [p]).
    { rewrite firstn_app. replace (length v1 + 1 - length v1)%nat with 1%nat by lia. rewrite firstn_all2 by lia. reflexivity. }
    rewrite Q3. cbn [tl].
    assert (VI : (vi < length (paths r))%nat) by (apply nth_error_Some; congruence).
    assert (ND1 : NoDup (v1 ++ [p]) /\ NoDup (p :: v2) /\ (forall x, In x v2 -> ~ In x (v1 ++ [p]))).
    { assert (X : forall (a b : list nat), NoDup (a ++ b) -> NoDup a /\ NoDup b /\ forall x, In x b -> ~ In x a).
      { induction a as [|y a IH]; intros b N; [split; [constructor|split; [exact N|intros x _ []]]|]. inversion N; subst. destruct (IH b H2) as (A1 & A2 & A3).
        split; [constructor; auto; intros X; apply H1, in_or_app; auto|]. split; [exact A2|]. intros x Ix [<-|Ia]; [apply H1, in_or_app; auto|exact (A3 x Ix Ia)]. }
      destruct (X _ _ GN) as (_ & N2 & _). split; [|split; [exact N2|]].
      - apply (X (v1 ++ [p]) v2). rewrite <- app_assoc. exact GN.
      - apply (X (v1 ++ [p]) v2). rewrite <- app_assoc. exact GN. }
    destruct ND1 as (N1 & N2 & N3).
    exists (mk_gon (points r) (fold_left (fun a i => upd a i (u32 (o - 1))) v2 (aux r)) (set_at vi (v1 ++ [p]) (paths r) ++ [p :: v2])), (v1 ++ [p]), [p :: v2].
    split; [reflexivity|]. split; [constructor; cbn [points aux paths]|].
    + apply nth_app_some. eapply set_at_nth, GP.
    + exact N1.
    + rewrite app_length. cbn [length]. lia.
    + intros i q Hq. rewrite upd_fold. assert (IQ : In q (v1 ++ [p])) by (eapply nth_error_In, Hq).
      destruct (existsb (Nat.eqb q) v2) eqn:X; [apply existsb_In in X; exfalso; exact (N3 q X IQ)|].
      apply GI. change (v1 ++ p :: v2) with (v1 ++ ([p] ++ v2)). rewrite app_assoc. apply nth_app_some, Hq.
    + intros q Lq Nq. rewrite upd_fold. destruct (existsb (Nat.eqb q) v2) eqn:X.
      * rewrite u32_id; lia.
      * apply GU; [exact Lq|]. change (v1 ++ p :: v2) with (v1 ++ ([p] ++ v2)). rewrite app_assoc. intros J. apply in_app_or in J. destruct J as [J|J]; [exact (Nq J)|]. apply existsb_In in J. congruence.
    + cbn [points paths]. split; [reflexivity|]. split; [reflexivity|]. split; [constructor; [split; [exact N2|discriminate]|constructor]|].
      destruct v1 as [|a v1]; cbn [app hd].
      * split; [exists []; auto|]. split; [cbn [join open_pairs opn flat_map app]; rewrite app_nil_r, cyc_opn; reflexivity|].
        split; [|cbn; lia]. intros x J. cbn [concat app] in J. rewrite app_nil_r in J. destruct J as [J|J]; [left; exact J|right; exact J].
      * split; [exists (v1 ++ [p]); split; [reflexivity|apply last_last]|].
        split; [|split].
        -- cbn [join open_pairs flat_map]. rewrite app_nil_r, cyc_opn, !opn_app. cbn [opn]. rewrite <- !app_assoc. cbn [app]. f_equal. f_equal. f_equal. f_equal. f_equal.
           clear. revert a. induction v1 as [|b v1 IH]; intros a; [destruct v2 as [|y l]; [reflexivity|]; change (last ([] ++ p :: y :: l) a) with (last (y :: l) a); revert y; induction l as [|z l IH]; intros y; [reflexivity|apply (IH z)]|].
           cbn [app]. rewrite <- (IH b). destruct (v1 ++ p :: v2) eqn:X; [destruct v1; discriminate|]. change (last (b :: n :: l) a) with (last (n :: l) a). clear. revert n. induction l as [|z l IH]; intros n; [reflexivity|apply (IH z)].
        -- intros x J. cbn [concat] in J. rewrite app_nil_r in J. change ((a :: v1 ++ [p]) ++ p :: v2) with (a :: (v1 ++ [p]) ++ p :: v2) in J.
           right. destruct J as [J|J]; [left; exact J|right]. apply in_app_or in J. apply in_or_app. destruct J as [J|J]; [apply in_app_or in J; destruct J as [J|[J|[]]]; [left; exact J|right; left; exact J]|right; exact J].
        -- cbn [length app]. rewrite !app_length. cbn [length]. lia.
  - (* push *)
    pose proof (GU p Hp I) as A.
    rewrite u32_neg by lia. assert (LE : (Z.of_nat (length v) <=? aux r p - o + 2 ^ 32) = true) by lia. rewrite LE.
    rewrite u32_id by lia.
    exists (mk_gon (points r) (upd (aux r) p (Z.of_nat (length v) + o)) (set_at vi (v ++ [p]) (paths r))), (v ++ [p]), [].
    split; [reflexivity|]. split; [constructor; cbn [points aux paths]|].
    + eapply set_at_nth, GP.
    + apply (Permutation_NoDup (Permutation_cons_append v p)). constructor; assumption.
    + rewrite app_length. cbn [length]. lia.
    + intros i q Hq. unfold upd. destruct (Nat.ltb_spec i (length v)).
      * rewrite nth_error_app1 in Hq by auto. destruct (Nat.eqb_spec q p) as [->|_]; [exfalso; apply I; eapply nth_error_In, Hq|]. apply GI, Hq.
      * assert (i = length v) by (assert (i < length (v ++ [p]))%nat by (apply nth_error_Some; congruence); rewrite app_length in *; cbn [length] in *; lia).
        subst i. rewrite nth_error_app2, Nat.sub_diag in Hq by lia. injection Hq as <-. rewrite Nat.eqb_refl. lia.
    + intros q Lq Nq. unfold upd. destruct (Nat.eqb_spec q p) as [->|N]; [exfalso; apply Nq, in_or_app; right; left; reflexivity|].
      apply GU; [exact Lq|]. intros J. apply Nq, in_or_app. auto.
    + cbn [points paths]. split; [reflexivity|]. split; [rewrite app_nil_r; reflexivity|]. split; [constructor|].
      destruct v as [|a v]; cbn [app hd].
      * split; [exists []; auto|]. split; [reflexivity|]. split; [intros x J; exact J|cbn; lia].
      * split; [exists (v ++ [p]); split; [reflexivity|apply last_last]|]. split; [cbn [join open_pairs flat_map]; rewrite opn_app, app_nil_r; reflexivity|].
        split; [|cbn [length]; rewrite app_length; cbn; lia].
        intros x J. cbn [concat] in J. rewrite app_nil_r in J. destruct J as [J|J]; [right; left; exact J|]. apply in_app_or in J. destruct J as [J|[J|[]]]; [right; right; exact J|left; exact J].
Qed.

(** ** A chain *)
Fixpoint appends (vi : nat) (o : Z) (c : list nat) (r : gon) : outcome gon :=
  match c with [] => Done r | p :: c => bind (append vi o p r) (appends vi o c) end.

Lemma appends_ok : forall c r vi o v, good r vi o v -> v <> [] -> (forall p, In p c -> (p < length (points r))%nat) ->
  o + Z.of_nat (length v) + Z.of_nat (length c) <= 2 ^ 32 ->
  exists r' v' ex, appends vi o c r = Done r' /\ good r' vi o v' /\ points r' = points r /\ paths r' = set_at vi v' (paths r) ++ ex
  /\ Forall (fun w => NoDup w /\ w <> []) ex /\ v' <> [] /\ hd O v' = hd O v /\ last v' O = last (v ++ c) O
  /\ Permutation (open_pairs (v ++ c)) (open_pairs v' ++ flat_map cyc_pairs ex) /\ (forall x, In x (v' ++ concat ex) -> In x (v ++ c))
  /\ (length v' <= length v + length c)%nat.
Proof.
  induction c as [|p c IH]; intros r vi o v G NE HP HL.
  - exists r, v, []. split; [reflexivity|]. split; [exact G|]. split; [reflexivity|].
    assert (SV : set_at vi v (paths r) = paths r).
    { destruct G as [GP _ _ _ _]. revert vi GP. generalize (paths r). induction l as [|x l IH]; intros [|n] H; try discriminate; [injection H as ->; reflexivity|]. cbn [set_at]. f_equal. apply IH, H. }
    rewrite SV. rewrite (app_nil_r (paths r)), (app_nil_r v). split; [reflexivity|]. split; [constructor|]. split; [exact NE|]. split; [reflexivity|]. split; [reflexivity|].
    cbn [flat_map concat]. rewrite !app_nil_r. split; [apply Permutation_refl|]. split; [auto|cbn; lia].
  - cbn [length] in HL. destruct (append_ok r vi o v p G) as (r1 & v1 & ex1 & A1 & G1 & P1 & T1 & F1 & (l1 & E1 & L1) & J1 & I1 & N1); [apply HP; left; reflexivity|lia|].
    destruct (IH r1 vi o v1 G1) as (r2 & v2 & ex2 & A2 & G2 & P2 & T2 & F2 & NE2 & H2 & L2 & J2 & I2 & N2).
    { rewrite E1. discriminate. }
    { intros q Hq. rewrite P1. apply HP. right; exact Hq. }
    { lia. }
    exists r2, v2, (ex1 ++ ex2). cbn [appends]. rewrite A1. cbn [bind]. split; [exact A2|]. split; [exact G2|]. split; [congruence|].
    destruct v as [|a v]; [congruence|]. cbn [hd] in *.
    split.
    { rewrite T2, T1. rewrite set_at_app, set_at_set, <- app_assoc; [reflexivity|]. rewrite set_at_length. destruct G as [GP _ _ _ _]. apply nth_error_Some. congruence. }
    split; [apply Forall_app; split; assumption|]. split; [exact NE2|]. split; [rewrite H2, E1; reflexivity|].
    assert (LV : last v1 O = p) by (rewrite E1; destruct l1 as [|y l1]; [exact L1|]; rewrite <- L1; change (last (y :: l1) 0%nat = last (y :: l1) a); clear; revert y; induction l1 as [|z l IH]; intros y; [reflexivity|apply (IH z)]).
    split; [|split; [|split]].
    + rewrite L2. destruct c as [|q c]; [rewrite app_nil_r, LV; symmetry; change ((a :: v) ++ [p]) with ((a :: v) ++ [p]); apply last_last|].
      assert (X : forall (l : list nat) q c, last (l ++ q :: c) O = last (q :: c) O).
      { clear. induction l as [|x l IH]; intros q c; [reflexivity|]. rewrite <- (IH q c). cbn [app]. destruct (l ++ q :: c) eqn:X; [destruct l; discriminate|]. reflexivity. }
      rewrite X. change (a :: v) with ([a] ++ v). rewrite X. reflexivity.
    + rewrite flat_map_app. rewrite app_assoc.
      assert (J1' : opn a v ++ [(last v a, p)] = open_pairs v1 ++ flat_map cyc_pairs ex1) by exact J1.
      cbn [app open_pairs]. rewrite opn_app.
      destruct v1 as [|b v1]; [destruct v2; discriminate|]. injection E1 as -> ->.
      change ((last v a, p) :: opn p c) with ([(last v a, p)] ++ opn p c). rewrite app_assoc, J1'.
      cbn [open_pairs] in *. cbn [app] in J2. cbn [open_pairs] in J2.
      assert (O2 : opn a (l1 ++ c) = opn a l1 ++ opn p c).
      { destruct c as [|q c]; [rewrite !app_nil_r; reflexivity|]. rewrite opn_app, L1. reflexivity. }
      rewrite O2 in J2. rewrite <- app_assoc.
      rewrite (Permutation_app_comm (flat_map cyc_pairs ex1)). rewrite app_assoc. rewrite J2.
      rewrite <- !app_assoc. apply Permutation_app_head. apply Permutation_app_comm.
    + intros x Ix. rewrite concat_app in Ix. apply in_app_or in Ix. assert (Z : forall x, In x (p :: a :: v) -> In x ((a :: v) ++ p :: c)).
      { intros y [<-|Iy]; apply in_or_app; [right; left; reflexivity|left; exact Iy]. }
      assert (Y : forall x, In x (v1 ++ c) -> In x ((a :: v) ++ p :: c)).
      { intros y Iy. apply in_app_or in Iy. destruct Iy as [Iy|Iy]; [apply Z, I1, in_or_app; auto|apply in_or_app; right; right; exact Iy]. }
      destruct Ix as [Ix|Ix]; [apply Y, I2, in_or_app; auto|]. apply in_app_or in Ix. destruct Ix as [Ix|Ix]; [apply Z, I1, in_or_app; auto|apply Y, I2, in_or_app; auto].
    + cbn [length] in *. lia.
Qed.

Lemma chain_ok : forall c r o, c <> [] -> 0 < o -> o + Z.of_nat (length c) <= 2 ^ 32 ->
  (forall p, In p c -> (p < length (points r))%nat) -> (forall p, (p < length (points r))%nat -> 0 <= aux r p < o) ->
  exists r' ex, appends (length (paths r)) o c (mk_gon (points r) (aux r) (paths r ++ [[]])) = Done r'
  /\ points r' = points r /\ paths r' = paths r ++ ex
  /\ Forall (fun w => NoDup w /\ w <> []) ex /\ Permutation (cyc_pairs c) (flat_map cyc_pairs ex) /\ (forall x, In x (concat ex) -> In x c)
  /\ (forall p, (p < length (points r))%nat -> 0 <= aux r' p < o + Z.of_nat (length c)).
Proof.
  intros c r o NE O0 OL HP HA. destruct c as [|p c]; [congruence|]. cbn [length] in OL.
  assert (G0 : good (mk_gon (points r) (aux r) (paths r ++ [[]])) (length (paths r)) o []).
  { constructor; cbn [points aux paths].
    - rewrite nth_error_app2, Nat.sub_diag by lia. reflexivity.
    - constructor.
    - cbn [length]. lia.
    - intros [|i] q; discriminate.
    - intros q Lq _. apply HA, Lq. }
  destruct (append_ok _ _ _ _ p G0) as (r1 & v1 & ex1 & A1 & G1 & P1 & T1 & F1 & (l1 & E1 & L1) & J1 & I1 & N1); [cbn [points]; apply HP; left; reflexivity|cbn [length]; lia|].
  cbn [hd points length] in *. assert (EX : ex1 = []).
  { destruct ex1 as [|w ex1]; [reflexivity|]. exfalso. cbn [join flat_map] in J1. apply Forall_inv in F1 as (_ & F1). destruct w as [|x w]; [congruence|]. rewrite cyc_opn in J1.
    symmetry in J1. apply app_eq_nil in J1 as (_ & J1). apply app_eq_nil in J1 as (J1 & _). apply app_eq_nil in J1 as (_ & J1). discriminate. }
  subst ex1. assert (V1 : l1 = []) by (destruct l1 as [|y l1]; [reflexivity|]; exfalso; rewrite E1 in N1; cbn [length] in N1; lia).
  subst l1. subst v1. clear L1 J1 N1 F1.
  destruct (appends_ok c r1 _ o [p] G1) as (r2 & v2 & ex2 & A2 & G2 & P2 & T2 & F2 & NE2 & H2 & L2 & J2 & I2 & N2).
  { discriminate. }
  { intros q Hq. rewrite P1. apply HP. right; exact Hq. }
  { cbn [length]. lia. }
  exists r2, (v2 :: ex2). cbn [appends]. rewrite A1. cbn [bind]. split; [exact A2|]. split; [congruence|].
  cbn [paths] in T1. split; [rewrite T2, T1, app_nil_r, set_at_set, set_at_end, <- app_assoc; reflexivity|].
  split; [constructor; [split; [apply G2|exact NE2]|exact F2]|].
  split.
  - destruct v2 as [|b v2]; [congruence|]. cbn [hd] in H2. subst b. cbn [flat_map]. rewrite !cyc_opn.
    cbn [app open_pairs] in *. assert (LL : last v2 p = last c p).
    { assert (X : forall (l : list nat) a, last (a :: l) O = last l a) by (clear; induction l as [|y l IH]; intros a; [reflexivity|]; change (last (a :: y :: l) 0%nat) with (last (y :: l) 0%nat); rewrite IH; destruct l; [reflexivity|]; change (last (n :: l) y = last (n :: l) a); clear; revert n; induction l as [|z l IH]; intros n; [reflexivity|apply (IH z)]).
      rewrite <- (X v2 p), <- (X c p). exact L2. }
    rewrite LL, J2, <- !app_assoc. apply Permutation_app_head, Permutation_app_comm.
  - split; [intros x Ix; apply I2; exact Ix|].
    intros q Lq. cbn [length] in *. destruct (in_dec Nat.eq_dec q v2) as [I|I].
    + apply In_nth_error in I. destruct I as (i & Hi). rewrite (g_in _ _ _ _ G2 i q Hi). assert (i < length v2)%nat by (apply nth_error_Some; congruence). lia.
    + assert (X : (q < length (points r2))%nat) by (rewrite P2, P1; exact Lq). pose proof (g_out _ _ _ _ G2 q X I). lia.
Qed.
