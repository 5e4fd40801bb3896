From Coq Require Import ZArith Bool List Lia Arith ZifyBool.
From Verif Require Import Utf8_model Xml_model Xml_spec.
Import ListNotations.
Local Open Scope Z_scope.

(** * Decoding *)
Lemma iter_get_ext m m' i : nth_error m (pos i) = nth_error m' (pos i) -> iter_get m i = iter_get m' i.
Proof. intros H. unfold iter_get. now rewrite H. Qed.
Lemma iter_adv_ext m m' i : nth_error m (pos i) = nth_error m' (pos i) -> iter_advance m i = iter_advance m' i.
Proof. intros H. unfold iter_advance. now rewrite H. Qed.
Lemma iter_adv_pos m i j : iter_advance m i = UOk j -> pos j = S (pos i) /\ size j = (size i - 1)%nat /\ error j = error i /\ size i <> 0%nat /\ exists c, nth_error m (pos i) = Some c /\ c <> 0.
Proof.
  unfold iter_advance. destruct (nth_error m (pos i)) as [c|] eqn:E; [|discriminate]. destruct (c =? 0) eqn:C, (Nat.eqb (size i) 0) eqn:S; cbn [orb]; intros H; inversion H; subst; cbn.
  apply Nat.eqb_neq in S. repeat split; try lia. exists c; split; [auto|lia].
Qed.
Lemma get_cont_ext m m' s i : nth_error m (pos i) = nth_error m' (pos i) -> get_cont m s i = get_cont m' s i.
Proof. intros H. unfold get_cont. now rewrite (iter_get_ext m m' i H), (iter_adv_ext m m' i H). Qed.
Lemma get_cont_pos m s i c j : get_cont m s i = UOk (Some c, j) ->
  pos j = S (pos i) /\ size j = (size i - 1)%nat /\ error j = error i /\ nth_error m (pos i) = Some c /\ 128 <= c <= 191 /\ size i <> 0%nat.
Proof.
  unfold get_cont, iter_get. destruct (Nat.eqb (size i) 0) eqn:S; cbn [ubind].
  - cbn. discriminate.
  - destruct (nth_error m (pos i)) as [d|] eqn:E; cbn [ubind]; [|discriminate]. destruct (negb _) eqn:R; [discriminate|].
    unfold iter_advance. rewrite E, S. destruct (d =? 0) eqn:D; [lia|]. cbn [orb ubind]. intros H; inversion H; subst; cbn. apply Nat.eqb_neq in S. repeat split; try lia; auto.
Qed.
Lemma get_cont_none m s i j : get_cont m s i = UOk (None, j) -> error j = Some Continuation.
Proof.
  unfold get_cont, iter_get. destruct (Nat.eqb (size i) 0) eqn:S; cbn [ubind].
  - cbn. now inversion 1.
  - destruct (nth_error m (pos i)) as [d|] eqn:E; cbn [ubind]; [|discriminate]. destruct (negb _) eqn:R; [now inversion 1|].
    destruct (iter_advance m i); cbn [ubind]; discriminate.
Qed.
Lemma decode_ext m m' i : (forall k, (pos i <= k)%nat -> nth_error m k = nth_error m' k) -> decode m i = decode m' i.
Proof.
  intros H. unfold decode. rewrite (iter_get_ext m m' i) by (apply H; lia). destruct (iter_get m' i) as [c1| |]; cbn [ubind]; auto.
  destruct (c1 =? 0); auto. rewrite (iter_adv_ext m m' i) by (apply H; lia). destruct (iter_advance m' i) as [i1| |] eqn:E1; cbn [ubind]; auto.
  destruct (iter_adv_pos _ _ _ E1) as (P1 & _). destruct (c1 <? 128); auto. destruct (c1 <? 194); auto.
  rewrite (get_cont_ext m m' _ i1) by (apply H; lia). destruct (get_cont m' (pos i) i1) as [[[c2|] i2]| |] eqn:E2; cbn [ubind]; auto.
  destruct (get_cont_pos _ _ _ _ _ E2) as (P2 & _). destruct (c1 <? 224); auto.
  rewrite (get_cont_ext m m' _ i2) by (apply H; lia). destruct (get_cont m' (pos i) i2) as [[[c3|] i3]| |] eqn:E3; cbn [ubind]; auto.
  destruct (get_cont_pos _ _ _ _ _ E3) as (P3 & _). destruct (c1 <? 240); auto.
  rewrite (get_cont_ext m m' _ i3) by (apply H; lia). destruct (get_cont m' (pos i) i3) as [[[c4|] i4]| |] eqn:E4; cbn [ubind]; auto.
Qed.

(** Number of bytes of a character *)
Definition clen (c : Z) : nat := if c <=? 127 then 1 else if c <=? 2047 then 2 else if c <=? 65535 then 3 else 4.
Lemma lor_shift_bound a b k n : 0 <= a < 2 ^ (n - k) -> 0 <= b < 2 ^ n -> 0 <= k <= n -> 0 <= Z.lor (Z.shiftl a k) b < 2 ^ n.
Proof.
  intros A B K. split. { apply Z.lor_nonneg. split; [apply Z.shiftl_nonneg|]; lia. }
  assert (S : 0 <= Z.shiftl a k < 2 ^ n). { split; [apply Z.shiftl_nonneg; lia|]. rewrite Z.shiftl_mul_pow2 by lia. replace (2 ^ n) with (2 ^ (n - k) * 2 ^ k) by (rewrite <- Z.pow_add_r by lia; f_equal; lia). apply Z.mul_lt_mono_pos_r; lia. }
  destruct (Z.eq_dec (Z.lor (Z.shiftl a k) b) 0) as [->|N]; [lia|].
  apply Z.log2_lt_pow2. { pose proof (proj2 (Z.lor_nonneg (Z.shiftl a k) b)). assert (0 <= Z.lor (Z.shiftl a k) b) by (apply Z.lor_nonneg; lia). lia. }
  rewrite Z.log2_lor by lia. apply Z.max_lub_lt.
  - destruct (Z.eq_dec (Z.shiftl a k) 0) as [->|]; [cbn; assert (n <> 0 \/ n = 0) as [?|Z0] by lia; [lia|subst n; replace k with 0 in * by lia; cbn in *; assert (b = 0) by lia; assert (a = 0) by lia; subst; cbn in N; lia]|apply Z.log2_lt_pow2; lia].
  - destruct (Z.eq_dec b 0) as [->|]; [cbn; assert (n <> 0 \/ n = 0) as [?|Z0] by lia; [lia|subst n; replace k with 0 in * by lia; cbn in *; assert (a = 0) by lia; subst; cbn in N; lia]|apply Z.log2_lt_pow2; lia].
Qed.
Lemma check_ok s i mn c1 c2 c3 c4 c j : check_valid s i mn c1 c2 c3 c4 = (c, j) -> error j = None ->
  j = i /\ c = Z.lor (Z.lor (Z.lor (Z.shiftl c1 18) (Z.shiftl c2 12)) (Z.shiftl c3 6)) c4 /\ mn <= c /\ c <= 1114111 /\ ~ (55296 <= c < 57344).
Proof.
  unfold check_valid. set (r := Z.lor _ _).
  destruct (r <? mn) eqn:A; [now inversion 1; subst|]. destruct (1114111 <? r) eqn:B; [now inversion 1; subst|]. destruct (_ && _) eqn:C; [now inversion 1; subst|].
  inversion 1; subst. intros _. repeat split; lia.
Qed.
Lemma nth_or_end (m : list Z) e p : length m = S e -> (p <= e)%nat -> exists c, nth_error m p = Some c.
Proof. intros L P. destruct (nth_error m p) eqn:E; eauto. apply nth_error_None in E. lia. Qed.
(** Decoding within a file *)
Lemma decode_file m e p : length m = S e -> nth_error m e = Some 0 -> bytes m -> (p <= e)%nat ->
  match decode m (mk_iter p (e - p) None) with
  | UOk (c, i) => match error i with
    | Some _ => True
    | None => (c = 0 /\ pos i = p /\ nth_error m p = Some 0) \/
        (c <> 0 /\ utf8_ok c = true /\ 0 < c /\ (pos i = p + clen c)%nat /\ (pos i <= e)%nat /\ forall k, (p <= k < pos i)%nat -> exists b, nth_error m k = Some b /\ b <> 0)
    end
  | _ => False
  end.
Proof.
  intros L E B P. unfold decode. cbn [pos]. unfold iter_get at 1. cbn [size pos].
  destruct (nth_or_end m e p L P) as (c1 & H1).
  destruct (Nat.eqb (e - p) 0) eqn:S0; cbn [ubind].
  { cbn. left. apply Nat.eqb_eq in S0. replace p with e by lia. auto. }
  rewrite H1. cbn [ubind]. assert (R1 := B c1 (nth_error_In _ _ H1)). destruct (c1 =? 0) eqn:Z1. { cbn [error pos]. left. assert (c1 = 0) as -> by lia. auto. }
  unfold iter_advance at 1. cbn [pos size error]. rewrite H1, Z1, S0. cbn [orb ubind]. apply Nat.eqb_neq in S0.
  destruct (c1 <? 128) eqn:C1.
  { cbn [error pos]. right. unfold utf8_ok, clen. replace (c1 <=? 127) with true by lia. repeat split; try lia. intros k K. exists c1. replace k with p by lia. split; [auto|lia]. }
  destruct (c1 <? 194) eqn:C2. { exact I. }
  set (i1 := mk_iter (p + 1) (e - p - 1) None).
  assert (G : forall s i, (pos i + size i = e)%nat -> match get_cont m s i with UOk _ => True | _ => False end).
  { intros s i Hi. unfold get_cont, iter_get. destruct (nth_or_end m e (pos i) L ltac:(lia)) as (d & Hd). destruct (Nat.eqb (size i) 0) eqn:S; cbn [ubind]; [exact I|].
    rewrite Hd. cbn [ubind]. destruct (negb _) eqn:N; [exact I|]. unfold iter_advance. rewrite Hd, S. replace (d =? 0) with false by lia. exact I. }
  assert (G1 := G p i1 ltac:(cbn; lia)). destruct (get_cont m p i1) as [[[c2|] i2]| |] eqn:E2; cbn [ubind]; try tauto.
  2: { rewrite (get_cont_none _ _ _ _ E2). exact I. }
  destruct (get_cont_pos _ _ _ _ _ E2) as (P2 & S2 & Er2 & N2 & R2 & Z2). cbn in P2, S2, Er2, N2, Z2.
  destruct (c1 <? 224) eqn:C3.
  { destruct (check_valid _ _ _ _ _ _ _) as (c, j) eqn:Ck. destruct (error j) eqn:Ej; [exact I|]. right. destruct (check_ok _ _ _ _ _ _ _ _ _ Ck Ej) as (-> & Rc & Mn & Mx & Su).
    assert (0 <= c < 2 ^ 11). { rewrite Rc. rewrite !Z.shiftl_0_l, !Z.lor_0_l.
      change (2 ^ 11) with 2048. assert (Z.land c1 31 < 32 /\ 0 <= Z.land c1 31). { change 31 with (Z.ones 5). rewrite Z.land_ones by lia. pose proof (Z.mod_pos_bound c1 (2 ^ 5) ltac:(lia)). lia. }
      apply (lor_shift_bound _ _ 6 11); change (2 ^ (11 - 6)) with 32; change (2 ^ 11) with 2048; lia. }
    change (2 ^ 11) with 2048 in *. unfold utf8_ok, clen. replace (c <=? 127) with false by lia. replace (c <=? 2047) with true by lia. repeat split; try lia.
    intros k K. assert (k = p \/ k = p + 1)%nat as [->| ->] by lia; eexists; (split; [eassumption|lia]). }
  assert (G2 := G p i2 ltac:(lia)). destruct (get_cont m p i2) as [[[c3|] i3]| |] eqn:E3; cbn [ubind]; try tauto.
  2: { rewrite (get_cont_none _ _ _ _ E3). exact I. }
  destruct (get_cont_pos _ _ _ _ _ E3) as (P3 & S3 & Er3 & N3 & R3 & Z3). rewrite P2 in N3, P3. rewrite S2 in S3, Z3.
  destruct (c1 <? 240) eqn:C4.
  { destruct (check_valid _ _ _ _ _ _ _) as (c, j) eqn:Ck. destruct (error j) eqn:Ej; [exact I|]. right. destruct (check_ok _ _ _ _ _ _ _ _ _ Ck Ej) as (-> & Rc & Mn & Mx & Su).
    assert (0 <= c < 2 ^ 16). { rewrite Rc. rewrite Z.shiftl_0_l, Z.lor_0_l.
      assert (Z.land c1 15 < 16 /\ 0 <= Z.land c1 15). { change 15 with (Z.ones 4). rewrite Z.land_ones by lia. pose proof (Z.mod_pos_bound c1 (2 ^ 4) ltac:(lia)). lia. }
      rewrite <- Z.lor_assoc. apply (lor_shift_bound _ _ 12 16); [change (2 ^ (16 - 12)) with 16; lia| |lia].
      assert (0 <= Z.lor (Z.shiftl c2 6) c3 < 2 ^ 14) by (apply (lor_shift_bound _ _ 6 14); change (2 ^ (14 - 6)) with 256; change (2 ^ 14) with 16384; lia). change (2 ^ 14) with 16384 in *. change (2 ^ 16) with 65536. lia. }
    change (2 ^ 16) with 65536 in *. unfold utf8_ok, clen. replace (c <=? 127) with false by lia. replace (c <=? 2047) with false by lia. replace (c <=? 65535) with true by lia. repeat split; try lia.
    intros k K. assert (k = p \/ k = p + 1 \/ k = S (p + 1))%nat as [->|[->| ->]] by lia; eexists; (split; [eassumption|lia]). }
  assert (G3 := G p i3 ltac:(lia)). destruct (get_cont m p i3) as [[[c4|] i4]| |] eqn:E4; cbn [ubind]; try tauto.
  2: { rewrite (get_cont_none _ _ _ _ E4). exact I. }
  destruct (get_cont_pos _ _ _ _ _ E4) as (P4 & S4 & Er4 & N4 & R4 & Z4). rewrite P3 in N4, P4. rewrite S3 in S4, Z4.
  destruct (c1 <=? 244) eqn:C5; [|exact I].
  destruct (check_valid _ _ _ _ _ _ _) as (c, j) eqn:Ck. destruct (error j) eqn:Ej; [exact I|]. right. destruct (check_ok _ _ _ _ _ _ _ _ _ Ck Ej) as (-> & Rc & Mn & Mx & Su).
  unfold utf8_ok, clen. replace (c <=? 127) with false by lia. replace (c <=? 2047) with false by lia. replace (c <=? 65535) with false by lia. repeat split; try lia.
  intros k K. assert (k = p \/ k = p + 1 \/ k = S (p + 1) \/ k = S (S (p + 1)))%nat as [->|[->|[->| ->]]] by lia; eexists; (split; [eassumption|lia]).
Qed.

(** Encoding *)
Lemma encode_ok n c : utf8_ok c = true -> (clen c <= n)%nat -> exists l, encode n c = UOk l /\ length l = clen c /\ (0 <= c -> forall b, In b l -> b <> 0).
Proof.
  intros U L. unfold encode, clen in *. rewrite U. cbn [negb].
  assert (N0 : forall x y, 0 < x -> Z.lor x y <> 0). { intros x y X. intros E. apply Z.lor_eq_0_iff in E. lia. }
  destruct (c <=? 127) eqn:A; [|destruct (c <=? 2047) eqn:B; [|destruct (c <=? 65535) eqn:C]]; (replace (Nat.ltb n _) with false by (symmetry; apply Nat.ltb_ge; lia)); eexists; (split; [reflexivity|split; [reflexivity|]]); intros P b I; cbn [In] in I.
  1: { destruct I as [<-|[]]. change 127 with (Z.ones 7). rewrite Z.land_ones by lia. change (2 ^ 7) with 128. rewrite Z.mod_small by lia. unfold utf8_ok in U. lia. }
  all: repeat (destruct I as [<-|I]; [apply N0; lia|]); contradiction.
Qed.
Lemma encode_4 n c : utf8_ok c = true -> (clen c <= n)%nat -> encode n c = encode 4 c.
Proof.
  intros U L. unfold encode, clen in *. rewrite U. cbn [negb].
  destruct (c <=? 127) eqn:A; [|destruct (c <=? 2047) eqn:B; [|destruct (c <=? 65535) eqn:C]]; rewrite !(proj2 (Nat.ltb_ge _ _)) by lia; reflexivity.
Qed.
