(** Proofs about strings *)
From Coq Require Import Arith Bool List NArith ZArith Lia ZifyBool.
From Verif Require Import Sieve_model Sieve_spec Sieve_proofs Sieve_proofs2 Color_table Str_model Str_spec.
Import ListNotations.

(** ** character vectors *)
Definition roomy (v : vchar) : Prop := match vdata v with None => vsize v = 0 | Some d => vsize v <= length d end.

Lemma wf_roomy : forall v, wf v -> roomy v.
Proof. intros [[d|] n]; unfold wf, roomy; simpl; intuition lia. Qed.

Lemma grow_loop_ok : forall fuel old a n, (0 < a)%N -> (old <= a)%N -> (n <= 2 ^ 63)%N -> (n <= a * 2 ^ N.of_nat fuel)%N ->
  (old < n)%N -> (a <= 2 ^ 64)%N ->
  exists r, grow_loop (S fuel) old a n = Ok r /\ (n <= r)%N /\ (a <= r)%N.
Proof.
  induction fuel as [|fuel IH]; intros old a n Ha Ho Hn Hf Hx Ha2; cbn [grow_loop].
  - destruct (N.ltb_spec a n); [|exists a; split; [reflexivity|lia]]. change (2 ^ N.of_nat 0)%N with 1%N in Hf. lia.
  - destruct (N.ltb_spec a n) as [L|L]; [|exists a; split; [reflexivity|lia]].
    assert (E : (a * 2 mod 2 ^ 64 = a * 2)%N) by (apply N.mod_small; lia). rewrite E.
    destruct (N.ltb_spec old (a * 2)); [|lia].
    replace (N.of_nat (S fuel)) with (N.succ (N.of_nat fuel)) in Hf by lia. rewrite N.pow_succ_r' in Hf.
    destruct (IH old (a * 2)%N n) as (r & E1 & E2 & E3); try lia.
    exists r. split; [exact E1|lia].
Qed.

Lemma v_grow_ok : forall junk v n, roomy v -> (N.of_nat n <= 2 ^ 63)%N ->
  exists v', v_grow junk v n = Ok v' /\ n <= alloc v' /\ alloc v <= alloc v' /\ vsize v' = vsize v /\ roomy v'
  /\
  ((n <= alloc v /\ v' = v) \/ exists e, vdata v' = Some (match vdata v with None => [] | Some d => d end ++ e)).
Proof.
  intros junk v n R B. unfold v_grow. destruct (Nat.leb_spec n (alloc v)) as [L|L].
  - exists v. split; [reflexivity|]. split; [auto|]. split; [auto|]. split; [auto|]. split; [auto|].
    left; auto.
  - set (na := if alloc v <? 4 then 4 else alloc v).
    assert (Hna : 0 < na /\ alloc v <= na /\ 4 <= na /\ na <= alloc v + 4) by (unfold na; destruct (Nat.ltb_spec (alloc v) 4); lia).
    destruct (grow_loop_ok 65 (N.of_nat (alloc v)) (N.of_nat na) (N.of_nat n)) as (a & E & E1 & E2); try lia.
    rewrite E. eexists. split; [reflexivity|].
    assert (LA : forall x, length (match vdata v with None => [] | Some d => d end ++ map junk (seq x (N.to_nat a - alloc v))) = N.to_nat a).
    { intros x. rewrite app_length, map_length, seq_length. unfold alloc in *. clear E. destruct (vdata v); cbn [length] in *; lia. }
    assert (EL : length (match vdata v with None => [] | Some d => d end) = alloc v) by (unfold alloc; destruct (vdata v); reflexivity).
    unfold alloc at 1 3. unfold roomy at 1. cbn [vdata vsize]. rewrite !EL, !LA.
    split; [lia|]. split; [lia|]. split; [reflexivity|]. split.
    { unfold roomy, alloc in *. clear E. destruct (vdata v); cbn [length] in *; lia. }
    right; eexists; reflexivity.
Qed.

Lemma put_at_ok : forall v i xs d, vdata v = Some d -> i + length xs <= length d ->
  put_at v i xs = Ok (mk_vchar (Some (firstn i d ++ xs ++ skipn (i + length xs) d)) (vsize v)).
Proof.
  intros v i xs d E L. unfold put_at. rewrite E. destruct (Nat.leb_spec (i + length xs) (length d)); [reflexivity|lia].
Qed.
Lemma put_length : forall (d xs : list nat) i, i + length xs <= length d -> length (firstn i d ++ xs ++ skipn (i + length xs) d) = length d.
Proof. intros. rewrite !app_length, firstn_length, skipn_length. lia. Qed.

Lemma grow_content : forall v v', vsize v' = vsize v -> roomy v ->
  (v' = v \/ exists e, vdata v' = Some (match vdata v with None => [] | Some d => d end ++ e)) -> content v' = content v.
Proof.
  intros v v' E R [->|(e & H)]; [reflexivity|]. unfold content. rewrite H, E. unfold roomy in R.
  destruct (vdata v) as [d|].
  - rewrite firstn_app. replace (vsize v - length d) with 0 by lia. simpl. apply app_nil_r.
  - rewrite R. reflexivity.
Qed.

Lemma append_ok : forall junk v d, roomy v -> (N.of_nat (vsize v + length d + 1) <= 2 ^ 63)%N ->
  exists v', vchar_append_arr junk v d = Ok v' /\ wf v' /\ content v' = content v ++ d /\ vsize v' = vsize v + length d /\ vdata v' <> None.
Proof.
  intros junk v d R B. unfold vchar_append_arr.
  destruct (v_grow_ok junk v _ R B) as (v1 & E & G1 & G2 & G3 & G4 & G5). rewrite E.
  assert (C1 : content v1 = content v) by (apply grow_content; auto; tauto).
  destruct (vdata v1) as [d1|] eqn:D1; [|unfold alloc in G1; rewrite D1 in G1; lia].
  unfold alloc in G1; rewrite D1 in G1.
  rewrite (put_at_ok v1 (vsize v1) d d1 D1) by lia.
  unfold with_size. cbn [vdata vsize].
  set (d2 := firstn (vsize v1) d1 ++ d ++ skipn (vsize v1 + length d) d1).
  assert (L2 : length d2 = length d1) by (apply put_length; lia).
  rewrite (put_at_ok _ _ _ d2) by (simpl; auto; lia). cbn [vsize length].
  eexists. split; [reflexivity|].
  assert (F2 : firstn (vsize v1 + length d) d2 = firstn (vsize v1) d1 ++ d).
  { unfold d2. rewrite app_assoc, firstn_app.
    rewrite firstn_all2 by (rewrite app_length, firstn_length; lia).
    rewrite app_length, firstn_length. replace (_ - _) with 0 by lia. simpl. apply app_nil_r. }
  unfold wf, content. cbn [vdata vsize].
  split; [split|].
  - rewrite (put_length d2 [0]) by (simpl; lia). lia.
  - rewrite nth_error_app2 by (rewrite firstn_length; lia). rewrite firstn_length.
    replace (_ - _) with 0 by lia. reflexivity.
  - split; [|split; [lia|discriminate]].
    rewrite firstn_app. rewrite firstn_firstn, Nat.min_id, firstn_length, F2.
    replace (vsize v1 + length d - _) with 0 by lia. simpl. rewrite app_nil_r.
    unfold content in C1. rewrite D1 in C1. rewrite C1. reflexivity.
Qed.

Lemma clear_ok : forall v, wf v -> exists v', vchar_clear v = Ok v' /\ wf v' /\ content v' = [] /\ vsize v' = 0.
Proof.
  intros v W. unfold vchar_clear. destruct (Nat.eqb_spec (vsize v) 0) as [E|E].
  - exists v. split; [reflexivity|]. split; [auto|]. split; [|auto]. unfold content. rewrite E. destruct (vdata v); reflexivity.
  - unfold wf in W. destruct (vdata v) as [d|] eqn:D; [|lia]. destruct W as (W1 & W2).
    rewrite (put_at_ok _ _ _ d) by (simpl; auto; lia). eexists. split; [reflexivity|].
    unfold wf, content. cbn [vdata vsize with_size firstn app length plus]. simpl.
    split; [|auto]. split; [lia|reflexivity].
Qed.

Lemma cstr_ok : forall junk v, wf v -> exists v', vchar_cstr junk v = Ok v' /\ wf v' /\ content v' = content v /\ vsize v' = vsize v
  /\ exists rest, vdata v' = Some (content v ++ 0 :: rest).
Proof.
  intros junk v W.
  assert (Z : forall v, wf v -> vdata v <> None -> exists rest, vdata v = Some (content v ++ 0 :: rest)).
  { intros v0 W0 N. unfold wf, content in *. destruct (vdata v0) as [d|]; [|congruence]. destruct W0 as (W1 & W2).
    exists (skipn (S (vsize v0)) d). f_equal. rewrite <- (firstn_skipn (vsize v0) d) at 1. f_equal.
    revert W2. generalize (vsize v0). clear. induction d as [|a d IH]; intros [|n] H; simpl in *; try discriminate; [congruence|auto]. }
  unfold vchar_cstr. destruct (Nat.eqb_spec (vsize v) 0) as [E|E].
  - unfold vchar_push. destruct (append_ok junk v [0] (wf_roomy v W)) as (v1 & E1 & W1 & C1 & S1 & N1).
    { rewrite E. vm_compute. discriminate. }
    rewrite E1. eexists. split; [reflexivity|].
    assert (C0 : content v = []) by (unfold content; rewrite E; destruct (vdata v); reflexivity).
    rewrite C0 in *. simpl in C1, S1. rewrite E in S1. simpl in S1.
    assert (D1 : exists rest, vdata v1 = Some (0 :: rest)).
    { unfold content in C1. destruct (vdata v1) as [d|]; [|congruence]. rewrite S1 in C1. destruct d as [|a d]; [discriminate|].
      simpl in C1. inversion C1. subst. eauto. }
    destruct D1 as (rest & D1).
    unfold wf, content, with_size. cbn [vdata vsize]. rewrite D1. simpl.
    split; [split; [lia|reflexivity]|]. split; [reflexivity|]. split; [auto|]. exists rest. reflexivity.
  - exists v. split; [reflexivity|]. split; [auto|]. split; [auto|]. split; [auto|]. apply Z; auto.
    unfold wf in W. destruct (vdata v); [discriminate|congruence].
Qed.

Lemma pop_ok : forall v l c, wf v -> content v = l ++ [c] -> exists v', vchar_pop v = Ok (c, v') /\ wf v' /\ content v' = l /\ S (vsize v') = vsize v.
Proof.
  intros v l c W C. unfold vchar_pop.
  assert (vsize v <> 0).
  { intros E. unfold content in C. rewrite E in C. destruct (vdata v); destruct l; discriminate. }
  destruct (Nat.eqb_spec (vsize v) 0); [congruence|]. unfold with_size. cbn [vdata vsize].
  unfold wf, content in *. destruct (vdata v) as [d|] eqn:D; [|congruence]. destruct W as (W1 & W2).
  assert (LL : length l = vsize v - 1).
  { apply (f_equal (@length nat)) in C. rewrite firstn_length, app_length in C. simpl in C. lia. }
  assert (N : nth_error d (vsize v - 1) = Some c).
  { rewrite <- (firstn_skipn (vsize v) d), C, <- LL. rewrite nth_error_app1 by (rewrite app_length; simpl; lia).
    rewrite nth_error_app2 by lia. rewrite Nat.sub_diag. reflexivity. }
  rewrite N. rewrite (put_at_ok _ _ _ d) by (simpl; auto; lia). cbn [vsize length].
  eexists. split; [reflexivity|]. cbn [vdata vsize].
  split; [split|].
  - rewrite (put_length d [0]) by (simpl; lia). lia.
  - rewrite nth_error_app2 by (rewrite firstn_length; lia). rewrite firstn_length.
    replace (vsize v - 1 - Nat.min (vsize v - 1) (length d)) with 0 by lia. reflexivity.
  - split; [|lia]. rewrite firstn_app, firstn_firstn, Nat.min_id, firstn_length.
    replace (vsize v - 1 - _) with 0 by lia. simpl. rewrite app_nil_r.
    replace (firstn (vsize v - 1) d) with (firstn (vsize v - 1) (firstn (vsize v) d)) by (rewrite firstn_firstn; f_equal; lia).
    rewrite C, <- LL. rewrite firstn_app, Nat.sub_diag, firstn_all. simpl. apply app_nil_r.
Qed.

Lemma try_ok : forall v text d, vdata v = Some d -> vsize v < length d ->
  exists r v1, vprintf_try v text = Ok (r, v1) /\
  if length text <? length d - vsize v
  then exists v2, r = Some v2 /\ wf v2 /\ content v2 = content v ++ text /\ vsize v2 = vsize v + length text
  else r = None /\ content v1 = content v /\ vsize v1 = vsize v /\ exists d1, vdata v1 = Some d1 /\ length d1 = length d.
Proof.
  intros v text d D L. unfold vprintf_try, alloc. rewrite D.
  assert (LO : length (snprintf_out (length d - vsize v) text) = Nat.min (length d - vsize v) (length text + 1)).
  { unfold snprintf_out. destruct (Nat.eqb_spec (length d - vsize v) 0); [lia|]. rewrite app_length, firstn_length. simpl. lia. }
  rewrite (put_at_ok _ _ _ d) by (auto; lia). unfold with_size. cbn [vdata vsize].
  set (o := snprintf_out (length d - vsize v) text) in *.
  assert (LP : length (firstn (vsize v) d ++ o ++ skipn (vsize v + length o) d) = length d) by (apply put_length; lia).
  destruct (Nat.ltb_spec (length text) (length d - vsize v)) as [T|T].
  - rewrite LP. destruct (Nat.ltb_spec (vsize v + length text) (length d)); [|lia].
    eexists _, _. split; [reflexivity|]. eexists. split; [reflexivity|].
    assert (EO : o = text ++ [0]).
    { unfold o, snprintf_out. destruct (Nat.eqb_spec (length d - vsize v) 0); [lia|]. rewrite firstn_all2 by lia. reflexivity. }
    unfold wf, content. cbn [vdata vsize]. rewrite LP, D.
    assert (F : firstn (vsize v) d ++ o ++ skipn (vsize v + length o) d
      = (firstn (vsize v) d ++ text) ++ 0 :: skipn (vsize v + length o) d).
    { rewrite EO at 1. rewrite <- !app_assoc. reflexivity. }
    rewrite F. split; [split; [lia|]|split; [|reflexivity]].
    + rewrite nth_error_app2 by (rewrite app_length, firstn_length; lia). rewrite app_length, firstn_length.
      replace (_ - _) with 0 by lia. reflexivity.
    + rewrite firstn_app. rewrite firstn_all2 by (rewrite app_length, firstn_length; lia).
      rewrite app_length, firstn_length. replace (_ - _) with 0 by lia. simpl. apply app_nil_r.
  - eexists _, _. split; [reflexivity|]. split; [reflexivity|]. cbn [vsize vdata]. split; [|split; [reflexivity|eauto]].
    unfold content. cbn [vdata vsize]. rewrite D, firstn_app, firstn_firstn, Nat.min_id, firstn_length.
    replace (vsize v - _) with 0 by lia. simpl. apply app_nil_r.
Qed.

Lemma vprintf_ok : forall junk v text, wf v -> (N.of_nat (vsize v + length text + 1) <= 2 ^ 63)%N ->
  exists v', vchar_vprintf junk v text = Ok v' /\ wf v' /\ content v' = content v ++ text /\ vsize v' = vsize v + length text.
Proof.
  intros junk v text W B. unfold vchar_vprintf.
  destruct (v_grow_ok junk v 1 (wf_roomy v W)) as (v1 & E & G1 & G2 & G3 & G4 & G5); [vm_compute; discriminate|].
  rewrite E.
  assert (C1 : content v1 = content v) by (apply grow_content; auto; [apply wf_roomy; auto|tauto]).
  assert (exists d1, vdata v1 = Some d1 /\ vsize v1 < length d1) as (d1 & D1 & L1).
  { unfold alloc in *. destruct (vdata v1) as [d1|]; [|lia]. exists d1. split; [reflexivity|].
    unfold wf in W. destruct (vdata v); [|lia]. lia. }
  destruct (try_ok v1 text d1 D1 L1) as (r & v2 & T & P).
  cbn [vprintf_loop]. rewrite T.
  destruct (Nat.ltb_spec (length text) (length d1 - vsize v1)) as [F|F].
  - destruct P as (v3 & -> & P1 & P2 & P3). exists v3. split; [reflexivity|]. rewrite P2, P3, C1, G3. auto.
  - destruct P as (-> & P1 & P2 & d2 & D2 & L2).
    destruct (Nat.eqb_spec (length text) 0); [lia|].
    destruct (v_grow_ok junk v2 (vsize v2 + length text + 1)) as (v3 & E3 & H1 & H2 & H3 & H4 & H5).
    { unfold roomy. rewrite D2. lia. }
    { rewrite P2, G3. exact B. }
    rewrite E3.
    assert (C3 : content v3 = content v2) by (apply grow_content; auto; [unfold roomy; rewrite D2; lia|tauto]).
    assert (exists d3, vdata v3 = Some d3 /\ vsize v2 + length text + 1 <= length d3) as (d3 & D3 & L3).
    { unfold alloc in H1. destruct (vdata v3) as [d3|]; [eauto|lia]. }
    destruct (try_ok v3 text d3 D3) as (r & v4 & T4 & P4); [lia|]. rewrite T4.
    destruct (Nat.ltb_spec (length text) (length d3 - vsize v3)) as [F4|F4]; [|lia].
    destruct P4 as (v5 & -> & Q1 & Q2 & Q3). exists v5. split; [reflexivity|].
    rewrite Q2, C3, P1, C1, Q3, H3, P2, G3. auto.
Qed.

(** sequences of calls *)
Lemma content_size : forall v, wf v -> length (content v) = vsize v.
Proof.
  intros v W. unfold wf, content in *. destruct (vdata v); [|auto]. rewrite firstn_length. lia.
Qed.

Lemma exec_ok : forall junk o v, wf v -> (N.of_nat (vsize v + op_len o + 1) <= 2 ^ 63)%N ->
  match sexec (sop_of o) (content v) with
  | Some s => exists v', exec junk o v = Ok v' /\ wf v' /\ content v' = s /\ vsize v' <= vsize v + op_len o
  | None => exec junk o v = Err AssertFails
  end.
Proof.
  intros junk o v W B. destruct o as [d|c| | | |t|]; cbn [sop_of sexec exec op_len] in *.
  - destruct (append_ok junk v d (wf_roomy v W) B) as (v' & E & H1 & H2 & H3 & _). exists v'. rewrite H3. auto.
  - destruct (append_ok junk v [c] (wf_roomy v W) B) as (v' & E & H1 & H2 & H3 & _). exists v'. rewrite H3. simpl. auto.
  - destruct (clear_ok v W) as (v' & E & H1 & H2 & H3). exists v'. rewrite H3. split; auto. split; auto. split; auto. lia.
  - destruct (cstr_ok junk v W) as (v' & E & H1 & H2 & H3 & _). exists v'. rewrite H3. split; auto. split; auto. split; auto. lia.
  - destruct (content v) as [|a s] eqn:C.
    + unfold vchar_pop. rewrite <- (content_size v W), C. reflexivity.
    + destruct (@exists_last _ (a :: s)) as (l & c & E); [discriminate|]. rewrite E in *.
      destruct (pop_ok v l c W C) as (v' & E' & H1 & H2 & H3). exists v'. rewrite E'.
      rewrite removelast_last. split; auto. split; auto. split; auto. lia.
  - destruct (vprintf_ok junk v t W B) as (v' & E & H1 & H2 & H3). exists v'. rewrite H3. auto.
  - exists (vchar_fini v). split; [reflexivity|]. split; [reflexivity|]. split; [reflexivity|]. simpl. lia.
Qed.
Lemma exec_all_ok : forall junk l v, wf v -> (N.of_nat (vsize v + list_sum (map op_len l) + 1) <= 2 ^ 63)%N ->
  match sexec_all (map sop_of l) (content v) with
  | Some s => exists v', exec_all junk l v = Ok v' /\ wf v' /\ content v' = s
  | None => exec_all junk l v = Err AssertFails
  end.
Proof.
  intros junk l. induction l as [|o l IH]; intros v W B; cbn [map sexec_all exec_all].
  - exists v. auto.
  - cbn [map] in B. change (list_sum (op_len o :: map op_len l)) with (op_len o + list_sum (map op_len l)) in B.
    pose proof (exec_ok junk o v W ltac:(lia)) as X.
    destruct (sexec (sop_of o) (content v)) as [s|].
    + destruct X as (v' & E & W' & C & L). rewrite E. subst s. apply IH; auto. lia.
    + rewrite X. reflexivity.
Qed.

(** ** unquote *)
Fixpoint unq (s : list nat) : option (list nat) :=
  match s with
  | [] => Some []
  | c :: s =>
    if c =? BACKSLASH then
      match s with
      | [] => None
      | d :: s => match escape d with Some x => option_map (cons x) (unq s) | None => None end
      end
    else option_map (cons c) (unq s)
  end.
Lemma unquote_loop_ok : forall junk n s v, length s <= n -> roomy v -> (N.of_nat (vsize v + length s + 1) <= 2 ^ 63)%N ->
  (s = [] -> wf v) ->
  match unq s with
  | Some r => exists v', unquote_loop junk v s = Ok (true, v') /\ wf v' /\ content v' = content v ++ r
  | None => exists v', unquote_loop junk v s = Ok (false, v')
  end.
Proof.
  intros junk n. induction n as [|n IH]; intros s v Ln R B Z.
  { destruct s; [|simpl in Ln; lia]. simpl. exists v. rewrite app_nil_r. auto. }
  destruct s as [|c s]; [simpl; exists v; rewrite app_nil_r; auto|].
  cbn [unq unquote_loop]. cbn [length] in *. destruct (c =? BACKSLASH).
  - destruct s as [|d s]; [eauto|]. destruct (escape d) as [x|]; [|eauto]. cbn [length] in *.
    destruct (append_ok junk v [x] R) as (v' & E & H1 & H2 & H3 & _); [simpl; lia|]. unfold vchar_push. rewrite E.
    specialize (IH s v' ltac:(lia) (wf_roomy _ H1)). simpl in H3. specialize (IH ltac:(lia) (fun _ => H1)).
    destruct (unq s); [|exact IH]. destruct IH as (v'' & I1 & I2 & I3). exists v''. rewrite I3, H2, <- app_assoc. auto.
  - destruct (append_ok junk v [c] R) as (v' & E & H1 & H2 & H3 & _); [simpl; lia|]. unfold vchar_push. rewrite E.
    specialize (IH s v' ltac:(lia) (wf_roomy _ H1)). simpl in H3. specialize (IH ltac:(lia) (fun _ => H1)).
    destruct (unq s); [|exact IH]. destruct IH as (v'' & I1 & I2 & I3). exists v''. rewrite I3, H2, <- app_assoc. auto.
Qed.

Lemma escape_cases : forall d x, escape d = Some x ->
  (d = 92 /\ x = 92) \/ (d = 34 /\ x = 34) \/ (d = 116 /\ x = 9) \/ (d = 110 /\ x = 10) \/ (d = 114 /\ x = 13).
Proof.
  intros d x. unfold escape, BACKSLASH, QUOTE.
  destruct (Nat.eqb_spec d 92); [intros E; inversion E; auto|].
  destruct (Nat.eqb_spec d 34); [intros E; inversion E; auto|].
  destruct (Nat.eqb_spec d 116); [intros E; inversion E; auto|].
  destruct (Nat.eqb_spec d 110); [intros E; inversion E; auto 6|].
  destruct (Nat.eqb_spec d 114); [intros E; inversion E; auto 7|discriminate].
Qed.
Lemma unq_denotes : forall q s, unq q = Some s <-> denotes q s.
Proof.
  intros q s. split.
  - revert s. assert (G : forall n q s, length q <= n -> unq q = Some s -> denotes q s).
    { induction n as [|n IH]; intros q' s L E.
      { destruct q'; [|simpl in L; lia]. inversion E. constructor. }
      destruct q' as [|c q']; [inversion E; constructor|]. cbn [unq length] in *. unfold BACKSLASH in E.
      destruct (Nat.eqb_spec c 92) as [->|N].
      - destruct q' as [|d q']; [discriminate|]. cbn [length] in L.
        destruct (escape d) as [x|] eqn:Ex; [|discriminate].
        destruct (unq q') as [s'|] eqn:Eq; [|discriminate]. simpl in E. inversion E; subst.
        specialize (IH q' s' ltac:(lia) Eq).
        apply escape_cases in Ex. destruct Ex as [[-> ->]|[[-> ->]|[[-> ->]|[[-> ->]|[-> ->]]]]].
        + apply den_backslash; auto.
        + apply den_quote; auto.
        + apply den_t; auto.
        + apply den_n; auto.
        + apply den_r; auto.
      - destruct (unq q') as [s'|] eqn:Eq; [|discriminate]. simpl in E. inversion E; subst. constructor; auto.
        apply IH; auto. lia. }
    intros s E. eapply G; eauto.
  - induction 1 as [|c q s N D IH|q s D IH|q s D IH|q s D IH|q s D IH|q s D IH]; [reflexivity| | | | | |].
    { cbn [unq]. unfold BACKSLASH. destruct (Nat.eqb_spec c 92); [contradiction|]. rewrite IH. reflexivity. }
    all: cbn [unq]; unfold BACKSLASH; cbn [Nat.eqb]; simpl escape; rewrite IH; reflexivity.
Qed.
Lemma denotes_app : forall q s q' s', denotes q s -> denotes q' s' -> denotes (q ++ q') (s ++ s').
Proof. intros q s q' s' H H'. induction H; simpl; auto; [apply den_char|apply den_backslash|apply den_quote|apply den_t|apply den_n|apply den_r]; auto. Qed.
Lemma denotes_quote : forall s, denotes (quote s) s.
Proof.
  induction s as [|c s IH]; [constructor|]. change (quote (c :: s)) with (quote1 c ++ quote s).
  change (c :: s) with ([c] ++ s). apply denotes_app; auto.
  destruct (Nat.eq_dec c 92) as [->|N1]; [apply den_backslash; constructor|].
  destruct (Nat.eq_dec c 34) as [->|N2]; [apply den_quote; constructor|].
  destruct (Nat.eq_dec c 9) as [->|N3]; [apply den_t; constructor|].
  destruct (Nat.eq_dec c 10) as [->|N4]; [apply den_n; constructor|].
  destruct (Nat.eq_dec c 13) as [->|N5]; [apply den_r; constructor|].
  replace (quote1 c) with [c]; [apply den_char; [auto|constructor]|].
  unfold quote1. do 93 (destruct c as [|c]; [try reflexivity; congruence|]). reflexivity.
Qed.

Lemma unquote_ok : forall junk v s, wf v -> (N.of_nat (vsize v + length s + 1) <= 2 ^ 63)%N ->
  (exists r v', denotes s r /\ string_unquote junk v s = Ok (true, v') /\ wf v' /\ content v' = content v ++ r)
  \/ ((forall r, ~ denotes s r) /\ exists v', string_unquote junk v s = Ok (false, v')).
Proof.
  intros junk v s W B. unfold string_unquote.
  destruct (cstr_ok junk v W) as (v1 & E & W1 & C1 & S1 & _). rewrite E.
  pose proof (unquote_loop_ok junk (length s) s v1 (le_n _) (wf_roomy _ W1)) as U. rewrite S1 in U.
  specialize (U B (fun _ => W1)). destruct (unq s) as [r|] eqn:Q.
  - left. destruct U as (v' & U1 & U2 & U3). exists r, v'. rewrite C1 in U3. split; auto. apply unq_denotes; auto.
  - right. split; auto. intros r D. apply unq_denotes in D. congruence.
Qed.

(** ** colours *)
Lemma digit_spec : forall c d, digit c = Some d <-> is_digit c d.
Proof.
  intros c d. unfold is_digit.
  destruct (le_lt_dec 103 c) as [L|L].
  - split.
    + unfold digit. intros E. destruct ((48 <=? c) && (c <=? 57)) eqn:X1; [lia|].
      destruct ((97 <=? c) && (c <=? 102)) eqn:X2; [lia|]. destruct ((65 <=? c) && (c <=? 70)) eqn:X3; [lia|discriminate].
    + intros I. unfold hex_digits in I. simpl in I. exfalso.
      repeat (destruct I as [I|I]; [inversion I; lia|]). destruct I.
  - split.
    + assert (A : forallb (fun c => match digit c with
          | Some d => existsb (fun e => (fst e =? c) && (snd e =? d)%N) hex_digits
          | None => true end) (seq 0 103) = true) by reflexivity.
      rewrite forallb_forall in A. specialize (A c ltac:(apply in_seq; lia)). intros E. rewrite E in A.
      apply existsb_exists in A. destruct A as ([c' d'] & I & X). simpl in X. apply andb_prop in X. destruct X as (X1 & X2).
      apply Nat.eqb_eq in X1. apply N.eqb_eq in X2. subst. exact I.
    + intros I. unfold hex_digits in I. simpl in I.
      repeat (destruct I as [I|I]; [inversion I; reflexivity|]). destruct I.
Qed.
Lemma digit_lt : forall c d, digit c = Some d -> (d < 16)%N.
Proof.
  intros c d. unfold digit. destruct ((48 <=? c) && (c <=? 57)) eqn:X1; [intros E; inversion E; lia|].
  destruct ((97 <=? c) && (c <=? 102)) eqn:X2; [intros E; inversion E; lia|].
  destruct ((65 <=? c) && (c <=? 70)) eqn:X3; [intros E; inversion E; lia|discriminate].
Qed.

Lemma land_pow : forall x n, N.land x (N.ones n) = (x mod 2 ^ n)%N.
Proof. intros. apply N.land_ones. Qed.

Lemma hex_named : forall find old name, hd 0 name = 35 ->
  (exists c, hex_color name c /\ color_by_name find old name = Ok (true, c))
  \/ ((forall c, ~ hex_color name c) /\ color_by_name find old name = Ok (false, old)).
Proof.
  intros find old name H. unfold color_by_name. rewrite H. cbn [Nat.eqb].
  destruct name as [|x name]; [discriminate|]. simpl in H. subst x. cbn [tl length].
  destruct (Nat.eqb_spec (length name) 3) as [L3|L3].
  - destruct name as [|r [|g [|b [|? ?]]]]; try discriminate. cbn [Nat.eqb negb andb hex_loop length].
    destruct (digit r) as [r'|] eqn:Er; [destruct (digit g) as [g'|] eqn:Eg; [destruct (digit b) as [b'|] eqn:Eb|]|].
    { pose proof (digit_lt _ _ Er). pose proof (digit_lt _ _ Eg). pose proof (digit_lt _ _ Eb).
      left. exists (r' * 17, g' * 17, b' * 17)%N. split; [constructor; apply digit_spec; auto|].
      rewrite (N.mod_small (0 * 16 + r')) by lia. rewrite (N.mod_small ((0 * 16 + r') * 16 + g')) by lia.
      rewrite (N.mod_small (((0 * 16 + r') * 16 + g') * 16 + b')) by lia.
      change 15%N with (N.ones 4). rewrite !land_pow, !N.shiftr_div_pow2.
      change (2 ^ 8)%N with 256%N. change (2 ^ 4)%N with 16%N.
      f_equal. f_equal. f_equal; [f_equal|]; f_equal.
      all: zify; Z.to_euclidean_division_equations; lia. }
    all: right; split; [|reflexivity]; intros c I; inversion I; subst;
      repeat match goal with X : is_digit _ _ |- _ => apply digit_spec in X end; congruence.
  - destruct (Nat.eqb_spec (length name) 6) as [L6|L6].
    + destruct name as [|r [|s [|g [|t [|b [|u [|? ?]]]]]]]; try discriminate. cbn [Nat.eqb negb andb hex_loop length].
      destruct (digit r) as [r'|] eqn:Er; [destruct (digit s) as [s'|] eqn:Es; [destruct (digit g) as [g'|] eqn:Eg;
        [destruct (digit t) as [t'|] eqn:Et; [destruct (digit b) as [b'|] eqn:Eb; [destruct (digit u) as [u'|] eqn:Eu|]|]|]|]|].
      { pose proof (digit_lt _ _ Er). pose proof (digit_lt _ _ Eg). pose proof (digit_lt _ _ Eb).
        pose proof (digit_lt _ _ Es). pose proof (digit_lt _ _ Et). pose proof (digit_lt _ _ Eu).
        left. exists (r' * 16 + s', g' * 16 + t', b' * 16 + u')%N. split; [constructor; apply digit_spec; auto|].
        rewrite (N.mod_small (0 * 16 + r')) by lia.
        rewrite (N.mod_small ((0 * 16 + r') * 16 + s')) by lia.
        rewrite (N.mod_small (((0 * 16 + r') * 16 + s') * 16 + g')) by lia.
        rewrite (N.mod_small ((((0 * 16 + r') * 16 + s') * 16 + g') * 16 + t')) by lia.
        rewrite (N.mod_small (((((0 * 16 + r') * 16 + s') * 16 + g') * 16 + t') * 16 + b')) by lia.
        rewrite (N.mod_small ((((((0 * 16 + r') * 16 + s') * 16 + g') * 16 + t') * 16 + b') * 16 + u')) by lia.
        unfold split_rgb. change 255%N with (N.ones 8). rewrite !land_pow, !N.shiftr_div_pow2.
        change (2 ^ 8)%N with 256%N. change (2 ^ 16)%N with 65536%N.
        f_equal. f_equal. f_equal; [f_equal|].
        all: zify; Z.to_euclidean_division_equations; lia. }
      all: right; split; [|reflexivity]; intros c I; inversion I; subst;
        repeat match goal with X : is_digit _ _ |- _ => apply digit_spec in X end; congruence.
    + right. split.
      { intros c I. inversion I; subst; simpl in *; congruence. }
      destruct (Nat.eqb_spec (S (length name)) 4); [lia|]. destruct (Nat.eqb_spec (S (length name)) 7); [lia|]. reflexivity.
Qed.

Lemma split_rgb_ok : forall v, let '(r, g, b) := split_rgb v in
  (v mod 2 ^ 24 = r * 65536 + g * 256 + b /\ r < 256 /\ g < 256 /\ b < 256)%N.
Proof.
  intros v. unfold split_rgb. change 255%N with (N.ones 8). rewrite !land_pow, !N.shiftr_div_pow2.
  change (2 ^ 8)%N with 256%N. change (2 ^ 16)%N with 65536%N. change (2 ^ 24)%N with 16777216%N.
  zify; Z.to_euclidean_division_equations; lia.
Qed.

(** the table *)
Lemma color_table_ok : exists t, generate color_names = Some t /\
  forall k x, (forall c, In c k -> c < 256) ->
    find t (k ++ x) (length k) = match assoc k color_names with Some v => Hit v | None => Miss end.
Proof.
  apply generate_find.
  - apply has_dup_false. vm_compute. reflexivity.
  - assert (A : forallb (fun e => forallb (fun c => (c <? 256) && negb (c =? 10)) (fst e)) color_names = true) by (vm_compute; reflexivity).
    intros k v c I J. rewrite forallb_forall in A. specialize (A _ I). simpl in A.
    rewrite forallb_forall in A. specialize (A _ J). lia.
  - vm_compute. reflexivity.
Qed.
Lemma color_find_ok : forall k x, (forall c, In c k -> c < 256) ->
  color_find (k ++ x) (length k) = match assoc k color_names with Some v => Hit v | None => Miss end.
Proof.
  intros k x H. unfold color_find. destruct color_table_ok as (t & E & F). rewrite E. apply F. exact H.
Qed.
Lemma by_name : forall old name, hd 0 name <> 35 -> (forall c, In c name -> c < 256) ->
  match assoc name color_names with
  | Some v => exists c, named_color color_names name c /\ color_by_name color_find old name = Ok (true, c)
  | None => color_by_name color_find old name = Err NullDeref
  end.
Proof.
  intros old name H C. unfold color_by_name. destruct (Nat.eqb_spec (hd 0 name) 35); [contradiction|].
  rewrite color_find_ok by exact C.
  destruct (assoc name color_names) as [v|] eqn:E; [|reflexivity].
  exists (split_rgb v). split; [|reflexivity]. exists v. split; [exact E|]. apply split_rgb_ok.
Qed.
