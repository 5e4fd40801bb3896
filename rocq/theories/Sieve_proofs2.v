(** Proofs about the keyword sieve: the tables and the lookup function *)
From Coq Require Import Arith Bool List NArith Lia Permutation Sorted.
From Verif Require Import Sieve_model Sieve_spec Sieve_proofs.
Import ListNotations.

Lemma str_eqb_eq : forall a b, str_eqb a b = true <-> a = b.
Proof.
  induction a as [|x a IH]; intros [|y b]; simpl; try (split; congruence).
  rewrite andb_true_iff, Nat.eqb_eq, IH. split; [intros (-> & ->); auto|intros E; inversion E; auto].
Qed.
Lemma has_dup_false : forall l, has_dup l = false <-> NoDup l.
Proof.
  induction l as [|k l IH]; simpl; [split; constructor|].
  rewrite orb_false_iff, IH. split.
  - intros (H1 & H2). constructor; auto. intros I.
    assert (existsb (str_eqb k) l = true); [|congruence]. apply existsb_exists. exists k. split; auto. apply str_eqb_eq; auto.
  - intros H. inversion H; subst. split; auto. destruct (existsb (str_eqb k) l) eqn:E; auto.
    apply existsb_exists in E. destruct E as (x & I & E). apply str_eqb_eq in E. subst. contradiction.
Qed.

Lemma insert_key_perm : forall A (e : list nat * A) l, Permutation (insert_key e l) (e :: l).
Proof.
  intros A e l. induction l as [|d l IH]; simpl; [reflexivity|].
  destruct (str_lt (fst d) (fst e)); [|reflexivity]. rewrite IH. apply perm_swap.
Qed.
Lemma choice_perm : forall A (l : list (list nat * A)), Permutation (choice_arr l) l.
Proof.
  induction l as [|e l IH]; simpl; [reflexivity|]. unfold choice_arr in *. simpl.
  rewrite insert_key_perm, IH. reflexivity.
Qed.
Lemma assoc_in : forall A (l : list (list nat * A)) k v, NoDup (map fst l) -> In (k, v) l -> assoc k l = Some v.
Proof.
  induction l as [|[k' v'] l IH]; intros k v N I; [destruct I|].
  inversion N; subst. simpl. destruct (list_eq_dec Nat.eq_dec k' k) as [->|Ne].
  - destruct I as [I|I]; [congruence|]. exfalso. apply H1. apply in_map_iff. exists (k, v). auto.
  - destruct I as [I|I]; [congruence|]. auto.
Qed.
Lemma assoc_none : forall A (l : list (list nat * A)) k, (forall v, ~ In (k, v) l) -> assoc k l = None.
Proof.
  induction l as [|[k' v'] l IH]; intros k N; simpl; auto.
  destruct (list_eq_dec Nat.eq_dec k' k) as [->|Ne]; [exfalso; apply (N v'); left; auto|].
  apply IH. intros v I. apply (N v). right; auto.
Qed.

Lemma choice_set_in_gen : forall A (l : list (list nat * A)) n k v,
  In (k, v) (combine (map fst l) (seq n (length l))) <-> n <= v /\ exists a, nth_error l (v - n) = Some (k, a).
Proof.
  induction l as [|[k' a'] l IH]; intros n k v; simpl.
  - split; [tauto|]. intros (_ & a & H). destruct (v - n); discriminate.
  - rewrite IH. split.
    + intros [E|(L & a & H)].
      * inversion E; subst. split; [lia|]. rewrite Nat.sub_diag. exists a'. reflexivity.
      * split; [lia|]. exists a. replace (v - n) with (S (v - S n)) by lia. exact H.
    + intros (L & a & H). destruct (Nat.eq_dec v n) as [->|Ne].
      * rewrite Nat.sub_diag in H. simpl in H. inversion H; subst. left; auto.
      * right. split; [lia|]. exists a. replace (v - n) with (S (v - S n)) in H by lia. exact H.
Qed.
Lemma choice_set_in : forall A (l : list (list nat * A)) k v,
  In (k, v) (choice_set l) <-> exists a, nth_error l v = Some (k, a).
Proof.
  intros. unfold choice_set. rewrite choice_set_in_gen, Nat.sub_0_r. split; [tauto|]. intros H. split; [lia|auto].
Qed.
Lemma map_fst_combine : forall A B (l : list A) (r : list B), length l = length r -> map fst (combine l r) = l.
Proof. induction l as [|a l IH]; intros [|b r] H; simpl in *; try congruence. f_equal. auto. Qed.
Lemma choice_set_fst : forall A (l : list (list nat * A)), map fst (choice_set l) = map fst l.
Proof. intros. unfold choice_set. apply map_fst_combine. rewrite map_length, seq_length. reflexivity. Qed.
Lemma choice_set_length : forall A (l : list (list nat * A)), length (choice_set l) = length l.
Proof. intros. rewrite <- (map_length fst), choice_set_fst, map_length. reflexivity. Qed.

Lemma trunc_id : forall w x, (N.of_nat x < w)%N -> trunc w x = x.
Proof. intros. unfold trunc. rewrite N.mod_small by auto. apply Nat2N.id. Qed.
Lemma uint_max_ok : forall m w, uint_max m = Some w -> (N.of_nat m < w)%N.
Proof.
  intros m w. unfold uint_max.
  destruct (N.leb_spec (N.of_nat m) (2 ^ 8 - 1)); [intros E; inversion E; lia|].
  destruct (N.leb_spec (N.of_nat m) (2 ^ 16 - 1)); [intros E; inversion E; lia|].
  destruct (N.leb_spec (N.of_nat m) (2 ^ 32 - 1)); [intros E; inversion E; lia|discriminate].
Qed.

Lemma index_of_some : forall c l i n, index_of c l i = Some n -> i <= n /\ nth_error l (n - i) = Some c.
Proof.
  induction l as [|d l IH]; intros i n H; simpl in H; [discriminate|].
  destruct (Nat.eqb_spec d c) as [->|].
  - inversion H; subst. rewrite Nat.sub_diag. split; auto.
  - apply IH in H. destruct H as (H1 & H2). split; [lia|]. replace (n - i) with (S (n - S i)) by lia. exact H2.
Qed.
Lemma index_of_in : forall c l i, In c l -> exists n, index_of c l i = Some n.
Proof.
  induction l as [|d l IH]; intros i I; [destruct I|]. simpl.
  destruct (Nat.eqb_spec d c) as [->|]; [eauto|]. destruct I; [congruence|]. auto.
Qed.
Lemma index_of_notin : forall c l i, ~ In c l -> index_of c l i = None.
Proof.
  induction l as [|d l IH]; intros i I; simpl; auto.
  destruct (Nat.eqb_spec d c) as [->|]; [exfalso; apply I; left; auto|]. apply IH. intros J; apply I; right; auto.
Qed.

(** ** running the automaton *)
Lemma run_final : forall A (t : tables A) st k o, statecnt t <= st -> run t st k o = Some (st, k, o).
Proof.
  intros A t st k o H. destruct k; cbn [run]; (destruct (Nat.ltb_spec st (statecnt t)); [lia|reflexivity]).
Qed.

Section Run.
Variable A : Type.
Variable t : tables A.
Variable sts : list (list (nat * step)).
Variable tk : list nat.
Variable w : N.
Variable keycnt : nat.
Hypothesis SC : statecnt t = length sts.
Hypothesis FI : failidx t = length sts + keycnt.
Hypothesis W : (N.of_nat (failidx t) < w)%N.
Hypothesis C2T : char2tok t = map (fun c => trunc (2 ^ 8) (tok_of tk c)) (seq 0 256).
Hypothesis T2S : tok2step t = map (fun st => trunc w (failidx t) :: map (fun c => trunc w (get_idx (statecnt t) (failidx t) (look c st))) tk) sts.
Hypothesis TK : length tk <= 255.

Lemma char_tok : forall c, c < 256 -> nth_error (char2tok t) c = Some (tok_of tk c).
Proof.
  intros c H. rewrite C2T. erewrite map_nth_error; [|rewrite nth_error_nth' with (d := 0); [|rewrite seq_length; exact H]; reflexivity].
  rewrite seq_nth by exact H. simpl. f_equal. apply trunc_id. change (2 ^ 8)%N with 256%N. unfold tok_of.
  destruct (index_of c tk 0) as [n|] eqn:E; [|lia].
  apply index_of_some in E. destruct E as (_ & E). rewrite Nat.sub_0_r in E.
  assert (n < length tk) by (apply nth_error_Some; congruence). lia.
Qed.
Lemma tok_row : forall i st c, nth_error sts i = Some st -> (~ In c tk -> look c st = NoStep) ->
  exists row, nth_error (tok2step t) i = Some row
  /\ nth_error row (tok_of tk c) = Some (trunc w (get_idx (statecnt t) (failidx t) (look c st))).
Proof.
  intros i st c H HN. rewrite T2S. eexists. split; [apply map_nth_error; exact H|].
  unfold tok_of. destruct (in_dec Nat.eq_dec c tk) as [I|I].
  - destruct (index_of_in c tk 0 I) as (n & E). rewrite E. apply index_of_some in E. destruct E as (_ & E).
    rewrite Nat.sub_0_r in E. simpl. apply (map_nth_error (fun c => trunc w (get_idx (statecnt t) (failidx t) (look c st)))). exact E.
  - rewrite index_of_notin by auto. rewrite HN by auto. reflexivity.
Qed.

(** the result of the run *)
Definition run_res (s : list (list nat * nat)) (k : list nat) (o : nat) (r : nat * list nat * nat) : Prop :=
  let '(st, rest, o') := r in exists m, o' = o + m /\ m <= length k /\ rest = skipn m k /\
  ((st = failidx t /\ forall v, ~ In (k, v) s)
   \/ (exists k' v, st = v + statecnt t /\ In (k', v) s /\ firstn m k' = firstn m k /\ forall v', In (k, v') s -> (k, v') = (k', v))).

Lemma run_step : forall i st c k o, nth_error sts i = Some st -> c < 256 -> (~ In c tk -> look c st = NoStep) ->
  run t i (c :: k) o = run t (trunc w (get_idx (statecnt t) (failidx t) (look c st))) k (S o).
Proof.
  intros i st c k o Ns Hc HN. assert (Li : i < length sts) by (apply nth_error_Some; congruence).
  cbn [run]. destruct (Nat.ltb_spec i (statecnt t)); [|lia].
  rewrite char_tok by auto. destruct (tok_row i st c Ns HN) as (row & E1 & E2). rewrite E1, E2. reflexivity.
Qed.

Lemma run_ok : forall h D i s k o n, Rep h D sts tk i s -> all_len n s -> 2 <= length s -> NoDup (map fst s) -> length k = n ->
  (forall c, In c k -> c < 256) -> (forall k' v, In (k', v) s -> v < keycnt) ->
  exists r, run t i k o = Some r /\ run_res s k o r.
Proof.
  induction h as [|h IH]; intros D i s k o n R AL L2 ND Lk Kc V; [destruct R|].
  destruct R as (_ & st & Ns & R).
  destruct k as [|c k].
  { exfalso. simpl in Lk. subst n. pose proof (nodup_len0 s AL ND). lia. }
  simpl in Lk. destruct n as [|n]; [discriminate|]. injection Lk as Lk.
  specialize (R c).
  assert (HN : ~ In c tk -> look c st = NoStep).
  { intros I. destruct (sub c s) as [|[r v] [|y e]]; [auto|tauto|]. destruct R as (j & _ & J & _). contradiction. }
  rewrite (run_step i st c k o Ns (Kc c (or_introl eq_refl)) HN).
  destruct (sub c s) as [|[r v] [|y e]] eqn:Es.
  - rewrite R. simpl get_idx. rewrite trunc_id by auto. rewrite run_final by lia.
    eexists. split; [reflexivity|]. exists 1. split; [lia|]. split; [simpl; lia|]. split; [reflexivity|].
    left. split; [reflexivity|]. intros v I. apply sub_in in I. rewrite Es in I. destruct I.
  - destruct R as (R & _). rewrite R. simpl get_idx.
    assert (I : In (c :: r, v) s) by (apply sub_in; rewrite Es; left; auto).
    pose proof (V _ _ I). rewrite trunc_id by lia. rewrite run_final by lia.
    eexists. split; [reflexivity|]. exists 1. split; [lia|]. split; [simpl; lia|]. split; [reflexivity|].
    right. exists (c :: r), v. split; [reflexivity|]. split; [exact I|]. split; [reflexivity|].
    intros v' J. apply sub_in in J. rewrite Es in J. destruct J as [J|[]]. inversion J; subst. reflexivity.
  - destruct R as (j & R & _ & RR). rewrite R. simpl get_idx.
    assert (Lj : j < length sts).
    { destruct h as [|h']; [destruct RR|]. destruct RR as (_ & st' & Nj & _). apply nth_error_Some. congruence. }
    rewrite trunc_id by lia. rewrite <- Es in RR.
    destruct (IH D j (sub c s) k (S o) n RR) as (rr & E & P).
    + apply sub_len; auto.
    + rewrite Es. simpl. lia.
    + apply sub_nodup; auto.
    + auto.
    + intros d I. apply Kc. right; auto.
    + intros k' v' I. apply sub_in in I. eapply V; eauto.
    + exists rr. split; [exact E|]. destruct rr as [[st' rest] o']. destruct P as (m & -> & P1 & -> & P).
      exists (S m). split; [lia|]. split; [simpl; lia|]. split; [reflexivity|].
      destruct P as [(P & Q)|(k' & v' & P & Q1 & Q2 & Q3)].
      * left. split; auto. intros v' I. apply sub_in in I. eapply Q; eauto.
      * right. exists (c :: k'), v'. split; auto. apply sub_in in Q1. split; auto. split; [simpl; f_equal; auto|].
        intros v2 I. apply sub_in in I. apply Q3 in I. inversion I; subst. reflexivity.
Qed.
End Run.

(** ** the lookup function *)
Lemma skipn_app_le : forall A n (a b : list A), n <= length a -> skipn n (a ++ b) = skipn n a ++ b.
Proof. intros. rewrite skipn_app. replace (n - length a) with 0 by lia. reflexivity. Qed.

Lemma mem_eq_key : forall k key m pad, length k = length key -> m <= length k ->
  mem_eq (skipn m k) (skipn m (key ++ pad)) (length k - m) = Some (str_eqb (skipn m k) (skipn m key)).
Proof.
  intros k key m pad E L. unfold mem_eq. rewrite skipn_app_le by lia.
  rewrite !app_length, !skipn_length.
  replace ((length k - m <=? length k - m) && (length k - m <=? length key - m + length pad)) with true.
  2: { symmetry. rewrite andb_true_iff, !Nat.leb_le. lia. }
  rewrite firstn_all2 by (rewrite skipn_length; lia).
  rewrite firstn_app. rewrite firstn_all2 by (rewrite skipn_length; lia).
  rewrite skipn_length. replace (length k - m - (length key - m)) with 0 by lia. simpl. rewrite app_nil_r. reflexivity.
Qed.

Lemma lens_nil : forall s, lens s = [] -> s = [].
Proof.
  intros [|[k v] s] H; auto. assert (I : In (length k) (lens ((k, v) :: s))).
  { apply lens_in. unfold of_len. simpl. rewrite Nat.eqb_refl. discriminate. }
  rewrite H in I. destruct I.
Qed.

Lemma wt_choice : forall A (l : list (list nat * A)), wt (choice_set l) = fold_right (fun e n => length (fst e) + n) 0 l.
Proof.
  intros A l. unfold choice_set. generalize 0 at 1. induction l as [|[k a] l IH]; intros n; simpl; auto.
Qed.
Lemma total_len_perm : forall A (l l' : list (list nat * A)), Permutation l l' -> total_len l = total_len l'.
Proof. intros A l l' P. unfold total_len. induction P; simpl; lia. Qed.

Lemma toks_bound : forall tk, NoDup tk -> (forall c, In c tk -> c < 256 /\ c <> 10) -> length tk <= 255.
Proof.
  intros tk N H. assert (I : incl (10 :: tk) (seq 0 256)).
  { intros c [ <- | I]; apply in_seq; [lia|]. destruct (H c I). lia. }
  apply NoDup_incl_length in I; [rewrite seq_length in I; simpl in I; lia|].
  constructor; auto. intros J. destruct (H 10 J). auto.
Qed.

Lemma of_len_single : forall n s k v, In (k, v) s -> of_len (length k) s = [(n, v)] -> k = n.
Proof.
  intros n s k v I E. assert (J : In (k, v) (of_len (length k) s)) by (apply of_len_in; auto).
  rewrite E in J. destruct J as [J|[]]. congruence.
Qed.

Lemma generate_ok : forall A (l : list (list nat * A)), NoDup (map fst l) -> line_keys l ->
  (N.of_nat (2 * length l + total_len l) < 2 ^ 32)%N ->
  exists t, generate l = Some t /\
  forall k, (forall c, In c k -> c < 256) ->
    find t k (length k) = match assoc k l with Some v => Hit v | None => Miss end.
Proof.
  intros A l HN HL HB. unfold generate. rewrite (proj2 (has_dup_false _) HN).
  pose proof (choice_perm A l) as P. set (arr := choice_arr l) in *.
  assert (HN' : NoDup (map fst arr)) by (eapply Permutation_NoDup; [apply Permutation_map, Permutation_sym, P|auto]).
  assert (HS : NoDup (map fst (choice_set arr))) by (rewrite choice_set_fst; auto).
  destruct (make_tree_ok (choice_set arr) HS) as (ls & b & E & M1 & M2 & M3 & M4 & M5).
  rewrite E.
  assert (LA : length arr = length l) by (apply Permutation_length; auto).
  assert (FB : (N.of_nat (length (states b) + length arr) < 2 ^ 32)%N).
  { rewrite choice_set_length, wt_choice in M2. change (fold_right _ 0 arr) with (total_len arr) in M2.
    rewrite (total_len_perm _ _ _ P) in M2. lia. }
  destruct (uint_max (length (states b) + length arr)) as [w|] eqn:EW.
  2: { exfalso. unfold uint_max in EW. destruct (_ <=? 2 ^ 8 - 1)%N; [discriminate|]. destruct (_ <=? 2 ^ 16 - 1)%N; [discriminate|].
       destruct (N.leb_spec (N.of_nat (length (states b) + length arr)) (2 ^ 32 - 1)); [discriminate|lia]. }
  apply uint_max_ok in EW.
  eexists. split; [reflexivity|]. intros k Kc.
  assert (TB : length (toks b) <= 255).
  { apply toks_bound; auto. intros c I. destruct (M4 c I) as (k' & v & I1 & I2).
    apply choice_set_in in I1. destruct I1 as (a & I1). apply nth_error_In in I1.
    apply (HL k' a); auto. eapply Permutation_in; eauto. }
  assert (IN : forall k' a, In (k', a) l <-> exists v, In (k', v) (choice_set arr) /\ nth_error arr v = Some (k', a)).
  { intros k' a. split.
    - intros I. apply (Permutation_in _ (Permutation_sym P)) in I. apply In_nth_error in I. destruct I as (v & I).
      exists v. split; auto. apply choice_set_in. eauto.
    - intros (v & _ & I). apply nth_error_In in I. eapply Permutation_in; eauto. }
  set (t := mk_tables _ _ _ _ _ _ _ _).
  unfold find.
  assert (CASE : arr = [] \/ arr <> []) by (destruct arr; [left; reflexivity|right; discriminate]).
  destruct CASE as [Earr|Earr].
  { assert (V0 : values t = []) by (unfold t; cbn [values]; rewrite Earr; reflexivity).
    rewrite V0. rewrite assoc_none; auto. intros v I. apply IN in I. destruct I as (? & _ & I). rewrite Earr in I. destruct x; discriminate. }
  assert (VT : values t <> []).
  { unfold t; cbn [values]. destruct arr; [congruence|discriminate]. }
  destruct (values t) as [|v0 vs] eqn:EV; [congruence|]. rewrite <- EV. clear v0 vs EV VT.
  pose proof (sorted_sorted (map (fun e => length (fst e)) (choice_set arr))) as SS. change (sorted_keys _) with (lens (choice_set arr)) in SS.
  assert (Mmin : minlen t = hd 0 (lens (choice_set arr))) by (unfold t; simpl; rewrite M1; reflexivity).
  assert (Mmax : maxlen t = last (lens (choice_set arr)) 0) by (unfold t; simpl; rewrite M1; reflexivity).
  assert (NOT : ~ In (length k) (lens (choice_set arr)) -> assoc k l = None).
  { intros N. apply assoc_none. intros a I. apply IN in I. destruct I as (v & I & _). apply N, lens_in.
    intros Z. assert (J : In (k, v) (of_len (length k) (choice_set arr))) by (apply of_len_in; auto). rewrite Z in J. destruct J. }
  destruct (Nat.ltb_spec (length k) (minlen t)) as [L|L].
  { rewrite NOT; auto. intros I. apply (ssorted_hd _ _ SS) in I. lia. }
  destruct (Nat.ltb_spec (maxlen t) (length k)) as [L'|L'].
  { rewrite NOT; auto. intros I. apply (ssorted_last _ _ SS) in I. lia. }
  set (idx := fun st => trunc w (get_idx (length (states b)) (length (states b) + length arr) st)).
  assert (E2 : nth_error (len2step t) (length k - minlen t) = Some (idx (look (length k) ls))).
  { change (len2step t) with (map (fun n => idx (look n ls)) (seq (minlen t) (maxlen t - minlen t + 1))).
    apply (map_nth_error (fun n => idx (look n ls))).
    rewrite nth_error_nth' with (d := 0) by (rewrite seq_length; lia).
    rewrite seq_nth by lia. f_equal. lia. }
  rewrite E2.
  assert (VK : forall k' v, In (k', v) (choice_set arr) -> v < length arr).
  { intros k' v I. apply choice_set_in in I. destruct I as (a & I). apply nth_error_Some. congruence. }
  (* from the result of the run to the result of the function *)
  assert (FIN : forall s r, (forall v, In (k, v) s <-> In (k, v) (choice_set arr)) ->
    (forall k' v, In (k', v) s -> In (k', v) (choice_set arr) /\ length k' = length k) ->
    run_res A t s k 0 r ->
    (let '(step, s0, o) := r in
      if negb (o <=? maxlen t) then AssertFail
      else if failidx t <=? step then Miss
      else match nth_error (values t) (step - statecnt t) with
        | Some (key, v) => if length k <? o then OutOfBounds else
            match mem_eq s0 (skipn o key) (length k - o) with
            | Some true => Hit v | Some false => Miss | None => OutOfBounds end
        | None => OutOfBounds
        end) = match assoc k l with Some v => Hit v | None => Miss end).
  { intros s [[st rest] o] S1 S2 (m & -> & Q1 & -> & Q). cbv beta iota. change (0 + m) with m.
    rewrite (proj2 (Nat.leb_le m (maxlen t))) by lia. cbn [negb].
    destruct Q as [(Q & Q2)|(k' & v & Q & Q2 & Q3 & Q4)].
    - rewrite Q, Nat.leb_refl. rewrite assoc_none; auto. intros a I. apply IN in I. destruct I as (v & I & _).
      apply S1 in I. eapply Q2; eauto.
    - destruct (S2 _ _ Q2) as (S3 & S4). pose proof (VK _ _ S3) as Lv.
      rewrite Q. change (statecnt t) with (length (states b)). change (failidx t) with (length (states b) + length arr).
      destruct (Nat.leb_spec (length (states b) + length arr) (v + length (states b))); [lia|].
      replace (v + length (states b) - length (states b)) with v by lia.
      apply choice_set_in in S3. destruct S3 as (a & S3).
      unfold t at 1; cbn [values]. erewrite map_nth_error; [|exact S3]. cbn [fst snd].
      destruct (Nat.ltb_spec (length k) m); [lia|].
      rewrite mem_eq_key by lia.
      destruct (str_eqb (skipn m k) (skipn m k')) eqn:ES.
      + apply str_eqb_eq in ES.
        assert (k' = k) by (rewrite <- (firstn_skipn m k'), Q3, <- ES; apply firstn_skipn). subst k'.
        rewrite (assoc_in _ l k a); auto. apply IN. exists v. split; auto. apply choice_set_in. eauto.
      + rewrite assoc_none; auto. intros a' I. apply IN in I. destruct I as (v' & I & _). apply S1 in I. apply Q4 in I.
        inversion I; subst. rewrite (proj2 (str_eqb_eq _ _) eq_refl) in ES. discriminate. }
  specialize (M5 (length k)).
  assert (OL : forall v, In (k, v) (of_len (length k) (choice_set arr)) <-> In (k, v) (choice_set arr)).
  { intros v. rewrite of_len_in. tauto. }
  assert (OL2 : forall k' v, In (k', v) (of_len (length k) (choice_set arr)) -> In (k', v) (choice_set arr) /\ length k' = length k).
  { intros k' v I. apply of_len_in in I. auto. }
  specialize (FIN (of_len (length k) (choice_set arr))).
  destruct (of_len (length k) (choice_set arr)) as [|[k1 v1] [|y e]] eqn:EO.
  - rewrite M5. unfold idx at 1. simpl get_idx. rewrite trunc_id by auto.
    rewrite run_final by (simpl; lia).
    rewrite <- (FIN (length (states b) + length arr, k, 0) OL OL2); [reflexivity|].
    exists 0. split; [reflexivity|]. split; [lia|]. split; [reflexivity|]. left. split; [reflexivity|]. intros v [].
  - rewrite M5. destruct (OL2 k1 v1 (or_introl eq_refl)) as (O1 & O2). pose proof (VK _ _ O1).
    unfold idx at 1. simpl get_idx. rewrite trunc_id by lia.
    rewrite run_final by (simpl; lia).
    rewrite <- (FIN (v1 + length (states b), k, 0) OL OL2); [reflexivity|].
    exists 0. split; [reflexivity|]. split; [lia|]. split; [reflexivity|]. right. exists k1, v1.
    split; [reflexivity|]. split; [left; auto|]. split; [reflexivity|]. intros v' [J|[]]. congruence.
  - destruct M5 as (j & Ej & RR). rewrite Ej.
    assert (Lj : j < length (states b)).
    { destruct RR as (_ & st' & Nj & _). apply nth_error_Some. congruence. }
    unfold idx at 1. simpl get_idx. rewrite trunc_id by lia.
    destruct (run_ok A t (states b) (toks b) w (length arr)) with (h := S (length k)) (D := fun _ : nat => True) (i := j)
      (s := (k1, v1) :: y :: e) (k := k) (o := 0) (n := length k) as (r & Er & Pr); auto.
    + intros k' v I. apply OL2 in I. tauto.
    + simpl. lia.
    + rewrite <- EO. apply of_len_nodup; auto.
    + intros k' v I. apply OL2 in I. eapply VK. apply I.
    + rewrite Er. rewrite <- (FIN r OL OL2 Pr). destruct r as [[? ?] ?]. reflexivity.
Qed.

(** more memory after the string does not matter *)
Lemma run_app : forall A (t : tables A) k x st o r, run t st k o = Some r ->
  run t st (k ++ x) o = Some (fst (fst r), snd (fst r) ++ x, snd r).
Proof.
  induction k as [|c k IH]; intros x st o r H; cbn [run app] in *.
  - destruct (Nat.ltb_spec st (statecnt t)) as [L|L]; [discriminate|]. inversion H; subst. simpl. apply run_final. exact L.
  - destruct (st <? statecnt t); [|inversion H; subst; reflexivity].
    destruct (nth_error (char2tok t) c); [|discriminate]. destruct (nth_error (tok2step t) st); [|discriminate].
    destruct (nth_error l n); [|discriminate]. apply IH. exact H.
Qed.
Lemma mem_eq_app : forall a x b n r, mem_eq a b n = Some r -> mem_eq (a ++ x) b n = Some r.
Proof.
  intros a x b n r. unfold mem_eq. rewrite app_length.
  destruct (Nat.leb_spec n (length a)); [|discriminate]. simpl.
  destruct (Nat.leb_spec n (length b)); [|discriminate]. intros E.
  destruct (Nat.leb_spec n (length a + length x)); [|lia]. simpl.
  rewrite firstn_app. replace (n - length a) with 0 by lia. simpl. rewrite app_nil_r. exact E.
Qed.
Lemma find_app : forall A (t : tables A) k x n, find t k n <> OutOfBounds -> find t (k ++ x) n = find t k n.
Proof.
  intros A t k x n. unfold find. destruct (values t) as [|v0 vs] eqn:EV; [reflexivity|].
  destruct (n <? minlen t); [reflexivity|]. destruct (maxlen t <? n); [reflexivity|].
  destruct (nth_error (len2step t) (n - minlen t)) as [st|]; [|reflexivity].
  destruct (run t st k 0) as [[[st' k'] o]|] eqn:ER; [|intros H; exfalso; apply H; reflexivity].
  rewrite (run_app _ _ _ x _ _ _ ER). cbn [fst snd].
  destruct (negb (o <=? maxlen t)); [reflexivity|]. destruct (failidx t <=? st'); [reflexivity|].
  destruct (nth_error (v0 :: vs) (st' - statecnt t)) as [[key v]|]; [|reflexivity].
  destruct (n <? o); [reflexivity|].
  destruct (mem_eq k' (skipn o key) (n - o)) as [r|] eqn:EM; [|intros H; exfalso; apply H; reflexivity].
  rewrite (mem_eq_app _ x _ _ _ EM). reflexivity.
Qed.

Lemma generate_find : forall A (l : list (list nat * A)), NoDup (map fst l) -> line_keys l ->
  (N.of_nat (2 * length l + total_len l) < 2 ^ 32)%N ->
  exists t, generate l = Some t /\
  forall k x, (forall c, In c k -> c < 256) ->
    find t (k ++ x) (length k) = match assoc k l with Some v => Hit v | None => Miss end.
Proof.
  intros A l H1 H2 H3. destruct (generate_ok A l H1 H2 H3) as (t & E & H). exists t. split; [exact E|].
  intros k x Hk. rewrite find_app by (rewrite H by auto; destruct (assoc k l); discriminate). auto.
Qed.
Lemma generate_dup : forall A (l : list (list nat * A)), ~ NoDup (map fst l) -> generate l = None.
Proof.
  intros A l H. unfold generate. destruct (has_dup (map fst l)) eqn:E; [reflexivity|].
  exfalso. apply H. apply has_dup_false. exact E.
Qed.
