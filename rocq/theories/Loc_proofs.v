(** Proofs about source locations. *)
From Coq Require Import Arith Bool List Lia ZifyBool NArith.
From Verif Require Import Loc_model Loc_spec.
Import ListNotations.

(** ** Counting line breaks *)
Lemma breaks_0 s : breaks s 0 = 0.
Proof. reflexivity. Qed.
Lemma breaks_cons c s p : breaks (c :: s) (S p) = (if c =? NL then 1 else 0) + breaks s p.
Proof.
  unfold breaks. cbn [firstn count_occ]. destruct (Nat.eq_dec c NL) as [->|N].
  - reflexivity.
  - apply Nat.eqb_neq in N. rewrite N. reflexivity.
Qed.
Lemma breaks_S s : forall p, p < length s -> breaks s (S p) = breaks s p + (if nth p s 0 =? NL then 1 else 0).
Proof.
  induction s as [|c s IH]; cbn [length]; intros p Hp; [lia|]. rewrite breaks_cons.
  destruct p as [|p]; [rewrite !breaks_0; cbn [nth]; lia|].
  rewrite breaks_cons, IH by lia. cbn [nth]. lia.
Qed.
Lemma breaks_mono s p q : p <= q -> q <= length s -> breaks s p <= breaks s q.
Proof. induction 1 as [|q H IH]; [lia|]. intro. rewrite breaks_S by lia. specialize (IH ltac:(lia)). lia. Qed.
Lemma breaks_none s p q i : breaks s p = breaks s q -> q <= length s -> p <= i < q -> nth i s 0 <> NL.
Proof.
  intros E Hq Hi N. pose proof (breaks_S s i ltac:(lia)) as B. rewrite N, Nat.eqb_refl in B.
  pose proof (breaks_mono s p i ltac:(lia) ltac:(lia)). pose proof (breaks_mono s (S i) q ltac:(lia) ltac:(lia)). lia.
Qed.

(** ** The line table *)
Lemma cut_nth s : forall i k, k < length (cut i s) ->
  exists q, nth k (cut i s) 0 = i + q /\ 0 < q <= length s /\ nth (q - 1) s 0 = NL /\ breaks s (q - 1) = k.
Proof.
  induction s as [|c s IH]; intros i k; cbn [cut length]; [lia|].
  destruct (c =? NL) eqn:E; cbn [length].
  - destruct k as [|k]; intro Hk.
    + exists 1. split; [cbn; lia|]. split; [lia|]. split; [cbn; lia|]. apply breaks_0.
    + destruct (IH (i + 1) k ltac:(lia)) as (q & Q1 & Q2 & Q3 & Q4). exists (S q). cbn [nth]. split; [lia|]. split; [lia|].
      replace (S q - 1) with (S (q - 1)) by lia. cbn [nth]. split; [exact Q3|]. rewrite breaks_cons, E. lia.
  - intro Hk. destruct (IH (i + 1) k Hk) as (q & Q1 & Q2 & Q3 & Q4). exists (S q). split; [lia|]. split; [lia|].
    replace (S q - 1) with (S (q - 1)) by lia. cbn [nth]. split; [exact Q3|]. rewrite breaks_cons, E. lia.
Qed.
Lemma cut_length s : forall i, length (cut i s) = breaks s (length s).
Proof.
  induction s as [|c s IH]; intro i; [reflexivity|]. cbn [cut length]. rewrite breaks_cons.
  destruct (c =? NL); cbn [length]; rewrite (IH (i + 1)); reflexivity.
Qed.

(** the table without the additional entry *)
Definition K (s : list nat) : nat := S (breaks s (length s)).
Lemma table_cases b s : exists l, l = b :: cut b s /\ length l = K s /\
  (line_table b s = l /\ last l 0 = b + length s \/ line_table b s = l ++ [b + length s] /\ last l 0 <> b + length s).
Proof.
  exists (b :: cut b s). split; [reflexivity|]. split; [unfold K; cbn [length]; rewrite cut_length; reflexivity|].
  unfold line_table. cbv zeta. destruct (last (b :: cut b s) 0 =? b + length s) eqn:E; cbn [negb].
  - left. split; [reflexivity|lia].
  - right. split; [reflexivity|lia].
Qed.
(** the entries of the table: [q] is the offset of line [k] *)
Lemma table_nth b s k : k < length (line_table b s) -> exists q, nth k (line_table b s) 0 = b + q /\ q <= length s /\
  ((k < K s /\ breaks s q = k /\ (k = 0 /\ q = 0 \/ 0 < q /\ nth (q - 1) s 0 = NL /\ breaks s (q - 1) = k - 1 /\ 0 < k)) \/
   (k = K s /\ q = length s /\ ~ line_start s q)).
Proof.
  intro Hk. destruct (table_cases b s) as (l & El & Ll & T).
  assert (N : forall j, j < K s -> exists q, nth j l 0 = b + q /\ q <= length s /\ breaks s q = j /\
     (j = 0 /\ q = 0 \/ 0 < q /\ nth (q - 1) s 0 = NL /\ breaks s (q - 1) = j - 1 /\ 0 < j)).
  { intros j Hj. rewrite <- Ll in Hj. rewrite El in Hj |- *. destruct j as [|j].
    - exists 0. cbn [nth]. split; [lia|]. split; [lia|]. split; [apply breaks_0|]. left. auto.
    - cbn [nth length] in *. destruct (cut_nth s b j ltac:(lia)) as (q & Q1 & Q2 & Q3 & Q4).
      exists q. split; [exact Q1|]. split; [lia|].
      pose proof (breaks_S s (q - 1) ltac:(lia)) as B. rewrite Q3, Nat.eqb_refl in B. replace (S (q - 1)) with q in B by lia.
      split; [lia|]. right. split; [lia|]. split; [exact Q3|]. lia. }
  destruct T as [[T1 T2]|[T1 T2]]; rewrite T1 in *.
  - destruct (N k ltac:(lia)) as (q & Q1 & Q2 & Q3 & Q4). exists q. split; [exact Q1|]. split; [exact Q2|].
    left. split; [lia|]. split; assumption.
  - rewrite app_length in Hk. cbn [length] in Hk. destruct (Nat.eq_dec k (K s)) as [->|NE].
    + exists (length s). rewrite app_nth2 by lia. rewrite Ll, Nat.sub_diag. cbn [nth]. split; [reflexivity|]. split; [lia|].
      right. split; [reflexivity|]. split; [reflexivity|]. intros [L1 L2]. apply T2.
      destruct (N (K s - 1) ltac:(unfold K; lia)) as (q & Q1 & Q2 & Q3 & Q4).
      assert (EL : last l 0 = nth (K s - 1) l 0).
      { rewrite <- Ll. clear. destruct l as [|x l]; [reflexivity|]. revert x. induction l as [|y l IH]; intro x; [reflexivity|].
        change (last (x :: y :: l) 0) with (last (y :: l) 0). rewrite IH. cbn [length]. rewrite !Nat.sub_succ, !Nat.sub_0_r. reflexivity. }
      rewrite EL, Q1. f_equal.
      pose proof (breaks_S s (length s - 1) ltac:(lia)) as B. rewrite L2, Nat.eqb_refl in B.
      replace (S (length s - 1)) with (length s) in B by lia. unfold K in Q3.
      destruct (Nat.eq_dec q (length s)) as [E|NEq]; [exact E|].
      pose proof (breaks_mono s q (length s - 1) ltac:(lia) ltac:(lia)). lia.
    + rewrite app_nth1 by lia. destruct (N k ltac:(lia)) as (q & Q1 & Q2 & Q3 & Q4).
      exists q. split; [exact Q1|]. split; [exact Q2|]. left. split; [lia|]. split; assumption.
Qed.
Lemma table_len b s : length (line_table b s) = K s \/ length (line_table b s) = S (K s).
Proof.
  destruct (table_cases b s) as (l & _ & L & [[-> _]|[-> _]]); [left; exact L|right; rewrite app_length, L; cbn [length]; lia].
Qed.
Lemma table_first b s : nth 0 (line_table b s) 0 = b.
Proof. destruct (table_cases b s) as (l & -> & _ & [[-> _]|[-> _]]); reflexivity. Qed.
Lemma table_last b s : nth (length (line_table b s) - 1) (line_table b s) 0 = b + length s.
Proof.
  destruct (table_cases b s) as (l & El & L & [[-> T]|[-> _]]).
  - rewrite <- T. clear. destruct l as [|x l]; [reflexivity|]. revert x. induction l as [|y l IH]; intro x; [reflexivity|].
    change (last (x :: y :: l) 0) with (last (y :: l) 0). rewrite <- IH. cbn [length]. rewrite !Nat.sub_succ, !Nat.sub_0_r. reflexivity.
  - rewrite app_length. cbn [length]. replace (length l + 1 - 1) with (length l) by lia. rewrite app_nth2 by lia.
    rewrite Nat.sub_diag. reflexivity.
Qed.

(** ** Searching *)
Lemma bsearch_found key lines : 0 < length lines -> nth 0 lines 0 <= key -> key <= nth (length lines - 1) lines 0 ->
  forall fuel a b, a <= b <= length lines -> b - a < fuel ->
  (a = 0 \/ a < length lines /\ nth a lines 0 < key) -> (b = length lines \/ key < nth b lines 0) ->
  exists r, bsearch_ fuel (cmp_line key lines) a b = Found r /\ r < length lines /\ cmp_line key lines r = Some Eq.
Proof.
  intros L0 L1 L2. induction fuel as [|fuel IH]; intros a b Hab Hf Ha Hb; [lia|]. cbn [bsearch_].
  destruct (a <? b) eqn:E; [apply Nat.ltb_lt in E|exfalso].
  - set (idx := a + (b - a) / 2).
    assert (Hi : a <= idx < b).
    { unfold idx. pose proof (Nat.div_lt (b - a) 2 ltac:(lia) ltac:(lia)). lia. }
    clearbody idx.
    destruct (cmp_line key lines idx) as [[]|] eqn:EC.
    + exists idx. split; [reflexivity|]. split; [lia|exact EC].
    + unfold cmp_line in EC. destruct (key <? nth idx lines 0) eqn:E1.
      * apply IH; [lia|lia|exact Ha|right; lia].
      * destruct (key =? nth idx lines 0); [discriminate|]. destruct (idx + 1 <? length lines); [|discriminate].
        destruct (nth (idx + 1) lines 0 <? key); discriminate.
    + unfold cmp_line in EC. destruct (key <? nth idx lines 0) eqn:E1; [discriminate|].
      destruct (key =? nth idx lines 0); [discriminate|]. destruct (idx + 1 <? length lines) eqn:E2; [|discriminate].
      destruct (nth (idx + 1) lines 0 <? key) eqn:E3; [|discriminate].
      apply IH; [lia|lia|right; lia|exact Hb].
    + exfalso. unfold cmp_line in EC. destruct (key <? nth idx lines 0) eqn:E1; [discriminate|].
      destruct (key =? nth idx lines 0) eqn:E4; [discriminate|]. destruct (idx + 1 <? length lines) eqn:E2.
      * destruct (nth (idx + 1) lines 0 <? key); discriminate.
      * replace (length lines - 1) with idx in L2 by lia. lia.
  - assert (a = b) by lia. subst b. destruct Ha as [->|Ha].
    + destruct Hb as [Hb|Hb]; lia.
    + destruct Hb as [Hb|Hb]; lia.
Qed.
Lemma cmp_eq key lines r : cmp_line key lines r = Some Eq ->
  nth r lines 0 <= key /\ (key = nth r lines 0 \/ r + 1 < length lines /\ key <= nth (r + 1) lines 0).
Proof.
  unfold cmp_line. destruct (key <? nth r lines 0) eqn:E1; [discriminate|].
  destruct (key =? nth r lines 0) eqn:E2; [intros _; split; [|left]; lia|].
  destruct (r + 1 <? length lines) eqn:E3; [|discriminate].
  destruct (nth (r + 1) lines 0 <? key) eqn:E4; [discriminate|]. intros _. split; [|right]; lia.
Qed.

(** The line found for offset [p] *)
Definition line_of (s : list nat) (p r : nat) : Prop :=
  r = breaks s p \/ (r + 1 = breaks s p /\ line_start s p) \/ (p = length s /\ ~ line_start s p /\ r = breaks s p + 1).
Lemma search_line b s p : p <= length s -> exists r,
  bsearch (cmp_line (b + p) (line_table b s)) (length (line_table b s)) = Found r /\ r < length (line_table b s) /\
  line_of s p r /\ cmp_line (b + p) (line_table b s) r = Some Eq.
Proof.
  intro Hp. set (t := line_table b s).
  assert (LT : 0 < length t) by (destruct (table_len b s); unfold t, K in *; lia).
  destruct (bsearch_found (b + p) t LT) with (fuel := S (length t)) (a := 0) (b := length t) as (r & R1 & R2 & R3).
  { unfold t. rewrite table_first. lia. }
  { unfold t. rewrite table_last. lia. }
  { lia. } { lia. } { left. reflexivity. } { left. reflexivity. }
  exists r. split; [exact R1|]. split; [exact R2|]. split; [|exact R3].
  apply cmp_eq in R3 as [C1 C2].
  destruct (table_nth b s r R2) as (q & Q1 & Q2 & Q3). fold t in Q1. rewrite Q1 in C1, C2.
  unfold line_of.
  destruct Q3 as [(Q3 & Q4 & Q5)|(-> & -> & Q4)].
  2:{ right. right. assert (p = length s) by lia. subst p. split; [reflexivity|]. split; [exact Q4|]. unfold K. lia. }
  destruct C2 as [C2|[C2 C3]].
  { assert (p = q) by lia. subst q. left. lia. }
  destruct (table_nth b s (r + 1) C2) as (q' & Q1' & Q2' & Q3'). fold t in Q1'. rewrite Q1' in C3.
  pose proof (breaks_mono s q p ltac:(lia) ltac:(lia)) as M1.
  destruct Q3' as [(Q3' & Q4' & Q5')|(E & -> & Q4')].
  - destruct (Nat.eq_dec p q') as [->|NE].
    + right. left. destruct Q5' as [Q5'|(Q5' & Q6' & _)]; [lia|]. split; [lia|]. split; assumption.
    + left. destruct Q5' as [Q5'|(Q5' & Q6' & Q7' & _)]; [lia|].
      pose proof (breaks_mono s p (q' - 1) ltac:(lia) ltac:(lia)). lia.
  - left. pose proof (breaks_mono s p (length s) ltac:(lia) ltac:(lia)). unfold K in E. lia.
Qed.

(** ** Locations *)
Lemma get_loc_first fs i token l : get_loc_ i fs token = Loc l -> exists j, lfile l = i + j /\
  exists f, nth_error fs j = Some f /\ base f <= token <= base f + length (content f).
Proof.
  revert i. induction fs as [|f fs IH]; intro i; cbn [get_loc_]; [discriminate|].
  destruct ((base f <=? token) && (token <=? base f + length (content f))) eqn:E.
  - destruct (bsearch _ _) as [ln| | |]; try discriminate. destruct (negb _); [discriminate|].
    intro H. injection H as <-. exists 0. split; [cbn; lia|]. exists f. split; [reflexivity|]. lia.
  - intro H. apply IH in H as (j & J1 & J2). exists (S j). split; [lia|exact J2].
Qed.
(** the location found in the first file that has the token *)
Lemma get_loc_file token : forall fs i j f, nth_error fs j = Some f -> base f <= token <= base f + length (content f) ->
  (forall j' g, j' < j -> nth_error fs j' = Some g -> ~ base g <= token <= base g + length (content g)) ->
  get_loc_ i fs token = get_loc_ (i + j) [f] token.
Proof.
  induction fs as [|g fs IH]; intros i j f Hj Hf Hn; [destruct j; discriminate|].
  destruct j as [|j]; cbn [nth_error] in Hj.
  - injection Hj as ->. rewrite Nat.add_0_r. cbn [get_loc_].
    destruct ((base f <=? token) && (token <=? base f + length (content f))) eqn:E; [reflexivity|lia].
  - cbn [get_loc_]. pose proof (Hn 0 g ltac:(lia) eq_refl).
    destruct ((base g <=? token) && (token <=? base g + length (content g))) eqn:E; [lia|].
    rewrite (IH (i + 1) j f Hj Hf); [|intros j' h Hj' Hh; apply (Hn (S j') h); [lia|exact Hh]].
    replace (i + 1 + j) with (i + S j) by lia. reflexivity.
Qed.
Lemma separate_before fs j f token : separate fs -> nth_error fs j = Some f -> base f <= token <= base f + length (content f) ->
  forall j' g, j' < j -> nth_error fs j' = Some g -> ~ base g <= token <= base g + length (content g).
Proof. intros S Hj Hf j' g L Hg C. destruct (S j' j g f ltac:(lia) Hg Hj); lia. Qed.

Lemma get_loc_1 f i p : p <= length (content f) ->
  exists ln o e, get_loc_ i [f] (base f + p) = Loc (mk_loc i ln o e) /\ line_of (content f) p ln /\
    o <= p <= e + (if p =? length (content f) then 1 else 0) /\ e <= length (content f) /\
    (ln = breaks (content f) p -> delimits (content f) p o e).
Proof.
  intro Hp. destruct f as [b s]. cbn [base content] in *.
  destruct (search_line b s p Hp) as (r & R1 & R2 & R3 & R4).
  cbn [get_loc_ base content]. destruct ((b <=? b + p) && (b + p <=? b + length s)) eqn:E; [|lia].
  rewrite R1. rewrite (proj2 (Nat.ltb_lt _ _) R2). cbn [negb].
  eexists r, _, _. split; [reflexivity|]. split; [exact R3|].
  apply cmp_eq in R4 as [C1 C2].
  destruct (table_nth b s r R2) as (q & Q1 & Q2 & Q3). rewrite Q1 in *.
  replace (b + q - b) with q by lia.
  assert (EE : exists e, q + ((if r + 1 <? length (line_table b s) then nth (r + 1) (line_table b s) 0 else b + q) - (b + q)) = e /\
    p <= e <= length s /\ (r = breaks s p -> (p < e \/ e = length s) /\ (forall i, p <= i < e - 1 -> nth i s 0 <> NL) /\ (e = length s \/ 0 < e /\ nth (e - 1) s 0 = NL))).
  { destruct (r + 1 <? length (line_table b s)) eqn:EL.
    - destruct (table_nth b s (r + 1) ltac:(lia)) as (q' & Q1' & Q2' & Q3'). rewrite Q1'.
      assert (QQ : q <= q' /\ p <= q').
      { rewrite Q1' in C2. destruct Q3' as [(Q3' & Q4' & Q5')|(_ & -> & _)]; [|lia].
        assert (~ q' < q); [|lia]. intro LT.
        pose proof (breaks_mono s q' q ltac:(lia) ltac:(lia)).
        destruct Q3 as [(_ & Q4 & _)|(Q3 & _)]; lia. }
      exists q'. split; [lia|]. split; [lia|]. intro ER.
      split; [destruct Q3' as [(_ & Q4' & _)|(_ & -> & _)]; [destruct (Nat.eq_dec p q') as [->|]|]; lia|].
      destruct Q3' as [(Q3' & Q4' & Q5')|(E' & -> & Q4')].
      + destruct Q5' as [Q5'|(Q5' & Q6' & Q7' & _)]; [lia|]. split; [|right; auto].
        intros k Hk. apply (breaks_none s p (q' - 1) k); [lia|lia|exact Hk].
      + split; [|left; reflexivity]. unfold K in E'.
        intros k Hk. apply (breaks_none s p (length s) k); [lia|lia|lia].
    - exists q. assert (p = q) by lia. subst q. split; [lia|]. split; [lia|]. intros _.
      pose proof (table_last b s) as TL. replace (length (line_table b s) - 1) with r in TL by lia.
      split; [lia|]. split; [lia|]. left. lia. }
  destruct EE as (e & -> & E1 & E2).
  split; [destruct (p =? length s); lia|]. split; [lia|].
  intro ER. destruct (E2 ER) as (E0 & E3 & E4). unfold delimits. split; [lia|]. split; [lia|]. split; [exact E0|].
  destruct Q3 as [(Q3 & Q4 & Q5)|(Q3 & Q4 & _)].
  - split; [destruct Q5 as [Q5|Q5]; [left|right]; tauto|].
    split; [|split; [exact E3|exact E4]].
    intros k Hk. apply (breaks_none s q p k); [lia|lia|exact Hk].
  - exfalso. pose proof (breaks_mono s p (length s) ltac:(lia) ltac:(lia)). unfold K in Q3. lia.
Qed.

Lemma get_loc_ok fs j f p : separate fs -> nth_error fs j = Some f -> p <= length (content f) ->
  exists ln o e, get_loc fs (base f + p) = Loc (mk_loc j ln o e) /\ line_of (content f) p ln /\ e <= length (content f) /\
    (ln = breaks (content f) p -> delimits (content f) p o e).
Proof.
  intros S Hj Hp. unfold get_loc. rewrite (get_loc_file (base f + p) fs 0 j f Hj ltac:(lia)).
  - destruct (get_loc_1 f (0 + j) p Hp) as (ln & o & e & H1 & H2 & _ & H3 & H4). exists ln, o, e. auto.
  - apply (separate_before fs j f); [exact S|exact Hj|lia].
Qed.
Lemma get_loc_none fs token : (forall f, In f fs -> ~ base f <= token <= base f + length (content f)) <-> get_loc fs token = NoLoc.
Proof.
  unfold get_loc. generalize 0 as i. induction fs as [|f fs IH]; intro i; cbn [get_loc_].
  - split; [reflexivity|intros _ f []].
  - destruct ((base f <=? token) && (token <=? base f + length (content f))) eqn:E.
    + split; [intro H; exfalso; apply (H f (or_introl eq_refl)); lia|].
      destruct (bsearch _ _); try discriminate. destruct (negb _); discriminate.
    + rewrite <- IH. split.
      * intros H g Hg. apply H. right. exact Hg.
      * intros H g [<-|Hg]; [lia|exact (H g Hg)].
Qed.

(** ** The caret *)
Lemma format_loop_pos loc s : forall out pos x cr i out' pos' cr',
  length out = x -> format_loop out pos x cr loc i s = (out', pos', cr') ->
  (exists rest, out' = out ++ rest) /\
  (loc < i -> pos' = pos) /\
  (i <= loc < i + length s -> (forall k, k < loc - i -> is_printable (nth k s 0) = true) ->
    exists x', pos' = Some x' /\ length out <= x' <= length out' /\
    (is_printable (nth (loc - i) s 0) = true -> nth (loc - i) s 0 <> TAB -> nth x' out' 0 = nth (loc - i) s 0 /\ x' < length out')).
Proof.
  induction s as [|c s IH]; intros out pos x cr i out' pos' cr' HX; cbn [format_loop length].
  - intro H. injection H as <- <- <-. split; [exists []; rewrite app_nil_r; reflexivity|]. split; [auto|]. lia.
  - set (pos1 := if i =? loc then Some x else pos).
    destruct (c =? TAB) eqn:ET.
    + intro H. apply IH in H; [|rewrite app_length, repeat_length; lia].
      destruct H as ((rest & ->) & H2 & H3). split; [eexists; rewrite <- app_assoc; reflexivity|].
      split.
      * intro L. rewrite H2 by lia. unfold pos1. destruct (i =? loc) eqn:E; [lia|reflexivity].
      * intros L P. destruct (Nat.eq_dec loc i) as [->|NE].
        -- rewrite H2 by lia. unfold pos1. rewrite Nat.eqb_refl. exists x. split; [reflexivity|].
           split; [rewrite !app_length; lia|]. rewrite Nat.sub_diag. cbn [nth]. intros _ N. lia.
        -- destruct H3 as (x' & X1 & X2 & X3); [lia| |].
           { intros k Hk. specialize (P (S k) ltac:(lia)). exact P. }
           exists x'. split; [exact X1|]. split; [rewrite app_length in X2; lia|].
           replace (loc - i) with (S (loc - (i + 1))) by lia. exact X3.
    + destruct (is_printable c) eqn:EP; cbn [negb].
      * intro H. apply IH in H; [|rewrite app_length; cbn; lia].
        destruct H as ((rest & ->) & H2 & H3). split; [eexists; rewrite <- app_assoc; reflexivity|].
        split.
        -- intro L. rewrite H2 by lia. unfold pos1. destruct (i =? loc) eqn:E; [lia|reflexivity].
        -- intros L P. destruct (Nat.eq_dec loc i) as [->|NE].
           ++ rewrite H2 by lia. unfold pos1. rewrite Nat.eqb_refl. exists x. split; [reflexivity|].
              split; [rewrite !app_length; lia|]. rewrite Nat.sub_diag. cbn [nth]. intros _ _.
              rewrite <- app_assoc. rewrite app_nth2 by lia. rewrite HX, Nat.sub_diag. cbn [nth app].
              split; [reflexivity|]. rewrite !app_length. cbn. lia.
           ++ destruct H3 as (x' & X1 & X2 & X3); [lia| |].
              { intros k Hk. specialize (P (S k) ltac:(lia)). exact P. }
              exists x'. split; [exact X1|]. split; [rewrite app_length in X2; lia|].
              replace (loc - i) with (S (loc - (i + 1))) by lia. exact X3.
      * intro H. injection H as <- <- <-. split.
        { destruct (negb (length out =? 0)); [eexists; reflexivity|exists []; rewrite app_nil_r; reflexivity]. }
        split.
        -- intro L. unfold pos1. destruct (i =? loc) eqn:E; [lia|reflexivity].
        -- intros L P. destruct (Nat.eq_dec loc i) as [->|NE].
           ++ unfold pos1. rewrite Nat.eqb_refl. exists x. split; [reflexivity|]. split.
              ** destruct (negb (length out =? 0)); rewrite ?app_length; lia.
              ** rewrite Nat.sub_diag. cbn [nth]. intro C. rewrite C in EP. discriminate.
           ++ exfalso. specialize (P 0 ltac:(lia)). cbn [nth] in P. rewrite P in EP. discriminate.
Qed.

Lemma nth_firstn_skipn {A} (l : list A) d a n k : k < n -> nth k (firstn n (skipn a l)) d = nth (a + k) l d.
Proof.
  revert a n k. induction l as [|x l IH]; intros a n k Hk.
  - rewrite skipn_nil, firstn_nil. destruct k, (a + _); reflexivity.
  - destruct a as [|a].
    + cbn [skipn Nat.add]. destruct n as [|n]; [lia|]. destruct k as [|k]; [reflexivity|]. cbn [firstn nth].
      exact (IH 0 n k ltac:(lia)).
    + cbn [skipn]. rewrite IH by exact Hk. reflexivity.
Qed.
Lemma nth_repeat_lt {A} (x d : A) n k : k < n -> nth k (repeat x n) d = x.
Proof. revert k. induction n as [|n IH]; intros k Hk; [lia|]. destruct k; [reflexivity|]. cbn. apply IH. lia. Qed.

Lemma loc_src_ok fs j f p o e : separate fs -> nth_error fs j = Some f -> p < length (content f) ->
  ~ line_start (content f) p -> delimits (content f) p o e ->
  (forall i, o <= i <= p -> is_printable (nth i (content f) 0) = true) -> nth p (content f) 0 <> TAB ->
  exists col text caret, loc_src fs (base f + p) = Some (j, breaks (content f) p + 1, Some col, text, caret) /\
    nth col text 0 = nth p (content f) 0 /\ nth col caret 0 = 94.
Proof.
  intros SEP Hj Hp NLS DEL PR NT. destruct (get_loc_ok fs j f p SEP Hj ltac:(lia)) as (ln & o' & e' & G & L & He & D).
  unfold loc_src. rewrite G. cbn [lfile line orig orig_end]. rewrite Hj.
  destruct L as [->|[[_ L]|[L _]]]; [|contradiction|lia]. specialize (D eq_refl).
  assert (OO : o' = o /\ p < e').
  { clear - D DEL Hp. unfold delimits in *.
    destruct D as (D1 & D2 & D0 & D3 & D4 & D5 & D6), DEL as (E1 & E2 & E0 & E3 & E4 & E5 & E6).
    split; [|lia].
    destruct (lt_eq_lt_dec o o') as [[LT|EQ]|LT]; [|lia|].
    - destruct D3 as [D3|D3]; [lia|]. exfalso. apply (E4 (o' - 1)); [lia|exact D3].
    - destruct E3 as [E3|E3]; [lia|]. exfalso. apply (D4 (o - 1)); [lia|exact E3]. }
  destruct OO as [-> HE]. assert (HO : o <= p) by apply DEL.
  replace (base f + p - base f) with p by lia.
  unfold format_source_line.
  set (src := firstn (e' - o) (skipn o (content f))).
  assert (LS : length src = e' - o) by (unfold src; rewrite firstn_length, skipn_length; lia).
  assert (NS : forall k, k < e' - o -> nth k src 0 = nth (o + k) (content f) 0) by (intros; apply nth_firstn_skipn; assumption).
  destruct (format_loop [] None 0 true p o src) as [[out pos] cr] eqn:EF.
  apply format_loop_pos in EF as (_ & _ & F); [|reflexivity].
  destruct F as (x' & -> & F2 & F3).
  { lia. }
  { intros k Hk. rewrite NS by lia. apply PR. lia. }
  rewrite NS in F3 by lia. replace (o + (p - o)) with p in F3 by lia.
  destruct (F3 (PR p ltac:(lia)) NT) as [F4 F5].
  destruct (length out =? 0) eqn:EO; [lia|].
  eexists (S x'), _, _. split; [reflexivity|]. cbn [nth option_map]. split.
  - rewrite app_nth1 by exact F5. exact F4.
  - rewrite app_nth2 by (rewrite repeat_length; lia). rewrite repeat_length, Nat.sub_diag. reflexivity.
Qed.
