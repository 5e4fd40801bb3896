(** Proofs about the keyword sieve *)
From Coq Require Import Arith Bool List NArith Lia Permutation Sorted.
From Verif Require Import Sieve_model Sieve_spec.
Import ListNotations.

(** ** sorted lists *)
Lemma insert_in : forall c l d, In d (insert c l) <-> d = c \/ In d l.
Proof.
  intros c l. induction l as [|a l IH]; intros d; simpl; [intuition|].
  destruct (c <? a); [simpl; intuition|].
  destruct (Nat.eqb_spec c a) as [->|]; simpl; [intuition|].
  rewrite IH. intuition.
Qed.
Lemma sorted_in : forall l d, In d (sorted_keys l) <-> In d l.
Proof.
  induction l as [|a l IH]; intros d; simpl; [tauto|].
  rewrite insert_in. unfold sorted_keys in IH. rewrite IH. intuition.
Qed.
Lemma insert_sorted : forall c l, StronglySorted lt l -> StronglySorted lt (insert c l).
Proof.
  intros c l H. induction H as [|a l H IH F]; simpl; [repeat constructor|].
  destruct (Nat.ltb_spec c a) as [L|L].
  - constructor; [constructor; auto|]. constructor; auto.
    rewrite Forall_forall in *. intros x Hx. specialize (F x Hx). lia.
  - destruct (Nat.eqb_spec c a) as [->|N]; [constructor; auto|].
    constructor; auto. rewrite Forall_forall in *. intros x Hx.
    apply insert_in in Hx. destruct Hx as [ -> | Hx]; [lia|auto].
Qed.
Lemma sorted_sorted : forall l, StronglySorted lt (sorted_keys l).
Proof. induction l; simpl; [constructor|]. apply insert_sorted; auto. Qed.
Lemma ssorted_nodup : forall l, StronglySorted lt l -> NoDup l.
Proof.
  intros l H. induction H as [|a l H IH F]; constructor; auto.
  intros I. rewrite Forall_forall in F. specialize (F a I). lia.
Qed.
Lemma sorted_nodup : forall l, NoDup (sorted_keys l).
Proof. intros. apply ssorted_nodup, sorted_sorted. Qed.
Lemma ssorted_hd : forall l x, StronglySorted lt l -> In x l -> hd 0 l <= x.
Proof.
  intros l x H I. destruct H as [|a l H F]; [destruct I|].
  simpl. destruct I as [ -> | I]; auto. rewrite Forall_forall in F. specialize (F x I). lia.
Qed.
Lemma ssorted_last : forall l x, StronglySorted lt l -> In x l -> x <= last l 0.
Proof.
  intros l x H. revert x. induction H as [|a l H IH F]; intros x I; [destruct I|].
  destruct l as [|b l].
  - destruct I as [ -> | [] ]. simpl. lia.
  - change (last (a :: b :: l) 0) with (last (b :: l) 0).
    destruct I as [ -> | I]; [|auto].
    specialize (IH b (or_introl eq_refl)). rewrite Forall_forall in F. specialize (F b (or_introl eq_refl)). lia.
Qed.
Lemma last_in : forall (l : list nat) d, l <> [] -> In (last l d) l.
Proof.
  induction l as [|a l IH]; intros d N; [congruence|].
  destruct l as [|b l]; [left; reflexivity|].
  right. apply IH. discriminate.
Qed.

(** ** sets *)
Lemma sub_in : forall c s r v, In (r, v) (sub c s) <-> In (c :: r, v) s.
Proof.
  intros c s r v. unfold sub. rewrite in_flat_map. split.
  - intros ([k x] & I & J). simpl in J. destruct k as [|a k]; [destruct J|].
    destruct (Nat.eqb_spec a c) as [->|]; [|destruct J].
    destruct J as [E|[]]. inversion E; subst. auto.
  - intros I. exists (c :: r, v). split; auto. simpl. rewrite Nat.eqb_refl. left; reflexivity.
Qed.
Lemma sub_cons : forall c k v s, sub c ((k, v) :: s) =
  match k with a :: r => if a =? c then (r, v) :: sub c s else sub c s | [] => sub c s end.
Proof.
  intros. unfold sub. simpl. destruct k as [|a r]; simpl; [reflexivity|].
  destruct (a =? c); reflexivity.
Qed.
Lemma sub_nodup : forall c s, NoDup (map fst s) -> NoDup (map fst (sub c s)).
Proof.
  induction s as [|[k v] s IH]; intros H; [constructor|].
  inversion H as [|x l N Hs]; subst. specialize (IH Hs). rewrite sub_cons.
  destruct k as [|a r]; auto. destruct (Nat.eqb_spec a c) as [->|]; auto.
  simpl. constructor; auto. intros I. apply N. apply in_map_iff in I. destruct I as ((r' & v') & E & J).
  simpl in E. subst r'. apply sub_in in J. apply in_map_iff. exists (c :: r, v'). auto.
Qed.
Definition all_len (n : nat) (s : list (list nat * nat)) : Prop := forall k v, In (k, v) s -> length k = n.
Lemma sub_len : forall c s n, all_len (S n) s -> all_len n (sub c s).
Proof. intros c s n H k v I. apply sub_in in I. specialize (H _ _ I). simpl in H. lia. Qed.

Lemma firsts_sub : forall c s n, all_len (S n) s -> (In c (firsts s) <-> sub c s <> []).
Proof.
  intros c s n H. unfold firsts. rewrite sorted_in, in_map_iff. split.
  - intros ([k v] & E & I). specialize (H _ _ I). destruct k as [|a k]; [discriminate|].
    simpl in E. subst a. apply sub_in in I. intros N. rewrite N in I. destruct I.
  - intros N. destruct (sub c s) as [|[r v] e] eqn:E; [congruence|].
    assert (I : In (r, v) (sub c s)) by (rewrite E; left; reflexivity).
    apply sub_in in I. exists (c :: r, v). auto.
Qed.

(** weights, for the number of states *)
Definition wt (s : list (list nat * nat)) : nat := fold_right (fun e n => length (fst e) + n) 0 s.
Definition tw (l : list (nat * list (list nat * nat))) : nat := fold_right (fun ne n => 1 + wt (snd ne) + n) 0 l.

Fixpoint subs_w (cs : list nat) (s : list (list nat * nat)) : nat :=
  match cs with [] => 0 | c :: cs => length (sub c s) + wt (sub c s) + subs_w cs s end.
Lemma subs_w_cons : forall cs k v s, NoDup cs -> subs_w cs ((k, v) :: s) <= length k + subs_w cs s
  /\ (~ In (hd 0 k) cs -> subs_w cs ((k, v) :: s) = subs_w cs s).
Proof.
  induction cs as [|c cs IH]; intros k v s H; [simpl; lia|].
  inversion H as [|x l N Hs]; subst. destruct (IH k v s Hs) as (I1 & I2).
  cbn [subs_w]. rewrite sub_cons. destruct k as [|a r].
  - split; [simpl in *; lia|]. intros M. rewrite I2; [reflexivity|]. simpl in *. tauto.
  - destruct (Nat.eqb_spec a c) as [->|Ne].
    + split; [|intros M; exfalso; apply M; left; reflexivity].
      rewrite I2 by (simpl; auto). simpl. lia.
    + split; [lia|]. intros M. rewrite I2; [reflexivity|]. simpl in *. tauto.
Qed.
Lemma subs_w_le : forall cs s, NoDup cs -> subs_w cs s <= wt s.
Proof.
  intros cs s H. induction s as [|[k v] s IH].
  - induction cs as [|c cs IHc]; simpl; [lia|]. inversion H; subst. specialize (IHc ltac:(assumption)). simpl in *. lia.
  - destruct (subs_w_cons cs k v s H) as (I & _). simpl. lia.
Qed.

(** ** the loop of the steps *)
Lemma register_ok : forall c b, states (register c b) = states b /\ In c (toks (register c b))
  /\ incl (toks b) (toks (register c b)) /\ (NoDup (toks b) -> NoDup (toks (register c b)))
  /\ (forall d, In d (toks (register c b)) -> d = c \/ In d (toks b)).
Proof.
  intros c b. unfold register. destruct (existsb (Nat.eqb c) (toks b)) eqn:E.
  - apply existsb_exists in E. destruct E as (x & I & E). apply Nat.eqb_eq in E. subst x.
    repeat split; auto. apply incl_refl.
  - assert (N : ~ In c (toks b)).
    { intros I. assert (existsb (Nat.eqb c) (toks b) = true); [|congruence].
      apply existsb_exists. exists c. split; auto. apply Nat.eqb_refl. }
    simpl. repeat split; auto.
    + apply in_or_app. right; left; reflexivity.
    + apply incl_appl, incl_refl.
    + intros H. apply (Permutation_NoDup (l := c :: toks b)); [apply Permutation_cons_append|]. constructor; auto.
    + intros d I. apply in_app_or in I. destruct I as [I|[->|[]]]; auto.
Qed.

Lemma steps_cons : forall c cs s b, steps (c :: cs) s b =
  let b := register c b in
  match sub c s with
  | [(_, v)] => let '(st, todo, b) := steps cs s b in ((c, Final v) :: st, todo, b)
  | e => let '(st, todo, b') := steps cs s (push_state b) in ((c, State (length (states b))) :: st, (length (states b), e) :: todo, b')
  end.
Proof. intros. simpl. destruct (sub c s) as [|[? ?] [|? ?]]; reflexivity. Qed.

Definition linked (e : list (list nat * nat)) (x : step) (todo : list (nat * list (list nat * nat))) : Prop :=
  match e with
  | [(_, v)] => x = Final v
  | e => exists j, x = State j /\ In (j, e) todo
  end.
Lemma linked_cons : forall e x todo y, linked e x todo -> linked e x (y :: todo).
Proof.
  intros e x todo y H. unfold linked in *. destruct e as [|[? ?] [|? ?]]; auto;
  destruct H as (j & E & I); exists j; split; auto; right; auto.
Qed.

Lemma single_dec : forall (e : list (list nat * nat)), (exists r v, e = [(r, v)]) \/ length e <> 1.
Proof. intros [|[r v] [|y e]]; [right; simpl; lia|left; eauto|right; simpl; lia]. Qed.

Lemma steps_ok : forall cs s b st todo b', NoDup cs -> steps cs s b = (st, todo, b') ->
  states b' = states b ++ repeat [] (length todo)
  /\ map fst todo = seq (length (states b)) (length todo)
  /\ incl cs (toks b') /\ incl (toks b) (toks b') /\ (NoDup (toks b) -> NoDup (toks b'))
  /\ (forall d, In d (toks b') -> In d cs \/ In d (toks b))
  /\ (forall c, In c cs -> linked (sub c s) (look c st) todo)
  /\ (forall c, ~ In c cs -> look c st = NoStep)
  /\ (forall n e, In (n, e) todo -> length e <> 1 /\ exists c, In c cs /\ e = sub c s)
  /\ ((forall c, In c cs -> sub c s <> []) -> tw todo <= subs_w cs s).
Proof.
  induction cs as [|c cs IH]; intros s b st todo b' ND E.
  - simpl in E. inversion E; subst. simpl. rewrite app_nil_r.
    split; [reflexivity|]. split; [reflexivity|]. split; [intros x []|]. split; [apply incl_refl|].
    split; [auto|]. split; [auto|]. split; [intros c []|]. split; [reflexivity|].
    split; [intros n e []|]. intros; apply le_n.
  - inversion ND as [|x l NI ND']; subst. rewrite steps_cons in E. cbv zeta in E.
    destruct (register_ok c b) as (R1 & R2 & R3 & R4 & R5).
    set (b1 := register c b) in *.
    destruct (single_dec (sub c s)) as [(r & v & Es)|Nl].
    + rewrite Es in E. destruct (steps cs s b1) as [[st1 todo1] b2] eqn:E1. inversion E; subst.
      destruct (IH _ _ _ _ _ ND' E1) as (A1 & A2 & A3 & A4 & A5 & A6 & A7 & A8 & A9 & A10).
      rewrite R1 in *. repeat split; auto.
      * intros d [ <- | I]; auto.
      * intros d I; auto.
      * intros d I. destruct (A6 d I) as [J|J]; [left; right; auto|].
        destruct (R5 d J) as [ -> | K]; [left; left; reflexivity|right; auto].
      * intros d I. cbn [look]. destruct (Nat.eqb_spec c d) as [->|Ne]; [rewrite Es; reflexivity|].
        destruct I as [->|I]; [congruence|]. auto.
      * intros d I. cbn [look]. destruct (Nat.eqb_spec c d) as [->|Ne]; [exfalso; apply I; left; reflexivity|].
        apply A8. intros J. apply I. right; auto.
      * destruct (A9 _ _ H); auto.
      * destruct (A9 _ _ H) as (_ & d & I & J). exists d. split; auto. right; auto.
      * intros P. cbn [subs_w]. rewrite Es. specialize (A10 (fun d I => P d (or_intror I))). lia.
    + assert (E' : (let '(st, todo, b') := steps cs s (push_state b1) in
        ((c, State (length (states b1))) :: st, (length (states b1), sub c s) :: todo, b')) = (st, todo, b')).
      { rewrite <- E. clear - Nl. destruct (sub c s) as [|[? ?] [|? ?]]; [reflexivity|simpl in Nl; lia|reflexivity]. }
      clear E. destruct (steps cs s (push_state b1)) as [[st1 todo1] b2] eqn:E1. inversion E'; subst. clear E'.
      destruct (IH _ _ _ _ _ ND' E1) as (A1 & A2 & A3 & A4 & A5 & A6 & A7 & A8 & A9 & A10).
      simpl in A1, A2, A4, A5, A6. rewrite R1 in *. rewrite app_length in A2. simpl in A2.
      assert (A4' : incl (toks b1) (toks b')) by exact A4.
      repeat split; auto.
      * rewrite A1, <- app_assoc. reflexivity.
      * simpl. rewrite A2. f_equal. f_equal. lia.
      * intros d [ <- | I]; auto.
      * intros d I; auto.
      * intros d I. destruct (A6 d I) as [J|J]; [left; right; auto|].
        destruct (R5 d J) as [ -> | K]; [left; left; reflexivity|right; auto].
      * intros d I. cbn [look]. destruct (Nat.eqb_spec c d) as [->|Ne].
        { assert (K : exists j, State (length (states b)) = State j /\ In (j, sub d s) ((length (states b), sub d s) :: todo1)).
          { exists (length (states b)). split; [reflexivity|left; reflexivity]. }
          unfold linked. clear - Nl K. destruct (sub d s) as [|[? ?] [|? ?]]; [exact K|simpl in Nl; lia|exact K]. }
        destruct I as [->|I]; [congruence|]. apply linked_cons. auto.
      * intros d I. cbn [look]. destruct (Nat.eqb_spec c d) as [->|Ne]; [exfalso; apply I; left; reflexivity|].
        apply A8. intros J. apply I. right; auto.
      * destruct H as [H|H]; [inversion H; subst; auto|]. destruct (A9 _ _ H); auto.
      * destruct H as [H|H]; [inversion H; subst; exists c; split; auto; left; auto|].
        destruct (A9 _ _ H) as (_ & d & I & J). exists d. split; auto. right; auto.
      * intros P. cbn [subs_w tw fold_right snd]. specialize (A10 (fun d I => P d (or_intror I))).
        specialize (P c (or_introl eq_refl)). unfold tw in A10.
        assert (length (sub c s) <> 0) by (destruct (sub c s); simpl; congruence). lia.
Qed.

(** ** what a tree of states means *)
Fixpoint Rep (h : nat) (D : nat -> Prop) (sts : list (list (nat * step))) (tk : list nat) (i : nat) (s : list (list nat * nat)) : Prop :=
  match h with
  | O => False
  | S h => D i /\ exists st, nth_error sts i = Some st /\ forall c,
      match sub c s with
      | [] => look c st = NoStep
      | [(_, v)] => look c st = Final v /\ In c tk
      | e => exists j, look c st = State j /\ In c tk /\ Rep h D sts tk j e
      end
  end.
Lemma Rep_frame : forall h (D D' : nat -> Prop) sts sts' tk tk' i s,
  Rep h D sts tk i s -> (forall j, D j -> D' j) -> (forall j, D j -> nth_error sts' j = nth_error sts j) -> incl tk tk' ->
  Rep h D' sts' tk' i s.
Proof.
  induction h as [|h IH]; intros D D' sts sts' tk tk' i s H HD HS HT; [exact H|].
  destruct H as (Di & st & N & H). split; [auto|]. exists st. rewrite HS by auto. split; auto.
  intros c. specialize (H c). destruct (sub c s) as [|[r v] [|y e]]; auto.
  - destruct H. auto.
  - destruct H as (j & L & I & R). exists j. split; auto. split; auto.
    eapply IH; eauto.
Qed.

Lemma set_nth_length : forall A n (x : A) l, length (set_nth n x l) = length l.
Proof. intros A n x l. revert n. induction l; intros [|n]; simpl; auto. Qed.
Lemma set_nth_same : forall A n (x : A) l, n < length l -> nth_error (set_nth n x l) n = Some x.
Proof. intros A n x l. revert n. induction l; intros [|n]; simpl; intros; try lia; auto. apply IHl. lia. Qed.
Lemma set_nth_other : forall A n (x : A) l j, j <> n -> nth_error (set_nth n x l) j = nth_error l j.
Proof.
  intros A n x l. revert n. induction l as [|a l IH]; intros [|n] [|j] H; simpl; auto; try congruence.
Qed.

Definition good_rec (F : nat) (rec : nat -> list (list nat * nat) -> build -> option build) : Prop :=
  forall i s b L, L < F -> 2 <= length s -> NoDup (map fst s) -> all_len L s -> i < length (states b) ->
  exists b', rec i s b = Some b'
  /\ (forall j, j < length (states b) -> j <> i -> nth_error (states b') j = nth_error (states b) j)
  /\ length (states b) <= length (states b') <= length (states b) + wt s
  /\ incl (toks b) (toks b') /\ (NoDup (toks b) -> NoDup (toks b'))
  /\ (forall d, In d (toks b') -> In d (toks b) \/ exists k v, In (k, v) s /\ In d k)
  /\ Rep (S L) (fun j => j = i \/ length (states b) <= j < length (states b')) (states b') (toks b') i s.

Definition fold_rec (rec : nat -> list (list nat * nat) -> build -> option build) (todo : list (nat * list (list nat * nat)))
  (ob : option build) : option build :=
  fold_left (fun ob ne => match ob with None => None | Some b => rec (fst ne) (snd ne) b end) todo ob.

Lemma fold_rec_ok : forall F rec, good_rec F rec -> forall todo b,
  NoDup (map fst todo) ->
  (forall n e, In (n, e) todo -> n < length (states b) /\ 2 <= length e /\ NoDup (map fst e) /\ exists L, L < F /\ all_len L e) ->
  exists b', fold_rec rec todo (Some b) = Some b'
  /\ (forall j, j < length (states b) -> ~ In j (map fst todo) -> nth_error (states b') j = nth_error (states b) j)
  /\ length (states b) <= length (states b') <= length (states b) + (tw todo - length todo)
  /\ incl (toks b) (toks b') /\ (NoDup (toks b) -> NoDup (toks b'))
  /\ (forall d, In d (toks b') -> In d (toks b) \/ exists n e k v, In (n, e) todo /\ In (k, v) e /\ In d k)
  /\ (forall n e L, In (n, e) todo -> all_len L e ->
       Rep (S L) (fun j => In j (map fst todo) \/ length (states b) <= j < length (states b')) (states b') (toks b') n e).
Proof.
  intros F rec G. induction todo as [|[n e] todo IH]; intros b ND H.
  - exists b. simpl. split; [reflexivity|]. split; [auto|]. split; [lia|]. split; [apply incl_refl|].
    split; [auto|]. split; [auto|]. intros n e L [].
  - inversion ND as [|x l NI ND']; subst.
    destruct (H n e (or_introl eq_refl)) as (H1 & H2 & H3 & L & H4 & H5).
    destruct (G n e b L H4 H2 H3 H5 H1) as (b1 & E1 & B1 & B2 & B3 & B4 & B5 & B6).
    destruct (IH b1 ND') as (b2 & E2 & C1 & C2 & C3 & C4 & C5 & C6).
    { intros n' e' I. destruct (H n' e' (or_intror I)) as (K1 & K). split; [lia|auto]. }
    exists b2. unfold fold_rec in *. cbn [fold_left fst snd]. rewrite E1. split; [exact E2|].
    assert (LT : forall l, length l <= tw l).
    { induction l as [|[? ?] l IHl]; simpl in *; lia. }
    specialize (LT todo).
    simpl in NI.
    split; [|split; [split|split; [|split; [|split]]]].
    + intros j J1 J2. simpl in J2. rewrite C1; [apply B1; auto|lia|tauto].
    + lia.
    + cbn [tw fold_right snd length]. change (fold_right (fun ne m => 1 + wt (snd ne) + m) 0 todo) with (tw todo). lia.
    + eapply incl_tran; eauto.
    + auto.
    + intros d I. destruct (C5 d I) as [J|(n' & e' & k & v & J1 & J2 & J3)].
      * destruct (B5 d J) as [K|(k & v & K1 & K2)]; [left; auto|right]. exists n, e, k, v. split; auto. left; auto.
      * right. exists n', e', k, v. split; auto. right; auto.
    + intros n' e' L' I AL. destruct I as [I|I].
      * inversion I; subst n' e'.
        assert (L' = L).
        { destruct e as [|[k v] e]; [simpl in H2; lia|]. rewrite <- (AL k v), <- (H5 k v); auto; left; auto. }
        subst L'. eapply Rep_frame; [exact B6| | |exact C3].
        -- intros j [->|J]; simpl; [auto|right; lia].
        -- intros j J. apply C1; [destruct J; lia|]. intros K. destruct J as [->|J]; [auto|].
           apply in_map_iff in K. destruct K as ((n' & e') & K1 & K2). simpl in K1. subst n'.
           destruct (H j e' (or_intror K2)). lia.
      * eapply Rep_frame; [exact (C6 _ _ _ I AL)| |reflexivity|apply incl_refl].
        intros j [J|J]; simpl; [auto|]. right. lia.
Qed.

Lemma existsb_empty : forall n s, all_len (S n) s -> existsb (fun e => length (fst e) =? 0) s = false.
Proof.
  intros n s H. destruct (existsb _ s) eqn:E; auto. apply existsb_exists in E.
  destruct E as ([k v] & I & J). apply H in I. apply Nat.eqb_eq in J. simpl in J. lia.
Qed.
Lemma nodup_len0 : forall s, all_len 0 s -> NoDup (map fst s) -> length s <= 1.
Proof.
  intros [|[k v] [|[k' v'] s]] H N; simpl; try lia. exfalso.
  inversion N; subst. apply H2. left. simpl.
  assert (length k = 0) by (eapply H; left; reflexivity).
  assert (length k' = 0) by (eapply H; right; left; reflexivity).
  destruct k, k'; try discriminate; reflexivity.
Qed.

Lemma seq_in_ge : forall todo n, map fst todo = seq n (length todo) -> forall j e, In (j, e) todo -> n <= j < n + @length (nat * list (list nat * nat)) todo.
Proof.
  intros todo n H j e I. assert (J : In j (map fst todo)) by (apply in_map_iff; exists (j, e); auto).
  rewrite H in J. apply in_seq in J. lia.
Qed.

Lemma make_tree_rec_good : forall fuel, good_rec fuel (make_tree_rec fuel).
Proof.
  induction fuel as [|fuel IH]; intros i s b L HL H2 HN HA Hi; [lia|].
  destruct L as [|L]; [pose proof (nodup_len0 s HA HN); lia|].
  cbn [make_tree_rec].
  destruct (Nat.ltb_spec (length s) 2) as [?|_]; [lia|].
  rewrite (existsb_empty L s HA).
  destruct (steps (firsts s) s b) as [[st todo] b1] eqn:E.
  destruct (steps_ok (firsts s) s b st todo b1 (sorted_nodup _) E) as (A1 & A2 & A3 & A4 & A5 & A6 & A7 & A8 & A9 & A10).
  assert (SUBS : forall c, In c (firsts s) -> sub c s <> []) by (intros c I; apply (firsts_sub c s L HA); auto).
  specialize (A10 SUBS).
  pose proof (subs_w_le (firsts s) s (sorted_nodup _)) as W.
  assert (LB1 : length (states b1) = length (states b) + length todo).
  { rewrite A1, app_length, repeat_length. reflexivity. }
  set (b2 := set_state i st b1).
  assert (LB2 : length (states b2) = length (states b1)) by (unfold b2; simpl; apply set_nth_length).
  destruct (fold_rec_ok fuel (make_tree_rec fuel) IH todo b2) as (b3 & E3 & C1 & C2 & C3 & C4 & C5 & C6).
  { rewrite A2. apply seq_NoDup. }
  { intros n e I. destruct (A9 n e I) as (N1 & c & Ic & ->).
    pose proof (seq_in_ge _ _ A2 _ _ I).
    split; [lia|]. split.
    { specialize (SUBS c Ic). destruct (sub c s) as [|? [|? ?]]; simpl in *; try congruence; lia. }
    split; [apply sub_nodup; auto|]. exists L. split; [lia|]. apply sub_len; auto. }
  exists b3. change (fold_left _ todo (Some (set_state i st b1))) with (fold_rec (make_tree_rec fuel) todo (Some b2)).
  split; [exact E3|].
  assert (TI : forall j, In j (map fst todo) <-> length (states b) <= j < length (states b1)).
  { intros j. rewrite A2, in_seq. lia. }
  assert (LT : forall l, length l <= tw l) by (induction l as [|[? ?] l IHl]; simpl in *; lia).
  specialize (LT todo).
  split; [|split; [split|split; [|split; [|split; [|split]]]]].
  - intros j J1 J2. rewrite C1; [|lia|rewrite TI; lia].
    unfold b2. simpl. rewrite set_nth_other by auto. rewrite A1, nth_error_app1 by lia. reflexivity.
  - lia.
  - lia.
  - intros x I. apply C3. apply A4. exact I.
  - intros N. apply C4. apply A5. exact N.
  - intros d I. destruct (C5 d I) as [J|(n & e & k & v & J1 & J2 & J3)].
    + unfold b2 in J. simpl in J. destruct (A6 d J) as [K|K]; [|left; auto].
      right. destruct (sub d s) as [|[r v] e] eqn:Es; [exfalso; apply (SUBS d K); auto|].
      assert (In (r, v) (sub d s)) by (rewrite Es; left; reflexivity).
      exists (d :: r), v. split; [apply sub_in; auto|left; auto].
    + right. destruct (A9 n e J1) as (_ & c & _ & ->). apply sub_in in J2. exists (c :: k), v. split; auto. right; auto.
  - left; reflexivity.
  - exists st. split.
    { rewrite C1; [|lia|rewrite TI; lia]. unfold b2. simpl. apply set_nth_same. lia. }
    intros c. destruct (in_dec Nat.eq_dec c (firsts s)) as [I|I].
    + specialize (A7 c I). specialize (SUBS c I). unfold linked in A7.
      assert (IT : In c (toks b3)) by (apply C3; unfold b2; simpl; apply A3; auto).
      destruct (sub c s) as [|[r v] [|y e]] eqn:Es; [congruence|auto|].
      destruct A7 as (j & Ej & Ij). exists j. split; auto. split; auto.
      eapply Rep_frame; [apply (C6 j _ L Ij)| |reflexivity|apply incl_refl].
      { rewrite <- Es. apply sub_len; auto. }
      intros j' [J|J]; [rewrite TI in J|]; right; lia.
    + rewrite A8 by auto. destruct (sub c s) as [|[r v] e] eqn:Es; [reflexivity|].
      exfalso. apply I. apply (firsts_sub c s L HA). rewrite Es. discriminate.
Qed.

(** ** the whole tree *)
Lemma of_len_in : forall n s k v, In (k, v) (of_len n s) <-> In (k, v) s /\ length k = n.
Proof. intros. unfold of_len. rewrite filter_In. simpl. rewrite Nat.eqb_eq. tauto. Qed.
Lemma of_len_nodup : forall n s, NoDup (map fst s) -> NoDup (map fst (of_len n s)).
Proof.
  intros n s. induction s as [|[k v] s IH]; intros H; [constructor|].
  inversion H as [|x l N Hs]; subst. specialize (IH Hs). unfold of_len in *. simpl.
  destruct (length k =? n); auto. simpl. constructor; auto. intros I. apply N.
  apply in_map_iff in I. destruct I as (e & E & J). apply filter_In in J. apply in_map_iff. exists e. tauto.
Qed.
Lemma lens_in : forall n s, In n (lens s) <-> of_len n s <> [].
Proof.
  intros n s. unfold lens. rewrite sorted_in, in_map_iff. split.
  - intros ([k v] & E & I) N. assert (J : In (k, v) (of_len n s)) by (apply of_len_in; auto).
    rewrite N in J. destruct J.
  - intros N. destruct (of_len n s) as [|[k v] e] eqn:E; [congruence|].
    assert (J : In (k, v) (of_len n s)) by (rewrite E; left; auto). apply of_len_in in J.
    exists (k, v). simpl. tauto.
Qed.

Fixpoint lens_w (ls : list nat) (s : list (list nat * nat)) : nat :=
  match ls with [] => 0 | n :: ls => length (of_len n s) + wt (of_len n s) + lens_w ls s end.
Lemma lens_w_cons : forall ls k v s, NoDup ls -> lens_w ls ((k, v) :: s) <= 1 + length k + lens_w ls s
  /\ (~ In (length k) ls -> lens_w ls ((k, v) :: s) = lens_w ls s).
Proof.
  induction ls as [|n ls IH]; intros k v s H; [simpl; lia|].
  inversion H as [|x l N Hs]; subst. destruct (IH k v s Hs) as (I1 & I2).
  cbn [lens_w]. unfold of_len in *. cbn [filter fst]. destruct (Nat.eqb_spec (length k) n) as [E|Ne].
  - split; [|intros M; exfalso; apply M; left; auto].
    rewrite I2 by (rewrite E; auto). simpl. lia.
  - split; [lia|]. intros M. rewrite I2; [reflexivity|]. simpl in *. intuition.
Qed.
Lemma lens_w_le : forall ls s, NoDup ls -> lens_w ls s <= length s + wt s.
Proof.
  intros ls s H. induction s as [|[k v] s IH].
  - induction ls as [|c cs IHc]; simpl; [lia|]. inversion H; subst. specialize (IHc ltac:(assumption)). simpl in *. lia.
  - destruct (lens_w_cons ls k v s H) as (I & _). simpl. lia.
Qed.

Lemma len_steps_cons : forall n ls s b, len_steps (n :: ls) s b =
  match of_len n s with
  | [(_, v)] => let '(st, todo, b) := len_steps ls s b in ((n, Final v) :: st, todo, b)
  | e => let '(st, todo, b') := len_steps ls s (push_state b) in ((n, State (length (states b))) :: st, (length (states b), e) :: todo, b')
  end.
Proof. intros. simpl. destruct (of_len n s) as [|[? ?] [|? ?]]; reflexivity. Qed.
Lemma len_steps_ok : forall ls s b st todo b', NoDup ls -> len_steps ls s b = (st, todo, b') ->
  states b' = states b ++ repeat [] (length todo)
  /\ map fst todo = seq (length (states b)) (length todo)
  /\ toks b' = toks b /\ map fst st = ls
  /\ (forall c, In c ls -> linked (of_len c s) (look c st) todo)
  /\ (forall c, ~ In c ls -> look c st = NoStep)
  /\ (forall n e, In (n, e) todo -> length e <> 1 /\ exists c, In c ls /\ e = of_len c s)
  /\ ((forall c, In c ls -> of_len c s <> []) -> tw todo <= lens_w ls s).
Proof.
  induction ls as [|c cs IH]; intros s b st todo b' ND E.
  - simpl in E. inversion E; subst. simpl. rewrite app_nil_r.
    split; [reflexivity|]. split; [reflexivity|]. split; [reflexivity|]. split; [reflexivity|].
    split; [intros c []|]. split; [reflexivity|]. split; [intros n e []|]. intros; apply le_n.
  - inversion ND as [|x l NI ND']; subst. rewrite len_steps_cons in E.
    destruct (single_dec (of_len c s)) as [(r & v & Es)|Nl].
    + rewrite Es in E. destruct (len_steps cs s b) as [[st1 todo1] b2] eqn:E1. inversion E; subst.
      destruct (IH _ _ _ _ _ ND' E1) as (A1 & A2 & A3 & A4 & A7 & A8 & A9 & A10).
      split; [auto|]. split; [auto|]. split; [auto|]. split; [simpl; f_equal; auto|].
      split; [|split; [|split]].
      * intros d I. cbn [look]. destruct (Nat.eqb_spec c d) as [->|Ne]; [rewrite Es; reflexivity|].
        destruct I as [->|I]; [congruence|]. auto.
      * intros d I. cbn [look]. destruct (Nat.eqb_spec c d) as [->|Ne]; [exfalso; apply I; left; reflexivity|].
        apply A8. intros J. apply I. right; auto.
      * intros n e H. destruct (A9 _ _ H) as (H1 & d & I & J). split; auto. exists d. split; auto. right; auto.
      * intros P. cbn [lens_w]. rewrite Es. specialize (A10 (fun d I => P d (or_intror I))). lia.
    + assert (E' : (let '(st, todo, b') := len_steps cs s (push_state b) in
        ((c, State (length (states b))) :: st, (length (states b), of_len c s) :: todo, b')) = (st, todo, b')).
      { rewrite <- E. clear - Nl. destruct (of_len c s) as [|[? ?] [|? ?]]; [reflexivity|simpl in Nl; lia|reflexivity]. }
      clear E. destruct (len_steps cs s (push_state b)) as [[st1 todo1] b2] eqn:E1. inversion E'; subst. clear E'.
      destruct (IH _ _ _ _ _ ND' E1) as (A1 & A2 & A3 & A4 & A7 & A8 & A9 & A10).
      simpl in A1, A2, A3. rewrite app_length in A2. simpl in A2.
      split; [rewrite A1, <- app_assoc; reflexivity|].
      split; [simpl; rewrite A2; f_equal; f_equal; lia|]. split; [auto|]. split; [simpl; f_equal; auto|].
      split; [|split; [|split]].
      * intros d I. cbn [look]. destruct (Nat.eqb_spec c d) as [->|Ne].
        { assert (K : exists j, State (length (states b)) = State j /\ In (j, of_len d s) ((length (states b), of_len d s) :: todo1)).
          { exists (length (states b)). split; [reflexivity|left; reflexivity]. }
          unfold linked. clear - Nl K. destruct (of_len d s) as [|[? ?] [|? ?]]; [exact K|simpl in Nl; lia|exact K]. }
        destruct I as [->|I]; [congruence|]. apply linked_cons. auto.
      * intros d I. cbn [look]. destruct (Nat.eqb_spec c d) as [->|Ne]; [exfalso; apply I; left; reflexivity|].
        apply A8. intros J. apply I. right; auto.
      * intros n e H. destruct H as [H|H]; [inversion H; subst; split; auto; exists c; split; auto; left; auto|].
        destruct (A9 _ _ H) as (H1 & d & I & J). split; auto. exists d. split; auto. right; auto.
      * intros P. cbn [lens_w tw fold_right snd]. specialize (A10 (fun d I => P d (or_intror I))).
        specialize (P c (or_introl eq_refl)). unfold tw in A10.
        assert (length (of_len c s) <> 0) by (destruct (of_len c s); simpl; congruence). lia.
Qed.

Lemma list_max_in : forall l x, In x l -> x <= list_max l.
Proof.
  intros l x I. pose proof (proj1 (list_max_le l (list_max l)) (le_n _)) as F.
  rewrite Forall_forall in F. auto.
Qed.

Lemma make_tree_ok : forall s, NoDup (map fst s) ->
  exists ls b, make_tree s = Some (ls, b) /\ map fst ls = lens s
  /\ length (states b) <= length s + wt s
  /\ NoDup (toks b) /\ (forall d, In d (toks b) -> exists k v, In (k, v) s /\ In d k)
  /\ (forall n, match of_len n s with
       | [] => look n ls = NoStep
       | [(_, v)] => look n ls = Final v
       | e => exists j, look n ls = State j /\ Rep (S n) (fun _ => True) (states b) (toks b) j e
       end).
Proof.
  intros s HN. unfold make_tree.
  destruct (len_steps (lens s) s (mk_build [] [])) as [[ls todo] b1] eqn:E.
  destruct (len_steps_ok (lens s) s _ ls todo b1 (sorted_nodup _) E) as (A1 & A2 & A3 & A4 & A7 & A8 & A9 & A10).
  assert (LE : forall c, In c (lens s) -> of_len c s <> []) by (intros c; apply lens_in).
  specialize (A10 LE). pose proof (lens_w_le (lens s) s (sorted_nodup _)) as W.
  simpl in A1, A2, A3.
  destruct (fold_rec_ok _ _ (make_tree_rec_good (S (list_max (lens s)))) todo b1) as (b3 & E3 & C1 & C2 & C3 & C4 & C5 & C6).
  { rewrite A2. apply seq_NoDup. }
  { intros n e I. destruct (A9 n e I) as (N1 & c & Ic & ->).
    pose proof (seq_in_ge _ _ A2 _ _ I). split; [rewrite A1, repeat_length; lia|]. split.
    { specialize (LE c Ic). destruct (of_len c s) as [|? [|? ?]]; simpl in *; try congruence; lia. }
    split; [apply of_len_nodup; auto|]. exists c. split; [pose proof (list_max_in _ _ Ic); lia|].
    intros k v J. apply of_len_in in J. tauto. }
  change (fold_left _ todo (Some b1)) with (fold_rec (make_tree_rec (S (list_max (lens s)))) todo (Some b1)).
  rewrite E3. exists ls, b3. split; [reflexivity|]. split; [exact A4|].
  assert (LT : forall l, length l <= tw l) by (induction l as [|[? ?] l IHl]; simpl in *; lia).
  specialize (LT todo).
  split; [|split; [|split]].
  - rewrite A1, repeat_length in C2. lia.
  - apply C4. rewrite A3. constructor.
  - intros d I. destruct (C5 d I) as [J|(n & e & k & v & J1 & J2 & J3)]; [rewrite A3 in J; destruct J|].
    destruct (A9 n e J1) as (_ & c & _ & ->). apply of_len_in in J2. exists k, v. tauto.
  - intros n. destruct (in_dec Nat.eq_dec n (lens s)) as [I|I].
    + specialize (A7 n I). specialize (LE n I). unfold linked in A7.
      destruct (of_len n s) as [|[r v] [|y e]] eqn:Es; [congruence|auto|].
      destruct A7 as (j & Ej & Ij). exists j. split; auto.
      eapply Rep_frame; [apply (C6 j _ n Ij)|auto|reflexivity|apply incl_refl].
      intros k' v' J. rewrite <- Es in J. apply of_len_in in J. tauto.
    + rewrite A8 by auto. destruct (of_len n s) as [|[r v] e] eqn:Es; [reflexivity|].
      exfalso. apply I. apply lens_in. rewrite Es. discriminate.
Qed.
