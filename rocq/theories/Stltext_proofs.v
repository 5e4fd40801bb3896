(** Reading in place is the same as reading a copy: tokens. *)
From Coq Require Import ZArith Bool String List Lia ZifyBool.
From Verif Require Import Stl_model Stltext_model Stltext_spec.
Import ListNotations.
Local Open Scope Z_scope.

Section Lex.
Variable f : list Z.
Notation size := (length f).

(** the reader is at the remaining bytes s; g: the byte there has been overwritten *)
Record at_ (l : lex) (s : list Z) (g : bool) : Prop := mk_at {
  a_pos : (lpos l <= size)%nat;
  a_rest : s = skipn (lpos l) f;
  a_cur : cur l = nth 0 s 0;
  a_len : length (mem l) = S size;
  a_mem : forall i, (lpos l < i)%nat -> nth_error (mem l) i = nth_error (f ++ [0]) i;
  a_here : nth_error (mem l) (lpos l) = Some (if g then 0 else nth 0 s 0) }.

Lemma nth_skipn {A} (l : list A) n i d : nth i (skipn n l) d = nth (n + i) l d.
Proof. revert n. induction l as [|x l IH]; intros [|n]; cbn; try reflexivity; [destruct i; reflexivity| apply IH]. Qed.
Lemma nth_error_f i : (i <= size)%nat -> nth_error (f ++ [0]) i = Some (nth i f 0).
Proof.
  intros H. destruct (Nat.eq_dec i size) as [->|N].
  - rewrite nth_error_app2, Nat.sub_diag by lia. rewrite nth_overflow by lia. reflexivity.
  - rewrite nth_error_app1 by lia. apply nth_error_nth'. lia.
Qed.
Lemma tl_skipn {A} n (l : list A) : tl (skipn n l) = skipn (S n) l.
Proof. revert n. induction l as [|x l IH]; intros [|n]; cbn; try reflexivity. rewrite IH. destruct l; reflexivity. Qed.

Lemma skipn_len l s g : at_ l s g -> length s = (size - lpos l)%nat.
Proof. intros H. rewrite (a_rest _ _ _ H), skipn_length. reflexivity. Qed.

(** what changes when the position moves *)
Definition moved (l l' : lex) (n : nat) : Prop := mem l' = mem l /\ lpos l' = (lpos l + n)%nat.

Lemma lex_next_ok l s g : at_ l s g ->
  exists l', lex_next size l = SOk l' /\ at_ l' (tl s) false /\ moved l l' (Nat.min 1 (length s)).
Proof.
  intros H. pose proof (skipn_len _ _ _ H) as LS. destruct H as [H1 H2 H3 H4 H5 H6]. unfold lex_next.
  destruct (Nat.leb_spec size (lpos l)) as [E|E].
  - assert (s = []) by (destruct s; [reflexivity|cbn in LS; lia]). rewrite H in *. cbn [tl length Nat.min].
    eexists. split; [reflexivity|]. split; [|split; [reflexivity|cbn; lia]].
    constructor; cbn [mem lpos cur]; try assumption; try reflexivity. rewrite H6. destruct g; reflexivity.
  - rewrite H5 by lia. rewrite nth_error_f by lia.
    eexists. split; [reflexivity|]. split.
    + constructor; cbn [mem lpos cur]; try lia.
      * rewrite H2. apply tl_skipn.
      * rewrite H2, tl_skipn, nth_skipn. f_equal. lia.
      * intros i Hi. apply H5. lia.
      * rewrite H5, nth_error_f by lia. rewrite H2, tl_skipn, nth_skipn. do 2 f_equal. lia.
    + split; cbn [mem lpos]; [reflexivity|]. destruct s; cbn in *; lia.
Qed.

Fixpoint takew (P : Z -> bool) (s : list Z) : list Z :=
  match s with [] => [] | c :: r => if P c then c :: takew P r else [] end.
Fixpoint dropw (P : Z -> bool) (s : list Z) : list Z :=
  match s with [] => [] | c :: r => if P c then dropw P r else s end.
Lemma takew_dropw P s : takew P s ++ dropw P s = s.
Proof. induction s as [|c s IH]; cbn; [reflexivity|]. destruct (P c); cbn; [rewrite IH|]; reflexivity. Qed.
Lemma takew_all P s : Forall (fun c => P c = true) (takew P s).
Proof. induction s as [|c s IH]; cbn; [constructor|]. destruct (P c) eqn:E; [constructor; assumption|constructor]. Qed.
Lemma dropw_hd P s : match dropw P s with [] => True | c :: _ => P c = false end.
Proof. induction s as [|c s IH]; cbn; [exact I|]. destruct (P c) eqn:E; [exact IH|exact E]. Qed.
Lemma dropw_app P a s : Forall (fun c => P c = true) a -> dropw P (a ++ s) = dropw P s.
Proof. induction 1 as [|c a H HA IH]; cbn; [reflexivity|]. rewrite H. exact IH. Qed.
Lemma takew_app P a s : Forall (fun c => P c = true) a -> takew P (a ++ s) = a ++ takew P s.
Proof. induction 1 as [|c a H HA IH]; cbn; [reflexivity|]. rewrite H. f_equal. exact IH. Qed.
Lemma drop_stop P s : match s with [] => True | c :: _ => P c = false end -> dropw P s = s.
Proof. destruct s as [|c s]; cbn; [reflexivity|]. intros ->. reflexivity. Qed.
Lemma take_stop P s : match s with [] => True | c :: _ => P c = false end -> takew P s = [].
Proof. destruct s as [|c s]; cbn; [reflexivity|]. intros ->. reflexivity. Qed.

Definition starts (P : Z -> bool) (s : list Z) : bool := match s with [] => false | c :: _ => P c end.

Lemma skip_while_ok P : P 0 = false -> forall fuel l s g, at_ l s g -> (length s < fuel)%nat ->
  exists l', skip_while size P fuel l = SOk l' /\ at_ l' (dropw P s) (g && negb (starts P s)) /\
    moved l l' (length (takew P s)).
Proof.
  intros P0. induction fuel as [|fuel IH]; intros l s g H L; [lia|]. cbn [skip_while].
  rewrite (a_cur _ _ _ H). destruct s as [|c s]; cbn [nth dropw takew starts].
  - rewrite P0. exists l. rewrite andb_true_r. split; [reflexivity|]. split; [exact H|]. split; [reflexivity|cbn; lia].
  - destruct (P c) eqn:E; cbn [negb].
    + destruct (lex_next_ok _ _ _ H) as (l1 & -> & H1 & M1). cbn [sbind tl] in *.
      destruct (IH l1 s false H1) as (l2 & -> & H2 & M2); [cbn in L; lia|].
      exists l2. rewrite andb_false_r. split; [reflexivity|]. split; [exact H2|].
      destruct M1 as [M1 N1], M2 as [M2 N2]. cbn [length] in *. split; [congruence|lia].
    + exists l. rewrite andb_true_r. split; [reflexivity|]. split; [exact H|]. split; [reflexivity|cbn; lia].
Qed.

Lemma poke_length m p x : length (poke m p x) = length m.
Proof. revert p. induction m as [|y m IH]; intros [|p]; cbn; try reflexivity. rewrite IH. reflexivity. Qed.
Lemma poke_same m p x : (p < length m)%nat -> nth_error (poke m p x) p = Some x.
Proof. revert p. induction m as [|y m IH]; intros [|p] H; cbn in *; try lia; [reflexivity|]. apply IH. lia. Qed.
Lemma poke_other m p x i : i <> p -> nth_error (poke m p x) i = nth_error m i.
Proof. revert p i. induction m as [|y m IH]; intros [|p] [|i] H; cbn; try reflexivity; try congruence. apply IH. congruence. Qed.

Lemma zap_ok l s g : at_ l s g -> exists l', zap l = SOk l' /\ at_ l' s true /\ lpos l' = lpos l /\
  mem l' = poke (mem l) (lpos l) 0.
Proof.
  intros [H1 H2 H3 H4 H5 H6]. unfold zap. rewrite H4. destruct (Nat.ltb_spec (lpos l) (S size)); [|lia].
  eexists. split; [reflexivity|]. split; [|split; reflexivity].
  constructor; cbn [mem lpos cur]; try assumption.
  - rewrite poke_length. exact H4.
  - intros i Hi. rewrite poke_other by lia. apply H5, Hi.
  - apply poke_same. lia.
Qed.

Lemma deref_ok l s g : at_ l s g -> deref l = SOk (if g then 0 else nth 0 s 0).
Proof. intros H. unfold deref. rewrite (a_here _ _ _ H). reflexivity. Qed.

(** there is a NUL behind *)
Lemma cstr_of_some m : In 0 m -> exists w, cstr_of m = Some w.
Proof.
  induction m as [|c m IH]; intros H; [destruct H|]. cbn. destruct (Z.eqb_spec c 0) as [E|E]; [eexists; reflexivity|].
  destruct H as [H|H]; [congruence|]. destruct (IH H) as (w & ->). eexists. reflexivity.
Qed.
Lemma cstr_of_app w r : Forall (fun c => c <> 0) w -> cstr_of (w ++ 0 :: r) = Some w.
Proof.
  induction 1 as [|c w H HW IH]; cbn; [reflexivity|]. destruct (Z.eqb_spec c 0); [congruence|]. rewrite IH. reflexivity.
Qed.
(** the last byte is always NUL *)
Lemma at_nul l s g : at_ l s g -> nth_error (mem l) size = Some 0.
Proof.
  intros H. destruct (Nat.eq_dec (lpos l) size) as [E|E].
  - pose proof (a_here _ _ _ H) as A. pose proof (skipn_len _ _ _ H) as B. rewrite E in *.
    destruct s; [|cbn in B; lia]. cbn in A. destruct g; exact A.
  - pose proof (a_pos _ _ _ H). rewrite (a_mem _ _ _ H) by lia. rewrite nth_error_f by lia. rewrite nth_overflow by lia. reflexivity.
Qed.
Lemma nth_error_skipn {A} (l : list A) n i : nth_error (skipn n l) i = nth_error l (n + i).
Proof. revert n. induction l as [|x l IH]; intros [|n]; cbn; try reflexivity; [destruct i; reflexivity|apply IH]. Qed.
Lemma cstr_some l s g p : at_ l s g -> (p <= size)%nat -> exists w, cstr (mem l) p = Some w.
Proof.
  intros H L. apply cstr_of_some. apply nth_error_In with (size - p)%nat. rewrite nth_error_skipn.
  replace (p + (size - p))%nat with size by lia. exact (at_nul _ _ _ H).
Qed.

(** the string of a token that has just been ended *)
Lemma nth_error_ext {A} (a b : list A) : (forall i, nth_error a i = nth_error b i) -> a = b.
Proof.
  revert b. induction a as [|x a IH]; intros [|y b] H; try reflexivity.
  - specialize (H 0%nat). discriminate H.
  - specialize (H 0%nat). discriminate H.
  - f_equal; [specialize (H 0%nat); cbn in H; congruence|]. apply IH. intros i. exact (H (S i)).
Qed.
Lemma cstr_token l1 w s l2 g2 : at_ l1 (w ++ s) false -> Forall (fun c => c <> 0) w -> at_ l2 s g2 ->
  mem l2 = mem l1 -> lpos l2 = (lpos l1 + length w)%nat ->
  cstr (poke (mem l2) (lpos l2) 0) (lpos l1) = Some w.
Proof.
  intros H1 W H2 M E. unfold cstr.
  assert (K : exists r, skipn (lpos l1) (poke (mem l2) (lpos l2) 0) = w ++ 0 :: r).
  { exists (skipn (S (lpos l2)) (mem l2)). apply nth_error_ext. intros i.
    rewrite nth_error_skipn. destruct (Nat.lt_trichotomy i (length w)) as [C|[C|C]].
    - rewrite poke_other by lia. rewrite nth_error_app1 by exact C. rewrite M.
      assert (Q : nth_error (mem l1) (lpos l1 + i) = Some (nth i (w ++ s) 0)).
      { pose proof (skipn_len _ _ _ H1) as LS. rewrite app_length in LS. pose proof (a_pos _ _ _ H1).
        destruct i as [|i].
        - rewrite Nat.add_0_r. exact (a_here _ _ _ H1).
        - rewrite (a_mem _ _ _ H1) by lia. rewrite nth_error_f by lia.
          rewrite (a_rest _ _ _ H1), nth_skipn. reflexivity. }
      rewrite Q. rewrite app_nth1 by exact C. symmetry. apply nth_error_nth'. exact C.
    - rewrite nth_error_app2, C, Nat.sub_diag by lia. cbn [nth_error]. rewrite <- E. apply poke_same.
      rewrite (a_len _ _ _ H2). pose proof (a_pos _ _ _ H2). lia.
    - rewrite poke_other by lia. rewrite nth_error_app2 by lia.
      destruct (i - length w)%nat as [|j] eqn:J; [lia|]. cbn [nth_error]. rewrite nth_error_skipn. f_equal. lia. }
  destruct K as (r & ->). apply cstr_of_app, W.
Qed.
End Lex.
