From Coq Require Import List Arith Bool ZArith Lia ZifyBool.
From Verif Require Import Vec_model Vec_spec.
Import ListNotations.

Section P.
Context {A : Type}.
Variables (zero : A) (junk : nat -> A) (max : nat).
Implicit Types (l xs ys m : list A) (v w : vec A).

Lemma ne_app l xs i : nth_error (l ++ xs) i = if i <? length l then nth_error l i else nth_error xs (i - length l).
Proof. destruct (Nat.ltb_spec i (length l)); [now apply nth_error_app1|now apply nth_error_app2]. Qed.
Lemma ne_firstn n l i : nth_error (firstn n l) i = if i <? n then nth_error l i else None.
Proof.
  revert n i. induction l as [|a l IH]; intros n i.
  - rewrite firstn_nil. destruct i; cbn; match goal with |- context [if ?b then _ else _] => destruct b end; reflexivity.
  - destruct n; [destruct i; reflexivity|]. destruct i; cbn; [reflexivity|]. rewrite IH. reflexivity.
Qed.
Lemma ne_skipn n l i : nth_error (skipn n l) i = nth_error l (n + i).
Proof.
  revert n. induction l as [|a l IH]; intros n.
  - rewrite skipn_nil. destruct i, n; reflexivity.
  - destruct n; [reflexivity|]. cbn. apply IH.
Qed.
Lemma ne_repeat n (x : A) i : nth_error (repeat x n) i = if i <? n then Some x else None.
Proof. revert i. induction n; destruct i; cbn; auto. rewrite IHn. reflexivity. Qed.
Lemma ne_none l i : length l <= i -> nth_error l i = None.
Proof. apply nth_error_None. Qed.
Lemma ne_rev l i : nth_error (rev l) i = if i <? length l then nth_error l (length l - 1 - i) else None.
Proof.
  destruct (Nat.ltb_spec i (length l)).
  - destruct l as [|d l']; [cbn in *; lia|]. set (l := d :: l') in *.
    rewrite (nth_error_nth' (rev l) d) by (rewrite rev_length; lia).
    rewrite (nth_error_nth' l d) by lia. f_equal. rewrite rev_nth by lia. f_equal. lia.
  - apply ne_none. rewrite rev_length. lia.
Qed.
Lemma ext l xs : (forall i, nth_error l i = nth_error xs i) -> l = xs.
Proof.
  revert xs. induction l as [|a l IH]; intros [|b xs] H; auto.
  - specialize (H 0). discriminate.
  - specialize (H 0). discriminate.
  - pose proof (H 0) as H0. cbn in H0. injection H0 as ->. f_equal. apply IH. intros i. exact (H (S i)).
Qed.

End P.

#[global] Hint Rewrite app_length firstn_length skipn_length repeat_length map_length seq_length rev_length : lens.
Ltac lens := autorewrite with lens in *.
Ltac nes := repeat (rewrite ?ne_app, ?ne_firstn, ?ne_skipn, ?ne_repeat, ?ne_rev; lens).
Ltac splits := repeat match goal with |- context [if ?a <? ?b then _ else _] => destruct (Nat.ltb_spec a b) end.
Ltac psplits := repeat match goal with |- context [if ?a <? ?b then _ else _] =>
  destruct (Nat.ltb_spec a b); try (exfalso; lia) end.
Ltac fin := first [reflexivity | (f_equal; lia) | lia
  | (symmetry; apply ne_none; lens; lia) | (apply ne_none; lens; lia)
  | (rewrite !ne_none; [reflexivity| lens; lia..])].
Ltac listeq := apply ext; intros ?i; nes; splits; try fin.

Section P2.
Context {A : Type}.
Variables (zero : A) (junk : nat -> A) (max : nat).
Implicit Types (l xs ys m : list A) (v w : vec A).

Lemma mread_ok m pos n : pos + n <= length m -> mread m pos n = VOk (slice m pos n).
Proof. intros H. unfold mread. now rewrite (proj2 (Nat.leb_le _ _) H). Qed.
Lemma mwrite_ok m pos xs : pos + length xs <= length m -> mwrite m pos xs = VOk (overwritten m pos xs).
Proof.
  intros H. unfold mwrite, overwritten. rewrite (proj2 (Nat.leb_le _ _) H). f_equal. f_equal. f_equal. listeq.
Qed.
Lemma mwrite_len m pos xs : pos + length xs <= length m -> length (overwritten m pos xs) = length m.
Proof. intros. unfold overwritten. lens. lia. Qed.
Lemma slice_len m pos n : pos + n <= length m -> length (slice m pos n) = n.
Proof. intros. unfold slice. lens. lia. Qed.
Lemma mmove_ok m dst src n : src + n <= length m -> dst + n <= length m ->
  mmove m dst src n = VOk (overwritten m dst (slice m src n)).
Proof.
  intros H1 H2. unfold mmove. rewrite mread_ok by assumption. cbn [vbind].
  apply mwrite_ok. rewrite slice_len; assumption.
Qed.

Lemma vassert_true b : b = true -> vassert b = VOk tt.
Proof. now intros ->. Qed.

(** growing *)
Lemma grow_loop_ok new : 2 * new <= max -> forall fuel a0 a, a0 <= a -> 0 < a -> new <= a + fuel ->
  exists n, grow_loop max (S fuel) a0 a new = VOk n /\ new <= n /\ a <= n.
Proof.
  intros M. induction fuel as [|f IH]; intros a0 a A0 P F; cbn [grow_loop].
  - destruct (Nat.ltb_spec a new); [lia|]. exists a. auto.
  - destruct (Nat.ltb_spec a new); [|exists a; auto].
    destruct (Nat.ltb_spec max (a * 2)); [lia|]. rewrite vassert_true by lia. cbn [vbind].
    destruct (IH a0 (a * 2)) as (n & E & B & C); [lia..|]. exists n. split; [exact E|]. lia.
Qed.

Lemma grow_ok v n : wf v -> 2 * n <= max ->
  exists w, grow junk max v n = VOk w /\ n <= length (vmem w) /\ vsize w = vsize v /\ wf w /\
    length (vmem v) <= length (vmem w) /\
    (forall i, i < length (vmem v) -> nth_error (vmem w) i = nth_error (vmem v) i).
Proof.
  intros W M. unfold grow, valloc. destruct (Nat.leb_spec n (length (vmem v))) as [L|L].
  - exists v. auto 10.
  - set (a := if _ <? 4 then 4 else _).
    assert (AL : length (vmem v) <= a /\ 0 < a) by (subst a; destruct (Nat.ltb_spec (length (vmem v)) 4); lia).
    destruct (grow_loop_ok n M n (length (vmem v)) a) as (k & -> & K1 & K2); [lia..|].
    cbn [vbind]. eexists. split; [reflexivity|]. cbn [vmem vsize]. unfold wf in *. cbn [vmem vsize]. lens.
    split; [lia|]. split; [reflexivity|]. split; [lia|]. split; [lia|]. intros i I. rewrite nth_error_app1 by assumption. reflexivity.
Qed.

Lemma ne_ov m pos xs i : pos + length xs <= length m -> nth_error (overwritten m pos xs) i =
  if i <? pos then nth_error m i else if i <? pos + length xs then nth_error xs (i - pos) else nth_error m i.
Proof. intros H. unfold overwritten. nes. splits; try fin. Qed.
Lemma ne_slice m pos n i : nth_error (slice m pos n) i = if i <? n then nth_error m (pos + i) else None.
Proof. unfold slice. nes. splits; fin. Qed.

Lemma inflate_ok v pos n : wf v -> pos <= vsize v -> 2 * (vsize v + n) <= max ->
  exists w, inflate zero junk max v pos n = VOk w /\ wf w /\ vsize w = vsize v + n /\
    contents w = inserted (contents v) pos (repeat zero n).
Proof.
  intros W P M. unfold inflate. rewrite vassert_true by lia. cbn [vbind].
  destruct (Nat.eqb_spec n 0) as [->|N].
  { exists v. split; [reflexivity|]. split; [assumption|]. split; [lia|]. unfold inserted. cbn [repeat app].
    now rewrite firstn_skipn. }
  destruct (grow_ok v (vsize v + n) W M) as (w & -> & L & S & W' & L' & E). cbn [vbind].
  unfold wf in *. rewrite mmove_ok by lia. cbn [vbind].
  assert (LM : length (overwritten (vmem w) (pos + n) (slice (vmem w) pos (vsize w - pos))) = length (vmem w)).
  { apply mwrite_len. rewrite slice_len by lia. lia. }
  rewrite mwrite_ok by (rewrite LM, repeat_length; lia). cbn [vbind].
  eexists. split; [reflexivity|]. cbn [vmem vsize]. rewrite mwrite_len by (rewrite LM, repeat_length; lia).
  split; [lia|]. split; [reflexivity|].
  unfold contents, inserted. cbn [vmem vsize]. apply ext. intros i. rewrite ne_firstn.
  rewrite ne_ov by (rewrite LM, repeat_length; lia).
  rewrite ne_ov by (rewrite slice_len; lia). rewrite ne_slice, slice_len by lia. nes.
  splits; try fin; rewrite E by lia; f_equal; lia.
Qed.

Lemma ne_ins l pos xs i : pos <= length l -> nth_error (inserted l pos xs) i =
  if i <? pos then nth_error l i else if i <? pos + length xs then nth_error xs (i - pos) else nth_error l (i - length xs).
Proof. intros H. unfold inserted. nes. splits; try fin. Qed.
Lemma ins_len l pos xs : pos <= length l -> length (inserted l pos xs) = length l + length xs.
Proof. intros. unfold inserted. lens. lia. Qed.

Definition read_source v (s : source A) n : list A :=
  match s with Inside p => slice (contents v) p n | Outside xs => firstn n xs end.
Definition source_ok v (s : source A) n : Prop :=
  match s with Inside p => p + n <= vsize v | Outside xs => n <= length xs end.

Lemma copy_arr_ok v pos s n : wf v -> pos <= vsize v -> 2 * (pos + n) <= max -> source_ok v s n ->
  exists w, copy_arr junk max v pos s n = VOk w /\ wf w /\
    contents w = overwritten (contents v) pos (read_source v s n).
Proof.
  intros W P M SO. unfold copy_arr. rewrite vassert_true by lia. cbn [vbind].
  destruct (Nat.eqb_spec n 0) as [->|N].
  { exists v. split; [reflexivity|]. split; [assumption|]. unfold overwritten.
    assert (read_source v s 0 = []) as -> by (destruct s; reflexivity). cbn [app length skipn]. now rewrite firstn_skipn. }
  set (gr := if vsize v <? pos + n then _ else VOk v).
  assert (G : exists w, gr = VOk w /\ pos + n <= length (vmem w) /\ wf w /\ vsize w = Nat.max (vsize v) (pos + n) /\
     (forall i, i < vsize v -> nth_error (vmem w) i = nth_error (vmem v) i)).
  { subst gr. unfold wf in *. destruct (Nat.ltb_spec (vsize v) (pos + n)).
    - destruct (grow_ok v (pos + n) W M) as (w & -> & L & S & W' & L' & E). cbn [vbind].
      eexists. split; [reflexivity|]. cbn [vmem vsize]. split; [lia|]. split; [lia|]. split; [lia|].
      intros i I. apply E. lia.
    - exists v. split; [reflexivity|]. split; [lia|]. split; [lia|]. split; [lia|]. auto. }
  destruct G as (w & -> & L & W' & S & E). cbn [vbind].
  assert (LR : length (read_source v s n) = n).
  { destruct s as [p|xs]; cbn [read_source source_ok] in *; unfold slice, contents, wf in *; lens; lia. }
  assert (FIN : exists m, overwritten (vmem w) pos (read_source v s n) = m /\ length m = length (vmem w) /\
     firstn (vsize w) m = overwritten (contents v) pos (read_source v s n)).
  { eexists. split; [reflexivity|]. split; [apply mwrite_len; lia|]. unfold contents, wf in *.
    set (r := read_source v s n) in *. clearbody r.
    apply ext. intros i. rewrite ne_firstn, ne_ov by lia. unfold overwritten. nes.
    splits; try fin; rewrite E by lia; f_equal; lia. }
  destruct s as [p|xs]; cbn [source_ok read_source] in *.
  - assert (AS : (if vsize v <? pos + n then vassert (p + n <=? vsize v) else VOk tt) = VOk tt).
    { destruct (_ <? _); [|reflexivity]. apply vassert_true. lia. }
    rewrite AS. cbn [vbind]. unfold wf in *. rewrite mmove_ok by lia. cbn [vbind].
    assert (RS : slice (vmem w) p n = slice (contents v) p n).
    { apply ext. intros i. rewrite !ne_slice. unfold contents. rewrite ne_firstn. splits; try fin. apply E. lia. }
    rewrite RS. destruct FIN as (m & -> & FL & FC). eexists. split; [reflexivity|]. cbn [vmem vsize].
    split; [lia|]. exact FC.
  - rewrite mread_ok by lia. cbn [vbind]. unfold slice. cbn [skipn]. rewrite mwrite_ok by lia. cbn [vbind].
    destruct FIN as (m & -> & FL & FC). eexists. split; [reflexivity|]. unfold wf in *. cbn [vmem vsize].
    split; [lia|]. exact FC.
Qed.

Lemma copy_self_ok v pos src n : wf v -> pos <= vsize v -> 2 * (pos + n) <= max -> src + n <= vsize v ->
  exists w, copy_self junk max v pos src n = VOk w /\ wf w /\
    contents w = overwritten (contents v) pos (slice (contents v) src n).
Proof.
  intros W P M S. unfold copy_self. rewrite vassert_true by lia. cbn [vbind].
  destruct (Nat.ltb_spec (vsize v - src) n); [lia|]. now apply (copy_arr_ok v pos (Inside src) n).
Qed.

(** the general statement, with culling *)
Lemma copy_self_cull v pos src n : wf v -> pos <= vsize v -> src <= vsize v -> 2 * (pos + vsize v) <= max ->
  exists w, copy_self junk max v pos src n = VOk w /\ wf w /\
    contents w = overwritten (contents v) pos (firstn n (skipn src (contents v))).
Proof.
  intros W P S M. unfold copy_self. rewrite vassert_true by lia. cbn [vbind].
  assert (SL : forall k, k = Nat.min n (vsize v - src) -> slice (contents v) src k = firstn n (skipn src (contents v))).
  { intros k ->. unfold slice, contents. listeq. }
  destruct (Nat.ltb_spec (vsize v - src) n).
  - destruct (copy_arr_ok v pos (Inside src) (vsize v - src)) as (w & E & W' & C); [assumption|assumption|lia|cbn; lia|].
    exists w. split; [exact E|]. split; [exact W'|]. rewrite C. cbn [read_source]. rewrite SL by lia. reflexivity.
  - destruct (copy_arr_ok v pos (Inside src) n) as (w & E & W' & C); [assumption|assumption|lia|cbn; lia|].
    exists w. split; [exact E|]. split; [exact W'|]. rewrite C. cbn [read_source]. rewrite SL by lia. reflexivity.
Qed.

Lemma copy_from_cull v pos u src n : wf v -> wf u -> pos <= vsize v -> src <= vsize u -> 2 * (pos + vsize u) <= max ->
  exists w, copy_from junk max v pos u src n = VOk w /\ wf w /\
    contents w = overwritten (contents v) pos (firstn n (skipn src (contents u))).
Proof.
  intros W U P S M. unfold copy_from. rewrite vassert_true by lia. cbn [vbind]. unfold wf in U.
  assert (SL : forall k, k = Nat.min n (vsize u - src) -> firstn k (skipn src (vmem u)) = firstn n (skipn src (contents u))).
  { intros k ->. unfold contents. listeq. }
  destruct (Nat.ltb_spec (vsize u - src) n).
  - destruct (copy_arr_ok v pos (Outside (skipn src (vmem u))) (vsize u - src)) as (w & E & W' & C); [assumption|assumption|lia|cbn; lens; lia|].
    exists w. split; [exact E|]. split; [exact W'|]. rewrite C. cbn [read_source]. rewrite SL by lia. reflexivity.
  - destruct (copy_arr_ok v pos (Outside (skipn src (vmem u))) n) as (w & E & W' & C); [assumption|assumption|lia|cbn; lens; lia|].
    exists w. split; [exact E|]. split; [exact W'|]. rewrite C. cbn [read_source]. rewrite SL by lia. reflexivity.
Qed.

Ltac alens := repeat first [rewrite slice_len by alens1 | rewrite ins_len by alens1 | rewrite mwrite_len by alens1 | rewrite repeat_length | rewrite firstn_length]
with alens1 := alens; lia.
Ltac aliaseq := apply ext; intros ?i;
  repeat first [rewrite ne_ov by alens1 | rewrite ne_ins by alens1 | rewrite ne_slice | rewrite ne_repeat | rewrite ne_firstn | progress alens];
  psplits; first [reflexivity | (f_equal; lia) | (symmetry; apply ne_none; lia) | (apply ne_none; lia)].

Lemma insert_outside_ok dbg v pos xs n : wf v -> pos <= vsize v -> n <= length xs -> 2 * (vsize v + n) <= max ->
  exists w, insert_arr zero junk max dbg v pos (Outside xs) n = VOk w /\ wf w /\
    contents w = inserted (contents v) pos (firstn n xs).
Proof.
  intros W P N M. unfold insert_arr. destruct (Nat.eqb_spec n 0) as [->|N0].
  { exists v. split; [reflexivity|]. split; [assumption|]. unfold inserted. cbn. now rewrite firstn_skipn. }
  destruct (inflate_ok v pos n W P M) as (w & -> & W' & S & C). cbn [vbind].
  destruct (copy_arr_ok w pos (Outside xs) n) as (u & E & W'' & C'); auto; [lia|lia|].
  exists u. split; [exact E|]. split; [exact W''|]. rewrite C', C. cbn [read_source].
  assert (LC : length (contents v) = vsize v) by (unfold contents, wf in *; lens; lia).
  set (c := contents v) in *. clearbody c. aliaseq.
Qed.

Lemma insert_inside_ok dbg v pos src n : wf v -> pos <= vsize v -> src + n <= vsize v -> 2 * (vsize v + n) <= max ->
  src + n <= pos \/ pos + n <= src \/ (dbg = false /\ src <= pos) ->
  exists w, insert_arr zero junk max dbg v pos (Inside src) n = VOk w /\ wf w /\
    contents w = inserted (contents v) pos (slice (contents v) src n).
Proof.
  intros W P N M O. unfold insert_arr. destruct (Nat.eqb_spec n 0) as [->|N0].
  { exists v. split; [reflexivity|]. split; [assumption|]. unfold inserted, slice. cbn. now rewrite firstn_skipn. }
  rewrite vassert_true by lia. cbn [vbind].
  destruct (inflate_ok v pos n W P M) as (w & -> & W' & S & C). cbn [vbind].
  assert (LC : length (contents v) = vsize v) by (unfold contents, wf in *; lens; lia).
  destruct (Nat.leb_spec (src + n) pos).
  { destruct (copy_self_ok w pos src n) as (u & E & W'' & C'); auto; [lia..|].
    exists u. split; [exact E|]. split; [exact W''|]. rewrite C', C.
    set (c := contents v) in *. clearbody c. aliaseq. }
  destruct (Nat.leb_spec (pos + n) src).
  { destruct (copy_self_ok w pos (src + n) n) as (u & E & W'' & C'); auto; [lia..|].
    exists u. split; [exact E|]. split; [exact W''|]. rewrite C', C.
    set (c := contents v) in *. clearbody c. aliaseq. }
  destruct O as [O|[O|[-> O]]]; [lia|lia|].
  rewrite !vassert_true by (cbn; lia). cbn [vbind negb orb].
  destruct (copy_self_ok w pos src (pos - src)) as (u & -> & W'' & C'); auto; [lia..|]. cbn [vbind].
  assert (SU : vsize u = vsize v + n).
  { assert (L : length (contents u) = length (contents w)).
    { rewrite C'. apply mwrite_len. unfold contents, wf in *. rewrite slice_len by (lens; lia). lens. lia. }
    unfold contents, wf in *. lens. lia. }
  destruct (copy_self_ok u (pos + (pos - src)) (pos + n) (n - (pos - src))) as (z & E & W3 & C3); auto; [lia..|].
  rewrite ?vassert_true by lia. cbn [vbind].
  exists z. split; [exact E|]. split; [exact W3|]. rewrite C3, C', C.
  set (c := contents v) in *. clearbody c. aliaseq.
Qed.

Lemma insert_inside_fails v pos src n : wf v -> pos <= vsize v -> src + n <= vsize v -> 2 * (vsize v + n) <= max ->
  src < pos + n -> pos < src + n ->
  insert_arr zero junk max true v pos (Inside src) n = VFail.
Proof.
  intros W P N M O1 O2. unfold insert_arr. destruct (Nat.eqb_spec n 0) as [->|N0]; [lia|].
  rewrite vassert_true by lia. cbn [vbind].
  destruct (inflate_ok v pos n W P M) as (w & -> & W' & S & C). cbn [vbind].
  destruct (Nat.leb_spec (src + n) pos); [lia|]. destruct (Nat.leb_spec (pos + n) src); [lia|].
  destruct (Nat.ltb_spec src pos); [|reflexivity]. cbn [vassert vbind].
  cbn [negb orb]. rewrite vassert_true by lia. cbn [vbind].
  destruct (copy_self_ok w pos src (pos - src)) as (u & -> & W'' & C'); auto; [lia..|]. cbn [vbind].
  destruct (Nat.ltb_spec (pos + n) (src + n)); [lia|]. reflexivity.
Qed.

Lemma remove_ok v pos n : wf v -> pos <= vsize v ->
  exists w, remove v pos n = VOk w /\ wf w /\ contents w = removed (contents v) pos n.
Proof.
  intros W P. unfold remove. rewrite vassert_true by lia. cbn [vbind].
  set (k := if _ <? n then _ else n).
  assert (K : k = Nat.min n (vsize v - pos)) by (subst k; destruct (Nat.ltb_spec (vsize v - pos) n); lia).
  clearbody k. unfold wf in *. rewrite mmove_ok by lia. cbn [vbind].
  eexists. split; [reflexivity|]. cbn [vmem vsize].
  assert (LS : length (slice (vmem v) (pos + k) (vsize v - pos - k)) = vsize v - pos - k) by (apply slice_len; lia).
  rewrite mwrite_len by lia. split; [lia|].
  unfold contents, removed. cbn [vmem vsize]. apply ext. intros i. rewrite ne_firstn, ne_ov by lia.
  rewrite LS, ne_slice. nes. splits; try fin.
Qed.

Lemma extract_ok v pos : wf v -> pos < vsize v ->
  exists x w, extract v pos = VOk ([x], w) /\ nth_error (contents v) pos = Some x /\ wf w /\
    contents w = removed (contents v) pos 1.
Proof.
  intros W P. unfold extract. rewrite vassert_true by lia. cbn [vbind]. unfold wf in W.
  rewrite mread_ok by lia. cbn [vbind].
  destruct (remove_ok v pos 1) as (w & -> & W' & C); [assumption|lia|]. cbn [vbind].
  destruct (nth_error (contents v) pos) as [x|] eqn:E.
  2:{ apply nth_error_None in E. unfold contents in E. lens. lia. }
  exists x, w. split; [|auto]. do 2 f_equal. apply ext. intros i. rewrite ne_slice.
  unfold contents in E. rewrite ne_firstn in E. destruct (Nat.ltb_spec pos (vsize v)); [|lia].
  destruct i as [|i]; cbn; [now rewrite Nat.add_0_r|]. destruct i; reflexivity.
Qed.

Lemma set_size_ok v n : wf v -> 2 * n <= max ->
  exists w, set_size zero junk max v n = VOk w /\ wf w /\
    contents w = firstn n (contents v ++ repeat zero n).
Proof.
  intros W M. unfold set_size. destruct (Nat.ltb_spec (vsize v) n).
  - destruct (grow_ok v n W M) as (w & -> & L & S & W' & L' & E). cbn [vbind].
    rewrite mwrite_ok by (lens; lia). cbn [vbind]. eexists. split; [reflexivity|]. unfold wf in *. cbn [vmem vsize].
    rewrite mwrite_len by (lens; lia). split; [lia|]. unfold contents. cbn [vmem vsize].
    apply ext. intros i. rewrite ne_firstn, ne_ov by (lens; lia). nes.
    splits; try fin; apply E; lia.
  - eexists. split; [reflexivity|]. unfold wf in *. cbn [vmem vsize]. split; [lia|].
    unfold contents. cbn [vmem vsize]. listeq.
Qed.
Lemma ensure_size_ok v n : wf v -> 2 * n <= max ->
  exists w, ensure_size zero junk max v n = VOk w /\ wf w /\
    contents w = contents v ++ repeat zero (n - vsize v).
Proof.
  intros W M. unfold ensure_size. destruct (Nat.ltb_spec (vsize v) n).
  - destruct (grow_ok v n W M) as (w & -> & L & S & W' & L' & E). cbn [vbind].
    rewrite mwrite_ok by (lens; lia). cbn [vbind]. eexists. split; [reflexivity|]. unfold wf in *. cbn [vmem vsize].
    rewrite mwrite_len by (lens; lia). split; [lia|]. unfold contents. cbn [vmem vsize].
    apply ext. intros i. rewrite ne_firstn, ne_ov by (lens; lia). nes.
    splits; try fin; apply E; lia.
  - eexists. split; [reflexivity|]. split; [assumption|]. replace (n - vsize v) with 0 by lia. cbn. now rewrite app_nil_r.
Qed.
Lemma clear_ok v n : wf v -> 2 * n <= max ->
  exists w, clear junk max v n = VOk w /\ wf w /\ contents w = [] /\ n <= length (vmem w).
Proof.
  intros W M. unfold clear. destruct (grow_ok v n W M) as (w & -> & L & _). cbn [vbind].
  eexists. split; [reflexivity|]. unfold wf, contents. cbn. auto with arith.
Qed.

(** reversal: after [i] swaps *)
Lemma mswap_ok m i j : i < length m -> j < length m -> exists m', mswap m i j = VOk m' /\ length m' = length m /\
  forall k, nth_error m' k = if k =? j then nth_error m i else if k =? i then nth_error m j else nth_error m k.
Proof.
  intros I J. unfold mswap. rewrite !mread_ok by lia. cbn [vbind].
  assert (L1 : forall p, p < length m -> length (slice m p 1) = 1) by (intros; apply slice_len; lia).
  rewrite mwrite_ok by (rewrite L1; lia). cbn [vbind].
  assert (LM : length (overwritten m i (slice m j 1)) = length m) by (apply mwrite_len; rewrite L1; lia).
  rewrite mwrite_ok by (rewrite LM, L1; lia). eexists. split; [reflexivity|]. split.
  - rewrite mwrite_len; [exact LM|rewrite LM, L1; lia].
  - intros k. rewrite ne_ov by (rewrite LM, L1; lia). rewrite ne_ov by (rewrite L1; lia). rewrite !L1, !ne_slice by lia.
    destruct (Nat.eqb_spec k j), (Nat.eqb_spec k i); splits; try lia; try (f_equal; lia).
Qed.

Lemma reverse_loop_ok pos n : forall k i m, pos + n <= length m -> i + k = n / 2 ->
  exists m', reverse_loop k m pos n i = VOk m' /\ length m' = length m /\
    forall p, nth_error m' p =
      if (pos + i <=? p) && (p <? pos + i + k) || (pos + n - i - k <=? p) && (p <? pos + n - i) then nth_error m (pos + pos + n - 1 - p)
      else nth_error m p.
Proof.
  induction k as [|k IH]; intros i m L E; cbn [reverse_loop].
  - exists m. split; [reflexivity|]. split; [reflexivity|]. intros p.
    destruct ((pos + i <=? p) && _ || _) eqn:B; [lia|reflexivity].
  - pose proof (Nat.div_mod n 2 ltac:(lia)) as DM. pose proof (Nat.mod_upper_bound n 2 ltac:(lia)) as MB.
    destruct (mswap_ok m (pos + i) (pos + (n - i - 1))) as (m1 & -> & L1 & N1); [lia..|]. cbn [vbind].
    destruct (IH (S i) m1) as (m2 & E2 & L2 & N2); [lia..|]. exists m2. split; [exact E2|]. split; [lia|].
    intros p. rewrite N2, !N1.
    assert (H : 2 * (i + S k) <= n) by lia. clear - H L.
    assert (B1 : (pos + S i <=? p) && (p <? pos + S i + k) || (pos + n - S i - k <=? p) && (p <? pos + n - S i) =
      ((pos + i <=? p) && (p <? pos + i + S k) || (pos + n - i - S k <=? p) && (p <? pos + n - i)) &&
      negb (p =? pos + (n - i - 1)) && negb (p =? pos + i)) by lia.
    rewrite B1. clear B1.
    destruct (Nat.eqb_spec p (pos + (n - i - 1))) as [P1|P1].
    { rewrite andb_false_r. cbn [andb].
      replace ((pos + i <=? p) && (p <? pos + i + S k) || (pos + n - i - S k <=? p) && (p <? pos + n - i)) with true by lia.
      f_equal. lia. }
    destruct (Nat.eqb_spec p (pos + i)) as [P2|P2].
    { rewrite andb_false_r.
      replace ((pos + i <=? p) && (p <? pos + i + S k) || (pos + n - i - S k <=? p) && (p <? pos + n - i)) with true by lia.
      f_equal. lia. }
    cbn [negb]. rewrite !andb_true_r.
    destruct ((pos + i <=? p) && (p <? pos + i + S k) || (pos + n - i - S k <=? p) && (p <? pos + n - i)) eqn:B; [|reflexivity].
    destruct (Nat.eqb_spec (pos + pos + n - 1 - p) (pos + (n - i - 1))); [lia|].
    destruct (Nat.eqb_spec (pos + pos + n - 1 - p) (pos + i)); [lia|]. reflexivity.
Qed.

Lemma ne_reversed_ext l l' pos n k : pos <= length l -> k = Nat.min n (length l - pos) ->
  (forall i, nth_error l' i = if i <? pos then nth_error l i else
             if i <? pos + k then nth_error l (pos + pos + k - 1 - i) else nth_error l i) ->
  reversed l pos n = l'.
Proof.
  intros P K H. apply ext. intros i. rewrite H. unfold reversed.
  assert (L1 : length (firstn pos l) = pos) by (lens; lia).
  assert (L2 : length (firstn n (skipn pos l)) = k) by (lens; lia).
  rewrite ne_app, L1. destruct (Nat.ltb_spec i pos).
  { rewrite ne_firstn. destruct (Nat.ltb_spec i pos); [reflexivity|lia]. }
  rewrite ne_app, rev_length, L2, ne_rev, L2, ne_firstn, !ne_skipn.
  destruct (Nat.ltb_spec (i - pos) k); destruct (Nat.ltb_spec i (pos + k)); try lia.
  - destruct (Nat.ltb_spec (k - 1 - (i - pos)) n); [|lia]. f_equal. lia.
  - clear L1 L2 H. destruct (Nat.ltb_spec i (length l)); [f_equal; lia|]. rewrite !ne_none by lia. reflexivity.
Qed.

Lemma reverse_ok v pos n : wf v -> pos <= vsize v ->
  exists w, reverse v pos n = VOk w /\ wf w /\ contents w = reversed (contents v) pos n.
Proof.
  intros W P. unfold reverse. rewrite vassert_true by lia. cbn [vbind].
  set (k := if _ <? n then _ else n).
  assert (K : k = Nat.min n (vsize v - pos)) by (subst k; destruct (Nat.ltb_spec (vsize v - pos) n); lia).
  clearbody k. unfold wf in *.
  destruct (reverse_loop_ok pos k (k / 2) 0 (vmem v)) as (m & -> & L & N); [lia|lia|]. cbn [vbind].
  eexists. split; [reflexivity|]. cbn [vmem vsize]. split; [lia|].
  pose proof (Nat.div_mod k 2 ltac:(lia)) as DM. pose proof (Nat.mod_upper_bound k 2 ltac:(lia)) as MB.
  assert (KK : 2 * (k / 2) <= k <= 2 * (k / 2) + 1) by lia. clear DM MB.
  set (h := k / 2) in *. clearbody h.
  assert (LC : length (contents v) = vsize v) by (unfold contents; lens; lia).
  rewrite ne_reversed_ext with (k := k) (l := contents v) (l' := contents (mk_vec m (vsize v))); [reflexivity|lia|lia|].
  intros i. unfold contents. cbn [vmem vsize]. rewrite !ne_firstn, N.
  clear - K W P KK. destruct (Nat.ltb_spec i (vsize v)) as [I|I].
  - destruct (Nat.ltb_spec i pos).
    + replace (_ || _) with false by lia. reflexivity.
    + destruct (Nat.ltb_spec i (pos + k)).
      * destruct (Nat.ltb_spec (pos + pos + k - 1 - i) (vsize v)); [|lia].
        destruct (_ || _) eqn:B; [reflexivity|]. f_equal. lia.
      * replace (_ || _) with false by lia. reflexivity.
  - destruct (Nat.ltb_spec i pos); [lia|]. destruct (Nat.ltb_spec i (pos + k)); [lia|reflexivity].
Qed.

(** binary search *)
Lemma bsearch_loop_ok (c : nat -> Z) n :
  (forall i j, i <= j < n -> (c i < 0 -> c j < 0)%Z /\ (c j > 0 -> c i > 0)%Z) ->
  forall fuel a b, b <= n -> b - a <= fuel -> (forall i, i < a -> (c i > 0)%Z) -> (forall i, b <= i < n -> (c i < 0)%Z) ->
  exists r, bsearch_loop (S fuel) c a b = VOk r /\
    match r with Some i => a <= i < b /\ c i = 0%Z | None => forall i, i < n -> c i <> 0%Z end.
Proof.
  intros S. induction fuel as [|f IH]; intros a b B F LO HI; cbn [bsearch_loop].
  - destruct (Nat.ltb_spec a b); [lia|]. exists None. split; [reflexivity|]. intros i I.
    destruct (Nat.lt_ge_cases i a) as [X|X]; [apply LO in X; lia|]. specialize (HI i ltac:(lia)). lia.
  - destruct (Nat.ltb_spec a b) as [AB|AB].
    2:{ exists None. split; [reflexivity|]. intros i I.
        destruct (Nat.lt_ge_cases i a) as [X|X]; [apply LO in X; lia|]. specialize (HI i ltac:(lia)). lia. }
    set (x := a + (b - a) / 2).
    assert (X : a <= x < b).
    { subst x. pose proof (Nat.div_lt (b - a) 2). lia. }
    destruct (Z.ltb_spec (c x) 0) as [C|C].
    + destruct (IH a x) as (r & E & R); [lia|lia|assumption| |].
      { intros i I. apply (S x i); lia. }
      exists r. split; [exact E|]. destruct r; [|assumption]. split; [lia|apply R].
    + destruct (Z.ltb_spec 0 (c x)) as [C'|C'].
      * destruct (IH (x + 1) b) as (r & E & R); [lia|lia| |assumption|].
        { intros i I. apply (S i x); lia. }
        exists r. split; [exact E|]. destruct r; [|assumption]. split; [lia|apply R].
      * exists (Some x). split; [reflexivity|]. split; [assumption|lia].
Qed.

Lemma bsearch_ok (cmp : A -> Z) m : sorted_for cmp m ->
  exists r, bsearch zero cmp m = VOk r /\
    match r with
    | Some i => exists x, nth_error m i = Some x /\ cmp x = 0%Z
    | None => forall x, In x m -> cmp x <> 0%Z
    end.
Proof.
  intros S. unfold bsearch.
  destruct (bsearch_loop_ok (fun i => cmp (nth i m zero)) (length m)) with (fuel := length m) (a := 0) (b := length m)
    as (r & E & R); try lia.
  - intros i j IJ. destruct (S i j (nth i m zero) (nth j m zero)) as [S1 S2]; [lia|apply nth_error_nth'; lia|apply nth_error_nth'; lia|].
    split; assumption.
  - exists r. split; [exact E|]. destruct r as [i|].
    + exists (nth i m zero). split; [apply nth_error_nth'; lia|apply R].
    + intros x I. destruct (In_nth m x zero I) as (i & L & <-). now apply R.
Qed.

End P2.
