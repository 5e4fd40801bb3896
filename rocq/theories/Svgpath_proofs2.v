(** Reading path data. *)
From Coq Require Import ZArith List Bool Lia ZifyBool.
From Verif Require Import Svgpath_model Svgpath_spec Svgpath_proofs.
Import ListNotations.
Local Open Scope Z_scope.

Lemma space_iff c : is_space c = true <-> space c.
Proof. unfold is_space, space. lia. Qed.
Lemma digit_iff c : is_digit c = true <-> digit c.
Proof. unfold is_digit, digit. lia. Qed.
Lemma digit_false c : ~ digit c -> is_digit c = false.
Proof. rewrite <- digit_iff. destruct (is_digit c); intuition congruence. Qed.

(** first characters of numbers *)
Definition num_start (c : Z) : Prop := digit c \/ c = 46 \/ c = 43 \/ c = 45.

Lemma sep_spaces b a t : spaces a -> s_sep b (a ++ t) = s_sep b t.
Proof.
  induction 1 as [|c a S F IH]; cbn; [reflexivity|].
  rewrite (proj2 (space_iff c) S). replace (c =? 44) with false by (unfold space in S; lia). now rewrite andb_false_r.
Qed.
Lemma sep_stop b c t : ~ space c -> c <> 44 -> s_sep b (c :: t) = c :: t.
Proof.
  intros S N. cbn. replace (c =? 44) with false by lia. rewrite andb_false_r.
  destruct (is_space c) eqn:E; [apply space_iff in E; contradiction|reflexivity].
Qed.
Lemma sep_stop_false c t : ~ space c -> s_sep false (c :: t) = c :: t.
Proof. intros S. cbn. destruct (is_space c) eqn:E; [apply space_iff in E; contradiction|reflexivity]. Qed.

Lemma sep_ok b sp c t : sep b sp -> ~ space c -> c <> 44 -> s_sep b (sp ++ c :: t) = c :: t.
Proof.
  intros [S|(-> & a & b' & A & B & ->)] NS NC.
  - rewrite sep_spaces; [|assumption]. now apply sep_stop.
  - rewrite <- app_assoc, sep_spaces; [|assumption]. cbn. rewrite sep_spaces; [|assumption]. now apply sep_stop.
Qed.

Lemma sep_sep b t : s_sep b (s_sep false t) = s_sep b t.
Proof.
  induction t as [|c t IH]; [reflexivity|]. cbn.
  destruct (is_space c) eqn:E.
  - rewrite IH. apply space_iff in E. replace (c =? 44) with false by (unfold space in E; lia). now rewrite andb_false_r.
  - cbn. rewrite E. reflexivity.
Qed.

Lemma sep_length b t : (length (s_sep b t) <= length t)%nat.
Proof.
  revert b. induction t as [|c t IH]; intros b; cbn; [lia|].
  destruct (b && (c =? 44)); [specialize (IH false); lia|]. destruct (is_space c); [specialize (IH b); lia|cbn; lia].
Qed.

(** numbers *)
Lemma mant_digits dot d ds t : digits ds -> mant dot d (ds ++ t) = mant dot (d || negb (Nat.eqb (length ds) 0)) t.
Proof.
  intros F. revert d. induction F as [|c ds C F IH]; intros d; cbn; [now rewrite orb_false_r|].
  rewrite (proj2 (digit_iff c) C), IH. cbn. now rewrite orb_true_r.
Qed.

Lemma mant_stop dot d c t : ~ digit c -> (dot = true \/ c <> 46) -> mant dot d (c :: t) = (d, c :: t).
Proof.
  intros N M. cbn. rewrite digit_false; [|assumption]. replace (negb dot && (c =? 46)) with false by lia. reflexivity.
Qed.

Lemma exp_ok ds t h : digits ds -> ~ digit (hd0 t) -> exp_digits h (ds ++ t) = (h || negb (Nat.eqb (length ds) 0), t).
Proof.
  intros F N. revert h. induction F as [|c ds C F IH]; intros h; cbn.
  - rewrite orb_false_r. destruct t as [|c t]; [reflexivity|]. cbn in *. now rewrite digit_false.
  - rewrite (proj2 (digit_iff c) C), IH. cbn. now rewrite orb_true_r.
Qed.

Lemma digits_no46 ds : digits ds -> ~ In 46 ds /\ ~ In 101 ds /\ ~ In 69 ds.
Proof. unfold digits. rewrite Forall_forall. unfold digit. intros F. repeat split; intros I; apply F in I; lia. Qed.

Lemma len_nz (A : Type) (l : list A) : l <> [] -> negb (Nat.eqb (length l) 0) = true.
Proof. destruct l; [congruence|reflexivity]. Qed.

(** the mantissa is read up to what does not continue it *)
Lemma mant_ok m t : mantissa m ->
  match t with [] => True | c :: _ => ~ digit c /\ (c = 46 -> In 46 m) end ->
  mant false false (m ++ t) = (true, t).
Proof.
  intros M E. destruct M as [ds F N|a b FA FB N].
  - rewrite mant_digits by assumption. rewrite len_nz by assumption. cbn [orb].
    destruct t as [|c t]; [reflexivity|]. destruct E as [E1 E2]. apply mant_stop; [assumption|].
    right. intros ->. destruct (digits_no46 ds F) as [H _]. auto.
  - rewrite <- app_assoc. rewrite mant_digits by assumption. cbn [app mant orb].
    replace (is_digit 46) with false by reflexivity. cbn [negb andb]. replace (46 =? 46) with true by reflexivity.
    rewrite mant_digits by assumption.
    assert (H : negb (Nat.eqb (length a) 0) || negb (Nat.eqb (length b) 0) = true).
    { destruct a, b; try reflexivity. now elim N. }
    rewrite H. destruct t as [|c t]; [reflexivity|]. apply mant_stop; [tauto|auto].
Qed.

Lemma mant_start m : mantissa m -> exists c r, m = c :: r /\ (digit c \/ c = 46).
Proof.
  intros [ds F N|a b FA FB N].
  - destruct F; [congruence|]. eauto.
  - destruct FA; cbn; eauto.
Qed.

Lemma num_starts s w : num s w -> exists c r, w = c :: r /\ num_start c.
Proof.
  intros (sg & m & e & S & M & _ & ->). destruct (mant_start m M) as (c & r & -> & C). unfold num_start.
  destruct S as [ -> | [ -> | -> ]]; cbn; eexists; eexists; (split; [reflexivity|tauto]).
Qed.

Lemma str_float_ok w t : num false w -> ends w t -> str_float (w ++ t) = Some t.
Proof.
  intros (sg & m & e & S & M & E & ->) EN. unfold str_float.
  assert (SK : skip_sign ((sg ++ m ++ e) ++ t) = m ++ e ++ t).
  { rewrite <- !app_assoc. destruct (mant_start m M) as (c & r & -> & C).
    destruct S as [ -> | [ -> | -> ]]; try reflexivity. cbn.
    replace ((c =? 45) || (c =? 43)) with false by (unfold digit in C; lia). reflexivity. }
  rewrite SK. clear SK.
  assert (MS : forall x, mantissa m -> In x m -> digit x \/ x = 46).
  { intros x [ds F N|a b FA FB N] I.
    - unfold digits in F. rewrite Forall_forall in F. auto.
    - unfold digits in FA, FB. rewrite Forall_forall in FA, FB. apply in_app_or in I as [I|[I|I]]; auto. }
  destruct E as [|c s ds C SG F N].
  - cbn [app]. rewrite app_nil_r in EN. rewrite mant_ok; [|assumption|].
    + cbn [negb]. destruct t as [|c t]; [reflexivity|]. destruct EN as (_ & _ & N1 & N2 & _). cbn [hd0 hd].
      replace ((c =? 101) || (c =? 69)) with false by lia. reflexivity.
    + destruct t as [|c t]; [exact I|]. destruct EN as (N1 & N2 & _). split; [assumption|]. intros ->.
      specialize (N2 eq_refl). rewrite !in_app_iff in N2.
      assert (H101 : ~ (In 101 m \/ In 69 m)) by (intros [H|H]; apply MS in H; unfold digit in H; try assumption; lia).
      assert (HS : ~ (In 46 sg \/ In 101 sg \/ In 69 sg)).
      { destruct S as [ -> | [ -> | -> ]]; cbn; lia. }
      tauto.
  - destruct SG as [ -> | [SG _]]; [|discriminate SG]. cbn [app].
    rewrite mant_ok; [|assumption|].
    + cbn [negb hd0 hd tl]. replace ((c =? 101) || (c =? 69)) with true by lia.
      rewrite exp_ok; [|assumption|].
      * rewrite len_nz by assumption. reflexivity.
      * destruct t as [|x t]; cbn; [unfold digit; lia|]. apply EN.
    + unfold digit. split; [lia|]. lia.
Qed.

Lemma skip_sign_length t : (length (skip_sign t) <= length t)%nat.
Proof. destruct t as [|c t]; cbn; [lia|]. destruct ((c =? 45) || (c =? 43)); cbn; lia. Qed.
Lemma mant_length dot d t : (length (snd (mant dot d t)) <= length t)%nat /\
  (d = false -> fst (mant dot d t) = true -> (length (snd (mant dot d t)) < length t)%nat).
Proof.
  revert dot d. induction t as [|c t IH]; intros dot d; cbn; [split; [lia|congruence]|].
  destruct (is_digit c).
  - destruct (IH dot true). split; [lia|]. intros _ _. lia.
  - destruct (negb dot && (c =? 46)).
    + destruct (IH true d) as [A B]. split; [lia|]. intros E F. specialize (B E F). lia.
    + cbn. split; [lia|congruence].
Qed.
Lemma exp_length h t : (length (snd (exp_digits h t)) <= length t)%nat.
Proof. revert h. induction t as [|c t IH]; intros h; cbn; [lia|]. destruct (is_digit c); [specialize (IH true); lia|cbn; lia]. Qed.

Lemma str_float_length t r : str_float t = Some r -> (length r < length t)%nat.
Proof.
  unfold str_float. pose proof (skip_sign_length t) as S.
  destruct (mant false false (skip_sign t)) as [d s] eqn:M.
  pose proof (mant_length false false (skip_sign t)) as [_ L]. rewrite M in L. cbn [fst snd] in L.
  destruct d; cbn [negb]; [|discriminate]. specialize (L eq_refl eq_refl).
  destruct ((hd0 s =? 101) || (hd0 s =? 69)).
  - pose proof (exp_length false (tl s)) as E. destruct (exp_digits false (tl s)) as [h t'].
    cbn [snd] in E. pose proof (skip_sign_length s).
    assert (length (tl s) <= length s)%nat by (destruct s; cbn; lia).
    intros H1. injection H1 as <-. destruct h; lia.
  - intros H1. injection H1 as <-. lia.
Qed.

Section R.
Variable D : Type.
Variables (dzero : D) (dadd dmir : D -> D -> D) (deq : D -> D -> bool).
Variable quad_in : pt D -> pt D -> pt D -> list (pt D).
Variable cub_in : pt D -> pt D -> pt D -> pt D -> list (pt D).
Variable strtod : text -> D * nat.
Variable val : text -> D.

Notation s_double := (s_double D strtod).
Notation s_nums := (s_nums D strtod).
Notation loop := (loop D strtod).
Notation group := (group D strtod).
Notation command := (command D dzero dadd dmir deq quad_in cub_in strtod).
Notation str_path := (str_path D dzero dadd dmir deq quad_in cub_in strtod).
Notation nums := (nums D val).
Notation run := (run D dzero dadd dmir deq quad_in cub_in).
Notation exec := (exec D dzero dadd dmir deq quad_in cub_in).

Lemma double_sep b t : s_double b (s_sep false t) = s_double b t.
Proof. unfold Svgpath_model.s_double. now rewrite sep_sep. Qed.
Lemma nums_sep n b t : (0 < n)%nat -> s_nums n b (s_sep false t) = s_nums n b t.
Proof. destruct n; [lia|]. intros _. cbn. now rewrite double_sep. Qed.

Lemma double_length b t v r : s_double b t = Some (v, r) -> (length r < length t)%nat.
Proof.
  unfold Svgpath_model.s_double. pose proof (sep_length b t).
  destruct (str_float (s_sep b t)) as [x|] eqn:E; [|discriminate]. apply str_float_length in E.
  destruct (strtod (s_sep b t)). destruct (Nat.eqb _ _); [|discriminate]. intros H1. injection H1 as <- <-. lia.
Qed.
Lemma nums_length n b t vs r : s_nums n b t = Some (vs, r) -> (length r + n <= length t)%nat.
Proof.
  revert b t vs r. induction n as [|n IH]; intros b t vs r; cbn.
  - intros H. injection H as <- <-. lia.
  - destruct (s_double b t) as [[v t']|] eqn:E; [|discriminate]. apply double_length in E.
    destruct (s_nums n true t') as [[vs' t'']|] eqn:E'; [|discriminate]. apply IH in E'.
    intros H. injection H as <- <-. lia.
Qed.

(** never out of fuel *)
Lemma loop_fuel n other : (0 < n)%nat -> forall fuel t q, (length t < fuel)%nat ->
  loop fuel n other t q <> NoFuel D /\ (forall q' r, loop fuel n other t q = Done D q' r -> (length r <= length t)%nat).
Proof.
  intros N. induction fuel as [|fuel IH]; intros t q L; [lia|]. cbn.
  destruct (looking t).
  - destruct (s_nums n true (s_sep false t)) as [[vs t']|] eqn:E; [|split; discriminate].
    apply nums_length in E. pose proof (sep_length false t).
    destruct (IH t' (other vs q) ltac:(lia)) as [A B]. split; [assumption|]. intros q' r H1. apply B in H1. lia.
  - split; [discriminate|]. intros q' r H. injection H as <- <-. apply sep_length.
Qed.

Lemma group_fuel n first other t q : (0 < n)%nat ->
  group n first other t q <> NoFuel D /\ (forall q' r, group n first other t q = Done D q' r -> (length r <= length t)%nat).
Proof.
  intros N. unfold Svgpath_model.group.
  destruct (s_nums n false (s_sep false t)) as [[vs t']|] eqn:E; [|split; discriminate].
  apply nums_length in E. pose proof (sep_length false t).
  destruct (loop_fuel n other N (S (length t')) t' (first vs q) ltac:(lia)) as [A B].
  split; [assumption|]. intros q' r H1. apply B in H1. lia.
Qed.

Lemma command_fuel c t q :
  command c t q <> NoFuel D /\ (forall q' r, command c t q = Done D q' r -> (length r <= length t)%nat).
Proof.
  unfold Svgpath_model.command. set (rel := (97 <=? c) && (c <=? 122)).
  assert (HS : Stop D q <> NoFuel D /\ (forall q' r, Stop D q = Done D q' r -> (length r <= length t)%nat)) by (split; discriminate).
  destruct c as [|c|c]; [exact HS| |exact HS].
  do 7 (destruct c as [c|c|]; try exact HS; try (apply group_fuel; lia); try (split; [discriminate|intros q' r H; injection H as <- <-; lia]);
    try (split; discriminate)).
Qed.

Lemma path_fuel fuel t q : (length t < fuel)%nat -> str_path fuel t q <> NoFuel D.
Proof.
  revert t q. induction fuel as [|fuel IH]; intros t q L; [lia|]. cbn.
  pose proof (sep_length false t) as S. destruct (s_sep false t) as [|c r]; [discriminate|]. cbn in S.
  destruct (command_fuel c r q) as [A B].
  destruct (command c r q) as [q' t'| | |]; try discriminate; [|assumption].
  apply IH. specialize (B q' t' eq_refl). lia.
Qed.

(** completeness *)
Hypothesis ST : strtod_reads D val strtod.

Lemma num_signed w : num false w -> num true w.
Proof.
  intros (s & m & e & A & B & C & E). exists s, m, e. split; [assumption|]. split; [assumption|]. split; [|assumption].
  destruct C as [|c s' ds C1 C2 C3 C4]; [constructor|]. constructor; auto. destruct C2 as [C2|[C2 _]]; [auto|discriminate].
Qed.

Lemma start_facts c : num_start c -> ~ space c /\ c <> 44 /\ looking [c] = true.
Proof. intros H. unfold num_start, digit, space, looking in *. cbn. replace (is_space c) with false by (unfold is_space; lia). cbn. unfold is_digit. lia. Qed.

Lemma double_ok b sp w t : sep b sp -> num false w -> ends w t -> s_double b (sp ++ w ++ t) = Some (val w, t).
Proof.
  intros S N E. destruct (num_starts _ _ N) as (c & r & EW & C). destruct (start_facts c C) as (C1 & C2 & _).
  unfold Svgpath_model.s_double.
  assert (SE : s_sep b (sp ++ w ++ t) = w ++ t) by (rewrite EW; cbn; apply sep_ok; assumption).
  rewrite SE, (str_float_ok w t N E), (ST w t (num_signed w N) E), app_length.
  replace (length w + length t - length t)%nat with (length w) by lia. now rewrite Nat.eqb_refl.
Qed.

Lemma nums_ok b vs t r : nums false b vs t r -> s_nums (length vs) b t = Some (vs, r).
Proof.
  induction 1 as [c r|c vs sp w t r S N E H IH]; cbn; [reflexivity|].
  rewrite double_ok by assumption. now rewrite IH.
Qed.

Lemma nums_app b v vs t r : nums false b (v ++ vs) t r -> v <> [] -> exists t', nums false b v t t' /\ nums false true vs t' r.
Proof.
  revert b t. induction v as [|x v IH]; intros b t H NE; [congruence|]. cbn in H. inversion H; subst.
  destruct v as [|y v].
  - cbn in *. exists t0. split; [|assumption]. constructor; auto. constructor.
  - destruct (IH true t0) as (t' & A & B); [assumption|discriminate|]. exists t'. split; [|assumption]. constructor; auto.
Qed.

Lemma looking_nums vs t r : nums false true vs t r -> vs <> [] -> looking t = true.
Proof.
  intros H NE. inversion H as [|c vs' sp w t' r' S N E H']; subst; [congruence|].
  destruct (num_starts _ _ N) as (x & y & -> & C). destruct (start_facts x C) as (C1 & C2 & C3).
  unfold looking in *. cbn [hd0 hd] in C3. rewrite sep_stop_false in C3 by assumption.
  destruct S as [S|(_ & a & b & A & B & ->)].
  - rewrite sep_spaces by assumption. cbn [app]. rewrite sep_stop_false by assumption. exact C3.
  - rewrite <- app_assoc, sep_spaces by assumption. reflexivity.
Qed.

Lemma loop_ok n other chunks : (0 < n)%nat -> Forall (fun v : list D => length v = n) chunks ->
  forall fuel t r q, nums false true (concat chunks) t r -> looking r = false -> (length t < fuel)%nat ->
  loop fuel n other t q = Done D (fold_left (fun q v => other v q) chunks q) (s_sep false r).
Proof.
  intros N F. induction F as [|v chunks L F IH]; intros fuel t r q H LR LF; (destruct fuel as [|fuel]; [lia|]); cbn.
  - cbn in H. inversion H; subst. now rewrite LR.
  - cbn in H. assert (NE : v <> []) by (intros ->; cbn in L; lia).
    rewrite (looking_nums _ _ _ H) by (destruct v; [congruence|discriminate]).
    destruct (nums_app _ _ _ _ _ H NE) as (t' & A & B).
    rewrite nums_sep by assumption. apply nums_ok in A. rewrite L in A. rewrite A.
    apply nums_length in A. apply IH; [assumption|assumption|lia].
Qed.

Lemma group_ok n first other v chunks t r q : (0 < n)%nat -> Forall (fun v : list D => length v = n) (v :: chunks) ->
  nums false false (concat (v :: chunks)) t r -> looking r = false ->
  group n first other t q = Done D (fold_left (fun q v => other v q) chunks (first v q)) (s_sep false r).
Proof.
  intros N F H LR. inversion F as [|? ? L F']; subst. cbn in H.
  assert (NE : v <> []) by (intros ->; cbn in N; lia).
  destruct (nums_app _ _ _ _ _ H NE) as (t' & A & B).
  unfold Svgpath_model.group. rewrite nums_sep by assumption. rewrite (nums_ok _ _ _ _ A).
  apply loop_ok; auto.
Qed.

(** the numbers of the commands *)
Definition c1 (x : D) : list D := [x].
Definition c2 (p : pt D) : list D := [fst p; snd p].
Definition c4 (x : pt D * pt D) : list D := c2 (fst x) ++ c2 (snd x).
Definition c6 (x : pt D * pt D * pt D) : list D := c2 (fst (fst x)) ++ c2 (snd (fst x)) ++ c2 (snd x).

Lemma pairs_inv : forall n vs ps, (length vs <= n)%nat -> pairs D vs = Some ps -> vs = concat (map c2 ps).
Proof.
  induction n as [|n IH]; intros vs ps L; destruct vs as [|x [|y vs]]; cbn in *; try discriminate; try lia;
    try (intros H; injection H as <-; reflexivity).
  destruct (pairs D vs) as [l|] eqn:E; [|discriminate]. cbn. intros H. injection H as <-. cbn.
  rewrite (IH vs l ltac:(lia) E) at 1. reflexivity.
Qed.
Lemma by2_inv : forall n ps qs, (length ps <= n)%nat -> by2 D ps = Some qs -> concat (map c2 ps) = concat (map c4 qs).
Proof.
  induction n as [|n IH]; intros vs ps L; destruct vs as [|x [|y vs]]; cbn in *; try discriminate; try lia;
    try (intros H; injection H as <-; reflexivity).
  destruct (by2 D vs) as [l|] eqn:E; [|discriminate]. cbn. intros H. injection H as <-. cbn.
  rewrite (IH vs l ltac:(lia) E). reflexivity.
Qed.
Lemma by3_inv : forall n ps qs, (length ps <= n)%nat -> by3 D ps = Some qs -> concat (map c2 ps) = concat (map c6 qs).
Proof.
  induction n as [|n IH]; intros vs ps L; destruct vs as [|x [|y [|z vs]]]; cbn in *; try discriminate; try lia;
    try (intros H; injection H as <-; reflexivity).
  destruct (by3 D vs) as [l|] eqn:E; [|discriminate]. cbn. intros H. injection H as <-. cbn.
  rewrite (IH vs l ltac:(lia) E). reflexivity.
Qed.

Lemma chunks_ok (A : Type) (n : nat) (ch : A -> list D) (f : A -> cmd D) (other : list D -> st D -> st D) (x : A) (l : list A) :
  (0 < n)%nat -> (forall a, length (ch a) = n) -> (forall a q, other (ch a) q = exec (f a) q) ->
  forall (first : list D -> st D -> st D) (g : A -> cmd D), (forall a q, first (ch a) q = exec (g a) q) ->
  forall t r q, nums false false (concat (map ch (x :: l))) t r -> looking r = false ->
  group n first other t q = Done D (run (g x :: map f l) q) (s_sep false r).
Proof.
  intros N L O first g G t r q H LR. cbn [map] in H.
  rewrite (group_ok n first other (ch x) (map ch l) t r q N); [|constructor; [apply L|]|exact H|exact LR].
  - f_equal. rewrite G. change (run (g x :: map f l) q) with (run (map f l) (exec (g x) q)).
    generalize (exec (g x) q). clear H G. induction l as [|a l IH]; intros q0; cbn; [reflexivity|]. rewrite O. apply IH.
  - rewrite Forall_map. apply Forall_forall. auto.
Qed.

Definition letter (l : Z) : Prop := 65 <= l <= 90 \/ 97 <= l <= 122.

Lemma expand_ok l vs cs t r q : expand D l vs = Some cs -> nums false false vs t r -> looking r = false ->
  letter l /\ command l t q = Done D (run cs q) (s_sep false r).
Proof.
  intros E H LR.
  assert (P : forall ps, pairs D vs = Some ps -> vs = concat (map c2 ps)) by (intros ps; apply (pairs_inv (length vs)); lia).
  assert (P2 : forall qs, bnd (pairs D vs) (by2 D) = Some qs -> vs = concat (map c4 qs)).
  { intros qs. unfold bnd. destruct (pairs D vs) as [ps|] eqn:E'; [|discriminate]. intros B.
    rewrite (P ps eq_refl). apply (by2_inv (length ps)); auto. }
  assert (P3 : forall qs, bnd (pairs D vs) (by3 D) = Some qs -> vs = concat (map c6 qs)).
  { intros qs. unfold bnd. destruct (pairs D vs) as [ps|] eqn:E'; [|discriminate]. intros B.
    rewrite (P ps eq_refl). apply (by3_inv (length ps)); auto. }
  assert (S1 : forall (f : D -> cmd D) first, (forall a q, first (c1 a) q = exec (f a) q) ->
             some f (Some vs) = Some cs -> group 1 first first t q = Done D (run cs q) (s_sep false r)).
  { intros f first F S. destruct vs as [|x ps]; [discriminate|]. cbn in S. injection S as <-.
    apply (chunks_ok D 1 c1 f first x ps ltac:(lia) ltac:(reflexivity) F first f F t r q); [|exact LR].
    replace (concat (map c1 (x :: ps))) with (x :: ps); [exact H|].
    clear. generalize (x :: ps). intros l. induction l as [|a l IH]; cbn; [reflexivity|]. now rewrite <- IH. }
  assert (S2 : forall (f : pt D -> cmd D) first, (forall a q, first (c2 a) q = exec (f a) q) ->
             some f (pairs D vs) = Some cs -> group 2 first first t q = Done D (run cs q) (s_sep false r)).
  { intros f first F S. destruct (pairs D vs) as [[|x ps]|] eqn:E'; try discriminate. cbn in S. injection S as <-.
    rewrite (P _ eq_refl) in H. exact (chunks_ok _ 2 c2 f first x ps ltac:(lia) ltac:(reflexivity) F first f F t r q H LR). }
  assert (S4 : forall (f : pt D * pt D -> cmd D) first, (forall a q, first (c4 a) q = exec (f a) q) ->
             some f (bnd (pairs D vs) (by2 D)) = Some cs -> group 4 first first t q = Done D (run cs q) (s_sep false r)).
  { intros f first F S. destruct (bnd (pairs D vs) (by2 D)) as [[|x ps]|] eqn:E'; try discriminate. cbn in S. injection S as <-.
    rewrite (P2 _ eq_refl) in H. exact (chunks_ok _ 4 c4 f first x ps ltac:(lia) ltac:(reflexivity) F first f F t r q H LR). }
  assert (S6 : forall (f : pt D * pt D * pt D -> cmd D) first, (forall a q, first (c6 a) q = exec (f a) q) ->
             some f (bnd (pairs D vs) (by3 D)) = Some cs -> group 6 first first t q = Done D (run cs q) (s_sep false r)).
  { intros f first F S. destruct (bnd (pairs D vs) (by3 D)) as [[|x ps]|] eqn:E'; try discriminate. cbn in S. injection S as <-.
    rewrite (P3 _ eq_refl) in H. exact (chunks_ok _ 6 c6 f first x ps ltac:(lia) ltac:(reflexivity) F first f F t r q H LR). }
  assert (SM : forall rel, match pairs D vs with Some (p :: ps) => Some (Move D rel p :: map (Line D rel) ps) | _ => None end = Some cs ->
             group 2 (arg2 D (path_move D dzero dadd rel)) (arg2 D (path_line D dzero dadd deq rel)) t q = Done D (run cs q) (s_sep false r)).
  { intros rel S. destruct (pairs D vs) as [[|x ps]|] eqn:E'; try discriminate. injection S as <-.
    rewrite (P _ eq_refl) in H.
    refine (chunks_ok _ 2 c2 (Line D rel) _ x ps ltac:(lia) ltac:(reflexivity) _ _ (Move D rel) _ t r q H LR); intros [] ?; reflexivity. }
  unfold letter.
  destruct l as [|l|l]; try discriminate E.
  do 7 (destruct l as [l|l|]; try discriminate E; try (cbn [expand] in E; split; [lia|]; cbn [Svgpath_model.command Z.leb Z.compare Pos.compare Pos.compare_cont andb];
    first [exact (SM _ E)
          |refine (S2 _ _ _ E); intros [] ?; reflexivity
          |refine (S1 _ _ _ E); intros ? ?; reflexivity
          |refine (S4 _ _ _ E); intros [[] []] ?; reflexivity
          |refine (S6 _ _ _ E); intros [[[] []] []] ?; reflexivity])).
Qed.

Lemma letter_facts l t : letter l -> ~ space l /\ l <> 44 /\ looking (l :: t) = false.
Proof.
  unfold letter. intros L. assert (S : ~ space l) by (unfold space; lia). split; [assumption|]. split; [lia|].
  unfold looking. rewrite sep_stop_false by assumption. cbn. unfold is_digit. lia.
Qed.

Lemma looking_spaces a t : spaces a -> looking (a ++ t) = looking t.
Proof. intros S. unfold looking. now rewrite sep_spaces. Qed.

Lemma path_not_looking cs t : path_text D val false cs t -> looking t = false.
Proof.
  induction 1 as [sp S|sp l t cs S L H IH|sp l vs t r cs1 cs2 S N E H IH].
  - rewrite <- (app_nil_r sp), looking_spaces by assumption. reflexivity.
  - rewrite looking_spaces by assumption. apply letter_facts. unfold letter. lia.
  - rewrite looking_spaces by assumption. apply letter_facts.
    eapply (expand_ok l vs cs1 t r (st0 D dzero)); eassumption.
Qed.

Lemma str_path_sep fuel t q : str_path fuel (s_sep false t) q = str_path fuel t q.
Proof. destruct fuel; [reflexivity|]. cbn. now rewrite sep_sep. Qed.

Lemma run_app a b q : run (a ++ b) q = run b (run a q).
Proof. unfold Svgpath_proofs.run. apply fold_left_app. Qed.

Lemma nums_shrink s b vs t r : nums s b vs t r -> (length r <= length t)%nat.
Proof. induction 1; [lia|]. rewrite !app_length. lia. Qed.

Lemma path_complete cs t : path_text D val false cs t ->
  forall fuel q, (length t < fuel)%nat -> str_path fuel t q = Done D (run cs q) [].
Proof.
  induction 1 as [sp S|sp l t cs S L H IH|sp l vs t r cs1 cs2 S N E H IH]; intros fuel q LF; (destruct fuel as [|fuel]; [lia|]); cbn.
  - rewrite <- (app_nil_r sp), sep_spaces by assumption. reflexivity.
  - rewrite sep_spaces by assumption. rewrite app_length in LF. cbn in LF.
    rewrite sep_stop_false by (unfold space; lia).
    replace (command l t q) with (Done D (path_close D dzero q) t) by (destruct L as [-> | ->]; reflexivity).
    rewrite IH by lia. reflexivity.
  - rewrite sep_spaces by assumption. rewrite app_length in LF. cbn in LF.
    destruct (expand_ok l vs cs1 t r q E N (path_not_looking _ _ H)) as [L C].
    destruct (letter_facts l [] L) as (L1 & _). rewrite sep_stop_false by assumption. rewrite C, str_path_sep, run_app.
    apply nums_shrink in N. apply IH. lia.
Qed.
End R.
