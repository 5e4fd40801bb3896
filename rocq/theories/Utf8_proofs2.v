From Coq Require Import ZArith Bool List Lia ZifyBool.
From Verif Require Import Utf8_model Utf8_spec Utf8_proofs.
Import ListNotations.
Local Open Scope Z_scope.

Lemma decode_utf8 mem p sz c : scalar c -> has mem p (utf8 c) -> (length (utf8 c) <= sz)%nat ->
  let r := Z.lor c (mask (length (utf8 c))) in
  decode mem (mk_iter p sz None) =
    UOk (if 1114111 <? r then (0, mk_iter p (sz - length (utf8 c)) (Some Range))
         else (r, mk_iter (p + length (utf8 c)) (sz - length (utf8 c)) None)).
Proof.
  intros C H L r. subst r. rewrite <- (raw_utf8 c C). apply decode_structured; try assumption.
  apply utf8_structured, C.
Qed.

Lemma decode_iff mem p sz c : scalar c -> has mem p (utf8 c) -> (length (utf8 c) <= sz)%nat ->
  decode mem (mk_iter p sz None) = UOk (c, mk_iter (p + length (utf8 c)) (sz - length (utf8 c)) None) <->
  Z.lor c (mask (length (utf8 c))) = c.
Proof.
  intros C H L. rewrite (decode_utf8 mem p sz c C H L). cbv zeta.
  destruct (Z.ltb_spec 1114111 (Z.lor c (mask (length (utf8 c))))) as [G|G].
  - split; [intros [= E]; exfalso; destruct C; lia|intros E; rewrite E in G; destruct C; lia].
  - split; [intros [= E]; exact E|intros E; rewrite E; reflexivity].
Qed.

(** *** nothing is read out of bounds *)
Lemma get_ok mem i : bounded mem (pos i) (size i) ->
  exists c, iter_get mem i = UOk c /\
    (c <> 0 -> nth_error mem (pos i) = Some c /\ (0 < size i)%nat /\
       iter_advance mem i = UOk (mk_iter (pos i + 1) (size i - 1) (error i)) /\
       bounded mem (pos i + 1) (size i - 1)).
Proof.
  intros B. unfold iter_get. destruct (Nat.eqb_spec (size i) 0) as [Z|Z].
  { exists 0. split; [reflexivity|]. intros []. reflexivity. }
  assert (exists c, nth_error mem (pos i) = Some c) as [c N].
  { destruct (nth_error mem (pos i)) as [c|] eqn:E; [eauto|]. apply nth_error_None in E. exfalso.
    destruct B as [B|(q & Q & N)]; [lia|]. assert (q < length mem)%nat by (apply nth_error_Some; congruence). lia. }
  exists c. rewrite N. split; [reflexivity|]. intros C. split; [reflexivity|]. split; [lia|].
  split; [destruct i as [ip is ie]; apply (advance_eq _ _ _ _ c); cbn [pos size] in *; (assumption || lia)|].
  destruct B as [B|(q & Q & M)]; [left; lia|]. right. exists q. split; [|exact M].
  destruct (Nat.eq_dec q (pos i)) as [ -> |]; [congruence|lia].
Qed.

Lemma cont_ok mem start i : bounded mem (pos i) (size i) ->
  (exists i', get_cont mem start i = UOk (None, i') /\ error i' <> None /\ pos i' = start) \/
  (exists c, get_cont mem start i = UOk (Some c, mk_iter (pos i + 1) (size i - 1) (error i)) /\ cont c /\
     nth_error mem (pos i) = Some c /\ (0 < size i)%nat /\ bounded mem (pos i + 1) (size i - 1)).
Proof.
  intros B. destruct (get_ok mem i B) as (c & G & N). unfold get_cont. rewrite G. cbn [ubind].
  destruct ((128 <=? c) && (c <=? 191)) eqn:E; cbn [negb].
  - right. exists c. destruct N as (N & S & A & B'); [lia|]. rewrite A. unfold cont. repeat split; try assumption; lia.
  - left. eexists. split; [reflexivity|]. split; [discriminate|reflexivity].
Qed.

Lemma check_cases start i m c1 c2 c3 c4 : let r := check_valid start i m c1 c2 c3 c4 in
  (fst r = 0 /\ error (snd r) <> None /\ pos (snd r) = start) \/ snd r = i.
Proof.
  unfold check_valid. cbv zeta.
  repeat match goal with |- context [if ?c then _ else _] => destruct c end; cbn; auto; left; repeat split; discriminate.
Qed.

(** all that can happen: end of the text; an error; a structured sequence *)
Lemma decode_cases mem p sz : byte_list mem -> bounded mem p sz ->
  exists r i', decode mem (mk_iter p sz None) = UOk (r, i') /\
    ((r = 0 /\ i' = mk_iter p sz None /\ (sz = 0%nat \/ nth_error mem p = Some 0)) \/
     (r = 0 /\ error i' <> None /\ pos i' = p) \/
     (exists l, structured l /\ has mem p l /\ (length l <= sz)%nat /\ i' = mk_iter (p + length l) (sz - length l) None)).
Proof.
  intros M B.
  assert (HB : forall q x, nth_error mem q = Some x -> 0 <= x < 256).
  { intros q x N. apply nth_error_In in N. exact (proj1 (Forall_forall _ _) M x N). }
  assert (HN : forall q, has mem q []) by (intros q; reflexivity).
  unfold decode. destruct (get_ok mem (mk_iter p sz None) B) as (a & G & N). rewrite G. cbn [ubind pos size error] in *.
  destruct (Z.eqb_spec a 0) as [Z|Z].
  { do 2 eexists. split; [reflexivity|]. left. repeat split. unfold iter_get in G. cbn [size pos] in G.
    destruct (Nat.eqb_spec sz 0); [auto|]. right. destruct (nth_error mem p); congruence. }
  destruct (N Z) as (N1 & S1 & A1 & B1). rewrite A1. cbn [ubind]. pose proof (HB _ _ N1).
  destruct (Z.ltb_spec a 128).
  { do 2 eexists. split; [reflexivity|]. right. right. exists [a]. split; [cbn; lia|].
    split; [apply has_cons; auto|]. split; [cbn; lia|reflexivity]. }
  destruct (Z.ltb_spec a 194).
  { do 2 eexists. split; [reflexivity|]. right. left. repeat split. discriminate. }
  destruct (cont_ok mem p (mk_iter (p + 1) (sz - 1) None) B1) as [(i' & E & X)|(b & E & C2 & N2 & S2 & B2)]; rewrite E; cbn [ubind pos size error] in *.
  { do 2 eexists. split; [reflexivity|]. right. left. tauto. }
  destruct (Z.ltb_spec a 224).
  { destruct (check_cases p (mk_iter (p + 1 + 1) (sz - 1 - 1) None) 128 0 0 (Z.land a 31) b) as [(R & X & Y)|R];
      destruct (check_valid _ _ _ _ _ _ _) as [r i']; cbn [fst snd] in *; do 2 eexists; (split; [reflexivity|]).
    - auto.
    - right. right. exists [a; b]. split; [cbn; auto|]. split; [apply has_cons; split; [exact N1|apply has_cons; auto]|].
      split; [cbn; lia|]. rewrite R. cbn [length]. f_equal; lia. }
  destruct (cont_ok mem p (mk_iter (p + 1 + 1) (sz - 1 - 1) None) B2) as [(i' & E' & X)|(c & E' & C3 & N3 & S3 & B3)]; rewrite E'; cbn [ubind pos size error] in *.
  { do 2 eexists. split; [reflexivity|]. right. left. tauto. }
  destruct (Z.ltb_spec a 240).
  { destruct (check_cases p (mk_iter (p + 1 + 1 + 1) (sz - 1 - 1 - 1) None) 2048 0 (Z.land a 15) b c) as [(R & X & Y)|R];
      destruct (check_valid _ _ _ _ _ _ _) as [r i']; cbn [fst snd] in *; do 2 eexists; (split; [reflexivity|]).
    - auto.
    - right. right. exists [a; b; c]. split; [cbn; auto|].
      split; [repeat (apply has_cons; split; [assumption|]); auto|].
      split; [cbn; lia|]. rewrite R. cbn [length]. f_equal; lia. }
  destruct (cont_ok mem p (mk_iter (p + 1 + 1 + 1) (sz - 1 - 1 - 1) None) B3) as [(i' & E4 & X)|(d & E4 & C4 & N4 & S4 & B4)]; rewrite E4; cbn [ubind pos size error] in *.
  { do 2 eexists. split; [reflexivity|]. right. left. tauto. }
  destruct (Z.leb_spec a 244).
  { destruct (check_cases p (mk_iter (p + 1 + 1 + 1 + 1) (sz - 1 - 1 - 1 - 1) None) 65536 (Z.land a 7) b c d) as [(R & X & Y)|R];
      destruct (check_valid _ _ _ _ _ _ _) as [r i']; cbn [fst snd] in *; do 2 eexists; (split; [reflexivity|]).
    - auto.
    - right. right. exists [a; b; c; d]. split; [unfold structured; split; [lia|auto]|].
      split; [repeat (apply has_cons; split; [assumption|]); auto|].
      split; [cbn; lia|]. rewrite R. cbn [length]. f_equal; lia. }
  do 2 eexists. split; [reflexivity|]. right. left. repeat split. discriminate.
Qed.

(** *** escapes *)
Lemma digit_value_hex c v : hexdigit c v -> digit_value c = v /\ 0 <= v < 16 /\ c <> 0.
Proof.
  unfold hexdigit, digit_value. intros H.
  destruct ((48 <=? c) && (c <=? 57)) eqn:E1; [lia|].
  destruct ((97 <=? c) && (c <=? 122)) eqn:E2; [lia|].
  destruct ((65 <=? c) && (c <=? 90)) eqn:E3; lia.
Qed.
Lemma digit_value_16 c : digit_value c < 16 -> hexdigit c (digit_value c).
Proof.
  unfold hexdigit, digit_value. intros H.
  destruct ((48 <=? c) && (c <=? 57)) eqn:E1; [lia|].
  destruct ((97 <=? c) && (c <=? 122)) eqn:E2; [lia|].
  destruct ((65 <=? c) && (c <=? 90)) eqn:E3; lia.
Qed.

Lemma digits_ok mem : forall l pre n p sz e v, hex pre n -> hex (pre ++ l) v -> has mem p l -> (length l <= sz)%nat ->
  digits mem (length l) n (mk_iter p sz e) = UOk (0%nat, v, mk_iter (p + length l) (sz - length l) e).
Proof.
  assert (FUN : forall l a b, hex l a -> hex l b -> a = b).
  { intros l a b H. revert b. induction H as [|l c n v H IH D]; intros b B.
    - remember [] as m eqn:E. destruct B as [|l' c' n' v' H' D']; [reflexivity|]. apply app_eq_nil in E as [_ E]. discriminate.
    - remember (l ++ [c]) as m eqn:E. destruct B as [|l' c' n' v' H' D'].
      + symmetry in E. apply app_eq_nil in E as [_ E]. discriminate.
      + apply app_inj_tail in E as [-> ->]. rewrite (IH _ H'). apply digit_value_hex in D as [<- _].
        apply digit_value_hex in D' as [<- _]. reflexivity. }
  induction l as [|c l IH]; intros pre n p sz e v P V H L.
  - cbn [length digits]. rewrite app_nil_r in V. rewrite (FUN _ _ _ P V), Nat.add_0_r, Nat.sub_0_r. reflexivity.
  - apply has_cons in H as [N H]. cbn [length] in *. cbn [digits].
    assert (exists w, hexdigit c w) as [w W].
    { clear - V. remember (pre ++ c :: l) as m eqn:E. revert l E. induction V as [|m d n v V IH D]; intros l E.
      - symmetry in E. apply app_eq_nil in E as [_ E]. discriminate.
      - destruct l as [|x l] using rev_ind.
        + apply app_inj_tail in E as [_ ->]. eauto.
        + rewrite app_comm_cons, app_assoc in E. apply app_inj_tail in E as [E _]. eauto. }
    pose proof (digit_value_hex _ _ W) as (D1 & D2 & D3).
    rewrite (get_eq _ _ _ _ c) by (assumption || lia). cbn [ubind].
    replace (c =? 0) with false by lia. cbv zeta. rewrite D1. replace (16 <=? w) with false by lia.
    rewrite (advance_eq _ _ _ _ c) by (assumption || lia). cbn [ubind].
    rewrite (IH (pre ++ [c]) (n * 16 + w) _ _ _ v); [replace (p + 1 + length l)%nat with (p + S (length l))%nat by lia; replace (sz - 1 - length l)%nat with (sz - S (length l))%nat by lia; reflexivity| | |exact H|lia].
    + rewrite (Z.mul_comm n). constructor; assumption.
    + rewrite <- app_assoc. exact V.
Qed.

Lemma escaped_hex mem p sz c n max ds v : hex_escape c n max -> length ds = n -> hex ds v ->
  has mem p (92 :: c :: ds) -> (2 + n <= sz)%nat ->
  escaped_decode mem (mk_iter p sz None) =
    UOk (if max <? v then (0, mk_iter p (sz - 2 - n) (Some TooLarge)) else (v, mk_iter (p + 2 + n) (sz - 2 - n) None)).
Proof.
  intros HE LN V H L. apply has_cons in H as [N1 H]. apply has_cons in H as [N2 H].
  assert (C : c <> 0 /\ escape c = Some (0, n, max)).
  { destruct HE as [(-> & -> & ->)|[(-> & -> & ->)|(-> & -> & ->)]]; split; try reflexivity; discriminate. }
  destruct C as [C E]. unfold escaped_decode.
  rewrite (get_eq _ _ _ _ 92) by (assumption || lia). cbn [ubind].
  change (92 =? 0) with false. change (128 <=? 92) with false. change (negb (92 =? 92)) with false. cbv iota zeta.
  rewrite (advance_eq _ _ _ _ 92) by (assumption || lia). cbn [ubind].
  rewrite (get_eq _ _ _ _ c) by (assumption || lia). cbn [ubind].
  replace (c =? 0) with false by lia. rewrite E.
  rewrite (advance_eq _ _ _ _ c) by (assumption || lia). cbn [ubind].
  subst n. rewrite (digits_ok mem ds [] 0 _ _ _ v) by (try assumption; try lia; constructor). cbn [ubind Nat.ltb Nat.leb].
  destruct (max <? v); unfold iter_error; cbn [size pos]; do 3 f_equal; lia.
Qed.

Lemma escaped_simple mem p sz c v : simple_escape c v -> has mem p [92; c] -> (2 <= sz)%nat ->
  escaped_decode mem (mk_iter p sz None) = UOk (v, mk_iter (p + 2) (sz - 2) None).
Proof.
  intros SE H L. apply has_cons in H as [N1 H]. apply has_cons in H as [N2 H].
  assert (C : c <> 0 /\ escape c = Some (v, 0%nat, 1114111) /\ v <= 100).
  { cbn in SE. repeat destruct SE as [[= <- <-]|SE]; try destruct SE; repeat split; try reflexivity; try discriminate; lia. }
  destruct C as (C & E & VL). unfold escaped_decode.
  rewrite (get_eq _ _ _ _ 92) by (assumption || lia). cbn [ubind].
  change (92 =? 0) with false. change (128 <=? 92) with false. change (negb (92 =? 92)) with false. cbv iota zeta.
  rewrite (advance_eq _ _ _ _ 92) by (assumption || lia). cbn [ubind].
  rewrite (get_eq _ _ _ _ c) by (assumption || lia). cbn [ubind].
  replace (c =? 0) with false by lia. rewrite E.
  rewrite (advance_eq _ _ _ _ c) by (assumption || lia). cbn [ubind digits Nat.ltb Nat.leb].
  replace (1114111 <? v) with false by lia. do 3 f_equal; lia.
Qed.

Lemma digits_safe mem : forall n code i, bounded mem (pos i) (size i) -> exists x, digits mem n code i = UOk x.
Proof.
  induction n as [|n IH]; intros code i B; cbn [digits]; [eauto|].
  destruct (get_ok mem i B) as (c & G & N). rewrite G. cbn [ubind].
  destruct (Z.eqb_spec c 0); [eauto|]. destruct (N n0) as (_ & _ & A & B').
  destruct (16 <=? digit_value c); [eauto|]. rewrite A. cbn [ubind]. apply IH. exact B'.
Qed.

(** an assertion fails at a backslash that is the last character *)
Lemma escaped_safe mem p sz : byte_list mem -> bounded mem p sz ->
  (exists r i', escaped_decode mem (mk_iter p sz None) = UOk (r, i')) \/
  (escaped_decode mem (mk_iter p sz None) = UFail /\ nth_error mem p = Some 92 /\ (sz = 1%nat \/ nth_error mem (p + 1) = Some 0)).
Proof.
  intros M B. unfold escaped_decode.
  destruct (get_ok mem (mk_iter p sz None) B) as (a & G & N). rewrite G. cbn [ubind pos size error] in *.
  destruct (Z.eqb_spec a 0) as [Z|Z]; [left; do 2 eexists; reflexivity|].
  destruct (N Z) as (N1 & S1 & A1 & B1).
  destruct (128 <=? a).
  { left. destruct (decode_cases mem p sz M B) as (r & i' & E & _). eauto. }
  rewrite A1. cbn [ubind]. destruct (Z.eqb_spec a 92) as [ -> |]; cbn [negb]; [|left; do 2 eexists; reflexivity].
  destruct (get_ok mem (mk_iter (p + 1) (sz - 1) None) B1) as (c & G2 & N2). rewrite G2. cbn [ubind pos size error] in *.
  destruct (Z.eqb_spec c 0) as [ -> |Z2].
  { right. split; [reflexivity|]. split; [exact N1|]. unfold iter_get in G2. cbn [size pos] in G2.
    destruct (Nat.eqb_spec (sz - 1) 0); [left; lia|]. right. destruct (nth_error mem (p + 1)); congruence. }
  left. destruct (N2 Z2) as (_ & _ & A2 & B2). destruct (escape c) as [((code, len), max)|]; [|do 2 eexists; reflexivity].
  rewrite A2. cbn [ubind]. destruct (digits_safe mem len code (mk_iter (p + 1 + 1) (sz - 1 - 1) None) B2) as (((len', code'), i') & E).
  rewrite E. cbn [ubind]. destruct (Nat.ltb 0 len'); [do 2 eexists; reflexivity|].
  destruct (max <? code'); do 2 eexists; reflexivity.
Qed.

(** with too few digits, reading fails unless only one is missing *)
Lemma digits_short mem : forall l pre n p sz e k, hex pre n -> (exists v, hex (pre ++ l) v) -> has mem p l -> (length l <= sz)%nat ->
  (length l < k)%nat -> (sz = length l \/ exists x, nth_error mem (p + length l) = Some x /\ (x = 0 \/ 16 <= digit_value x)) ->
  exists v, hex (pre ++ l) v /\
    digits mem k n (mk_iter p sz e) = UOk ((k - length l - 1)%nat, v, mk_iter (p + length l) (sz - length l) e).
Proof.
  induction l as [|c l IH]; intros pre n p sz e k P V H L K Q.
  - exists n. rewrite app_nil_r. split; [exact P|]. destruct k as [|k]; [cbn in K; lia|]. cbn [digits length].
    rewrite !Nat.add_0_r, !Nat.sub_0_r. replace (S k - 1)%nat with k by lia. cbn [length] in Q. rewrite Nat.add_0_r in Q.
    destruct Q as [ -> |(x & X & Y)].
    { unfold iter_get. cbn [size Nat.eqb ubind]. reflexivity. }
    destruct sz as [|sz]; [unfold iter_get; cbn [size Nat.eqb ubind]; reflexivity|].
    rewrite (get_eq _ _ _ _ x) by (assumption || lia). cbn [ubind].
    destruct (Z.eqb_spec x 0); [reflexivity|]. destruct Y as [Y|Y]; [congruence|]. replace (16 <=? digit_value x) with true by lia. reflexivity.
  - apply has_cons in H as [N H]. cbn [length] in *. destruct k as [|k]; [lia|]. cbn [digits].
    assert (exists w, hexdigit c w) as [w W].
    { clear - V. destruct V as [v V]. remember (pre ++ c :: l) as m eqn:E. revert l E. induction V as [|m d n v V IH D]; intros l E.
      - symmetry in E. apply app_eq_nil in E as [_ E]. discriminate.
      - destruct l as [|x l] using rev_ind.
        + apply app_inj_tail in E as [_ ->]. eauto.
        + rewrite app_comm_cons, app_assoc in E. apply app_inj_tail in E as [E _]. eauto. }
    pose proof (digit_value_hex _ _ W) as (D1 & D2 & D3).
    rewrite (get_eq _ _ _ _ c) by (assumption || lia). cbn [ubind].
    replace (c =? 0) with false by lia. cbv zeta. rewrite D1. replace (16 <=? w) with false by lia.
    rewrite (advance_eq _ _ _ _ c) by (assumption || lia). cbn [ubind].
    destruct (IH (pre ++ [c]) (n * 16 + w) (p + 1)%nat (sz - 1)%nat e k) as (v & V' & E).
    + rewrite (Z.mul_comm n). constructor; assumption.
    + rewrite <- app_assoc. exact V.
    + exact H.
    + lia.
    + lia.
    + replace (p + 1 + length l)%nat with (p + S (length l))%nat by lia. destruct Q as [Q|Q]; [left; lia|right; exact Q].
    + exists v. rewrite <- app_assoc in V'. split; [exact V'|]. rewrite E. replace (p + 1 + length l)%nat with (p + S (length l))%nat by lia. replace (sz - 1 - length l)%nat with (sz - S (length l))%nat by lia. reflexivity.
Qed.

Lemma escaped_short mem p sz c n max l : hex_escape c n max -> (length l + 1 < n)%nat ->
  (exists v, hex l v) -> has mem p (92 :: c :: l) -> (2 + length l <= sz)%nat ->
  (sz = 2 + length l \/ exists x, nth_error mem (p + 2 + length l) = Some x /\ ~ (exists v, hexdigit x v))%nat ->
  escaped_decode mem (mk_iter p sz None) = UOk (0, mk_iter p (sz - 2 - length l) (Some Premature)).
Proof.
  intros HE LN V H L Q. apply has_cons in H as [N1 H]. apply has_cons in H as [N2 H].
  assert (C : c <> 0 /\ escape c = Some (0, n, max)).
  { destruct HE as [(-> & -> & ->)|[(-> & -> & ->)|(-> & -> & ->)]]; split; try reflexivity; discriminate. }
  destruct C as [C E]. unfold escaped_decode.
  rewrite (get_eq _ _ _ _ 92) by (assumption || lia). cbn [ubind].
  change (92 =? 0) with false. change (128 <=? 92) with false. change (negb (92 =? 92)) with false. cbv iota zeta.
  rewrite (advance_eq _ _ _ _ 92) by (assumption || lia). cbn [ubind].
  rewrite (get_eq _ _ _ _ c) by (assumption || lia). cbn [ubind].
  replace (c =? 0) with false by lia. rewrite E.
  rewrite (advance_eq _ _ _ _ c) by (assumption || lia). cbn [ubind].
  destruct (digits_short mem l [] 0 (p + 1 + 1)%nat (sz - 1 - 1)%nat None n) as (v & _ & D).
  - constructor.
  - exact V.
  - exact H.
  - lia.
  - lia.
  - destruct Q as [Q|(x & X & Y)]; [left; lia|right]. exists x. replace (p + 1 + 1 + length l)%nat with (p + 2 + length l)%nat by lia.
    split; [exact X|]. destruct (Z.lt_ge_cases (digit_value x) 16) as [G|G]; [|auto]. exfalso. apply Y. eexists. apply digit_value_16, G.
  - rewrite D. cbn [ubind]. destruct (Nat.ltb_spec 0 (n - length l - 1)); [|lia].
    unfold iter_error. cbn [size pos]. replace (sz - 1 - 1 - length l)%nat with (sz - 2 - length l)%nat by lia. reflexivity.
Qed.
