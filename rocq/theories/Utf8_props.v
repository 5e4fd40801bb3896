(** C22: UTF-8. *)
From Coq Require Import ZArith Bool List Lia.
From Verif Require Import Utf8_model Utf8_spec Utf8_proofs Utf8_proofs2.
Import ListNotations.
Local Open Scope Z_scope.

(** Encoding is right; nothing is written if there is not enough room. *)
Theorem C22_encode : forall n c, scalar c -> encode n c = UOk (if Nat.leb (length (utf8 c)) n then utf8 c else []).
Proof. exact encode_ok. Qed.
Example C22_encode_ex : encode 3 8364 = UOk [226; 130; 172] /\ encode 2 8364 = UOk [] /\ encode 4 65 = UOk [65] /\ scalar 8364.
Proof. repeat split; try reflexivity; unfold scalar; lia. Qed.

(** Only scalar values are encoded: anything else is an assertion failure. *)
Theorem C22_encode_reject : forall n c, 0 <= c -> ~ scalar c -> encode n c = UFail.
Proof.
  intros n c H0 H. unfold encode, utf8_ok, scalar in *.
  destruct ((c =? 0) || (1114111 <? c) || ((55296 <=? c) && (c <=? 57343))) eqn:E; [reflexivity|].
  exfalso. apply H. lia.
Qed.
Example C22_encode_reject_ex : encode 4 1114112 = UFail /\ encode 4 55296 = UFail /\ encode 4 0 = UFail /\ ~ scalar 1114112.
Proof. repeat split; try reflexivity. unfold scalar; lia. Qed.

(** Decoding consumes the right number of bytes, but sets the bits of [mask] in the code point, and
    rejects the code point if it gets too large by this. *)
Theorem C22_decode : forall mem p sz c, scalar c -> has mem p (utf8 c) -> (length (utf8 c) <= sz)%nat ->
  let r := Z.lor c (mask (length (utf8 c))) in
  decode mem (mk_iter p sz None) =
    UOk (if 1114111 <? r then (0, mk_iter p (sz - length (utf8 c)) (Some Range))
         else (r, mk_iter (p + length (utf8 c)) (sz - length (utf8 c)) None)).
Proof. exact decode_utf8. Qed.
Example C22_decode_ex : has [65; 196; 128; 66] 1 (utf8 256) /\
  decode [65; 196; 128; 66] (mk_iter 1 3 None) = UOk (384, mk_iter 3 1 None) /\
  decode (utf8 1048576) (mk_iter 0 4 None) = UOk (0, mk_iter 0 0 (Some Range)).
Proof. repeat split. Qed.

(** So it is right exactly for those code points that have these bits anyway. *)
Theorem C22_roundtrip_partial : forall mem p sz c, scalar c -> has mem p (utf8 c) -> (length (utf8 c) <= sz)%nat ->
  decode mem (mk_iter p sz None) = UOk (c, mk_iter (p + length (utf8 c)) (sz - length (utf8 c)) None) <->
  Z.lor c (mask (length (utf8 c))) = c.
Proof. exact decode_iff. Qed.
Example C22_roundtrip_ex : Z.lor 65 (mask (length (utf8 65))) = 65 /\ Z.lor 233 (mask (length (utf8 233))) = 233 /\
  decode (utf8 233) (mk_iter 0 2 None) = UOk (233, mk_iter 2 0 None).
Proof. repeat split. Qed.

(** The full statement: *)
Definition roundtrip_full : Prop := forall mem p sz c, scalar c -> has mem p (utf8 c) -> (length (utf8 c) <= sz)%nat ->
  decode mem (mk_iter p sz None) = UOk (c, mk_iter (p + length (utf8 c)) (sz - length (utf8 c)) None).
(** It is false because the bytes c2, c3, c4 are not masked with 0x3f. *)
Theorem C22_roundtrip_refuted : ~ roundtrip_full.
Proof.
  intros H. specialize (H (utf8 256) 0%nat 2%nat 256). cbv in H. discriminate H; try reflexivity; intuition (discriminate || lia).
Qed.

(** Nothing outside of the memory is read; what is accepted consists of a start byte and the right number of
    continuation bytes; otherwise, there is an error and the position is not changed. *)
Theorem C22_reject : forall mem p sz, byte_list mem -> bounded mem p sz ->
  exists r i', decode mem (mk_iter p sz None) = UOk (r, i') /\
    ((r = 0 /\ i' = mk_iter p sz None /\ (sz = 0%nat \/ nth_error mem p = Some 0)) \/
     (r = 0 /\ error i' <> None /\ pos i' = p) \/
     (exists l, structured l /\ has mem p l /\ (length l <= sz)%nat /\ i' = mk_iter (p + length l) (sz - length l) None)).
Proof. exact decode_cases. Qed.
Example C22_reject_ex : byte_list [226; 130; 0] /\ bounded [226; 130; 0] 0 1000 /\
  decode [226; 130; 0] (mk_iter 0 1000 None) = UOk (0, mk_iter 0 998 (Some Continuation)) /\
  decode [192; 128] (mk_iter 0 2 None) = UOk (0, mk_iter 0 1 (Some Start)).
Proof.
  split; [repeat constructor; lia|]. split; [right; exists 2%nat; split; [lia|reflexivity]|]. split; reflexivity.
Qed.

(** The full statement: only encodings of characters are accepted. *)
Definition reject_full : Prop := forall mem p sz r i', byte_list mem -> bounded mem p sz ->
  decode mem (mk_iter p sz None) = UOk (r, i') -> r <> 0 ->
  exists c, scalar c /\ has mem p (utf8 c) /\ pos i' = (p + length (utf8 c))%nat.
(** It is false: an overlong sequence, here for U+0000, is accepted. *)
Theorem C22_reject_refuted : ~ reject_full.
Proof.
  intros H. destruct (H [224; 128; 128] 0%nat 3%nat 8320 (mk_iter 3 0 None)) as (c & C & U & P).
  - repeat constructor; lia.
  - left. cbn. lia.
  - reflexivity.
  - discriminate.
  - cbn [pos] in P. assert (L : length (utf8 c) = 3%nat) by lia. unfold has in U. rewrite L in U.
    cbn [skipn firstn] in U. unfold utf8 in U, L. destruct C as [C1 C2].
    destruct (Z.ltb_spec c 128); [discriminate L|]. destruct (Z.ltb_spec c 2048); [discriminate L|].
    destruct (Z.ltb_spec c 65536); [|discriminate L]. pose proof (f_equal (fun l => nth 0 l 0) U) as U1. pose proof (f_equal (fun l => nth 1 l 0) U) as U2. cbn [nth] in U1, U2.
    assert (E : c / 4096 = 0) by lia. assert (c < 4096).
    { destruct (Z.lt_ge_cases c 4096); [assumption|]. assert (1 <= c / 4096) by (apply Z.div_le_lower_bound; lia). lia. }
    assert (c / 64 < 64) by (apply Z.div_lt_upper_bound; lia). assert (32 <= c / 64) by (apply Z.div_le_lower_bound; lia).
    rewrite Z.mod_small in U2 by lia. lia.
Qed.
(** Encoded surrogates are accepted, too (as a different code point). *)
Example C22_surrogate_ex : decode [237; 160; 128] (mk_iter 0 3 None) = UOk (63616, mk_iter 3 0 None).
Proof. reflexivity. Qed.

(** ** escape sequences *)

Theorem C22_escape : forall mem p sz c v, simple_escape c v -> has mem p [92; c] -> (2 <= sz)%nat ->
  escaped_decode mem (mk_iter p sz None) = UOk (v, mk_iter (p + 2) (sz - 2) None).
Proof. exact escaped_simple. Qed.
Theorem C22_escape_hex : forall mem p sz c n max ds v, hex_escape c n max -> length ds = n -> hex ds v ->
  has mem p (92 :: c :: ds) -> (2 + n <= sz)%nat ->
  escaped_decode mem (mk_iter p sz None) =
    UOk (if max <? v then (0, mk_iter p (sz - 2 - n) (Some TooLarge)) else (v, mk_iter (p + 2 + n) (sz - 2 - n) None)).
Proof. exact escaped_hex. Qed.
(** € *)
Example C22_escape_ex : hex [50; 48; 97; 99] 8364 /\
  escaped_decode [92; 117; 50; 48; 97; 99; 65] (mk_iter 0 7 None) = UOk (8364, mk_iter 6 1 None) /\
  escaped_decode [65; 92; 110] (mk_iter 1 2 None) = UOk (10, mk_iter 3 0 None) /\
  escaped_decode [92; 120; 56; 48] (mk_iter 0 4 None) = UOk (0, mk_iter 0 0 (Some TooLarge)).
Proof.
  split; [|repeat split].
  change [50; 48; 97; 99] with (((([] ++ [50]) ++ [48]) ++ [97]) ++ [99]).
  change 8364 with (16 * (16 * (16 * (16 * 0 + 2) + 0) + 10) + 12).
  repeat constructor; unfold hexdigit; lia.
Qed.

(** Nothing is read outside of the memory; only a backslash at the end makes an assertion fail. *)
Theorem C22_escape_safe : forall mem p sz, byte_list mem -> bounded mem p sz ->
  (exists r i', escaped_decode mem (mk_iter p sz None) = UOk (r, i')) \/
  (escaped_decode mem (mk_iter p sz None) = UFail /\ nth_error mem p = Some 92 /\ (sz = 1%nat \/ nth_error mem (p + 1) = Some 0)).
Proof. exact escaped_safe. Qed.
Example C22_escape_safe_ex : escaped_decode [92; 0] (mk_iter 0 9 None) = UFail /\ bounded [92; 0] 0 9.
Proof. split; [reflexivity|]. right. exists 1%nat. split; [lia|reflexivity]. Qed.

(** If at least two digits are missing, this is an error. *)
Theorem C22_escape_short_partial : forall mem p sz c n max l, hex_escape c n max -> (length l + 1 < n)%nat ->
  (exists v, hex l v) -> has mem p (92 :: c :: l) -> (2 + length l <= sz)%nat ->
  (sz = 2 + length l \/ exists x, nth_error mem (p + 2 + length l) = Some x /\ ~ (exists v, hexdigit x v))%nat ->
  escaped_decode mem (mk_iter p sz None) = UOk (0, mk_iter p (sz - 2 - length l) (Some Premature)).
Proof. exact escaped_short. Qed.
Example C22_escape_short_ex : escaped_decode [92; 117; 50; 48; 103] (mk_iter 0 5 None) = UOk (0, mk_iter 0 1 (Some Premature)).
Proof. reflexivity. Qed.

(** The full statement about hexadecimal digits: too few of them are rejected. *)
Definition escape_full : Prop := forall mem p sz c n max l x, hex_escape c n max -> (length l < n)%nat ->
  (exists v, hex l v) -> has mem p (92 :: c :: l ++ [x]) -> ~ (exists v, hexdigit x v) -> (3 + length l <= sz)%nat ->
  exists i' r, escaped_decode mem (mk_iter p sz None) = UOk (r, i') /\ error i' <> None.
(** It is false: it is not noticed if only the last digit is missing: \x4g *)
Theorem C22_escape_refuted : ~ escape_full.
Proof.
  intros H. destruct (H [92; 120; 52; 103] 0%nat 4%nat 120 2%nat 127 [52] 103) as (i' & r & E & N).
  - unfold hex_escape. auto.
  - cbn. lia.
  - exists (16 * 0 + 4). apply (hex_app [] 52 0 4); [constructor|unfold hexdigit; lia].
  - reflexivity.
  - intros (v & V). unfold hexdigit in V. lia.
  - cbn. lia.
  - cbv in E. injection E as <- <-. apply N. reflexivity.
Qed.

Print Assumptions C22_encode.
Print Assumptions C22_decode.
Print Assumptions C22_roundtrip_partial.
Print Assumptions C22_roundtrip_refuted.
Print Assumptions C22_reject.
Print Assumptions C22_reject_refuted.
Print Assumptions C22_escape.
Print Assumptions C22_escape_hex.
Print Assumptions C22_escape_safe.
Print Assumptions C22_escape_short_partial.
Print Assumptions C22_escape_refuted.
Print Assumptions C22_encode_reject.
