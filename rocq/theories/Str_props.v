(** Properties of strings *)
From Coq Require Import Arith Bool NArith String List Lia.
From Verif Require Import Sieve_model Sieve_spec Color_table Str_model Str_spec Str_proofs.
Import ListNotations.

(** C43: any sequence of calls on a character vector does to the string in it what it says, keeps it terminated by a zero,
    and never writes outside of the memory, whatever realloc leaves in new memory; the only failure is taking a character from
    an empty string. *)
Theorem C43_strings : forall junk l v, wf v -> (N.of_nat (vsize v + list_sum (map op_len l) + 1) <= 2 ^ 63)%N ->
  match sexec_all (map sop_of l) (content v) with
  | Some s => exists v', exec_all junk l v = Ok v' /\ wf v' /\ content v' = s
  | None => exec_all junk l v = Err AssertFails
  end.
Proof. exact exec_all_ok. Qed.
Example C43_strings_ex : let l := [Append [104; 111]; Printf [98; 51; 108]; Pop; Cstr; Push 33; Clear; Printf [97; 98; 99; 100; 101; 102]] in
  wf vchar_init /\ (N.of_nat (vsize vchar_init + list_sum (map op_len l) + 1) <= 2 ^ 63)%N
  /\ sexec_all (map sop_of l) [] = Some [97; 98; 99; 100; 101; 102]
  /\ match exec_all (fun _ => 255) l vchar_init with Ok v => vdata v | Err _ => None end = Some [97; 98; 99; 100; 101; 102; 0; 255].
Proof. vm_compute. repeat split. discriminate. Qed.

(** C43: the C string is the content, followed by a zero *)
Theorem C43_cstr : forall junk v, wf v -> exists v' rest, vchar_cstr junk v = Ok v' /\ wf v' /\ content v' = content v
  /\ vdata v' = Some (content v ++ 0 :: rest).
Proof.
  intros junk v W. destruct (cstr_ok junk v W) as (v' & E & W' & C & _ & rest & D). exists v', rest. auto.
Qed.
Example C43_cstr_ex : wf vchar_init /\ wf (mk_vchar (Some [97; 0; 1; 1]) 1)
  /\ vchar_cstr (fun _ => 9) vchar_init = Ok (mk_vchar (Some [0; 0; 9; 9]) 0).
Proof. unfold wf. simpl. repeat split; auto. Qed.

(** C40: unquoting gives the characters that the text denotes, and fails iff the text denotes nothing *)
Theorem C40_unquote : forall junk v s, wf v -> (N.of_nat (vsize v + List.length s + 1) <= 2 ^ 63)%N ->
  (exists r v', denotes s r /\ string_unquote junk v s = Ok (true, v') /\ wf v' /\ content v' = content v ++ r)
  \/ ((forall r, ~ denotes s r) /\ exists v', string_unquote junk v s = Ok (false, v')).
Proof. exact unquote_ok. Qed.
Example C40_unquote_ex : wf vchar_init
  /\ match string_unquote (fun _ => 9) vchar_init (chars "a\n\\b") with Ok (b, v) => (b, content v) | Err _ => (false, []) end
     = (true, [97; 10; 92; 98])
  /\ match string_unquote (fun _ => 9) vchar_init (chars "a\x") with Ok (b, v) => b | Err _ => true end = false
  /\ match string_unquote (fun _ => 9) vchar_init (chars "a\") with Ok (b, v) => b | Err _ => true end = false.
Proof. split; [reflexivity|]. vm_compute. auto. Qed.

(** C40: unquoting is the inverse of quoting *)
Theorem C40_roundtrip : forall junk s, (N.of_nat (List.length (quote s) + 1) <= 2 ^ 63)%N ->
  exists v, string_unquote junk vchar_init (quote s) = Ok (true, v) /\ wf v /\ content v = s.
Proof.
  intros junk s B. destruct (unquote_ok junk vchar_init (quote s) eq_refl B) as [(r & v & D & E & W & C)|(N & _)].
  - exists v. split; [exact E|]. split; [exact W|]. rewrite C. simpl.
    apply unq_denotes in D. pose proof (denotes_quote s) as Q. apply unq_denotes in Q. congruence.
  - exfalso. apply (N s). apply denotes_quote.
Qed.
Example C40_roundtrip_ex : quote [97; 9; 34; 92; 10; 13; 200] = [97; 92; 116; 92; 34; 92; 92; 92; 110; 92; 114; 200]
  /\ match string_unquote (fun _ => 9) vchar_init (quote [97; 9; 34; 92; 10; 13; 200]) with Ok (b, v) => (b, content v) | Err _ => (false, []) end
     = (true, [97; 9; 34; 92; 10; 13; 200]).
Proof. vm_compute. auto. Qed.

(** C34: a string that starts with '#' is a colour iff it has the form #rgb or #rrggbb; then the colour it denotes is stored,
    else failure is reported and nothing is stored *)
Theorem C34_hex : forall find old name, hd 0 name = 35 ->
  (exists c, hex_color name c /\ color_by_name find old name = Ok (true, c))
  \/ ((forall c, ~ hex_color name c) /\ color_by_name find old name = Ok (false, old)).
Proof. exact hex_named. Qed.
Example C34_hex_ex : hd 0 (chars "#fA0712") = 35
  /\ color_by_name color_find (1, 2, 3)%N (chars "#fA0712") = Ok (true, (250, 7, 18)%N)
  /\ color_by_name color_find (1, 2, 3)%N (chars "#0bC") = Ok (true, (0, 187, 204)%N)
  /\ color_by_name color_find (1, 2, 3)%N (chars "#0bCd") = Ok (false, (1, 2, 3)%N)
  /\ color_by_name color_find (1, 2, 3)%N (chars "#0bg") = Ok (false, (1, 2, 3)%N).
Proof. vm_compute. auto. Qed.

(** C34: any name in the table of the program gives the colour of the table *)
Theorem C34_name : forall old name v, hd 0 name <> 35 -> (forall c, In c name -> c < 256) -> assoc name color_names = Some v ->
  exists c, named_color color_names name c /\ color_by_name color_find old name = Ok (true, c).
Proof. intros old name v H C E. pose proof (by_name old name H C) as B. rewrite E in B. exact B. Qed.
Example C34_name_ex : hd 0 (chars "rebeccapurple") <> 35 /\ hd 0 (chars "olive") <> 35
  /\ assoc (chars "olive") color_names = Some 8421376%N
  /\ color_by_name color_find (1, 2, 3)%N (chars "olive") = Ok (true, (128, 128, 0)%N).
Proof. vm_compute. repeat split; discriminate. Qed.

(** C34, the rest of the statement is refuted: for any other string, a NULL pointer is dereferenced instead of a failure being
    reported *)
Theorem C34_unknown_refuted : forall old name, hd 0 name <> 35 -> (forall c, In c name -> c < 256) -> assoc name color_names = None ->
  color_by_name color_find old name = Err NullDeref.
Proof. intros old name H C E. pose proof (by_name old name H C) as B. rewrite E in B. exact B. Qed.
Example C34_unknown_refuted_ex : hd 0 (chars "reddish") <> 35 /\ assoc (chars "reddish") color_names = None /\ assoc [] color_names = None
  /\ color_by_name color_find (1, 2, 3)%N (chars "reddish") = Err NullDeref.
Proof. vm_compute. repeat split; discriminate. Qed.

Print Assumptions C43_strings.
Print Assumptions C43_cstr.
Print Assumptions C40_unquote.
Print Assumptions C40_roundtrip.
Print Assumptions C34_hex.
Print Assumptions C34_name.
Print Assumptions C34_unknown_refuted.
