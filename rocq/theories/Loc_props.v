(** C33: source locations. *)
From Coq Require Import Arith Bool List Lia.
From Verif Require Import Loc_model Loc_spec Loc_proofs.
Import ListNotations.

(** "ab\ncd\nef\ngh\n", at address 100, and "xy" at 200 *)
Definition ex_files : list file :=
  [mk_file 100 [97; 98; 10; 99; 100; 10; 101; 102; 10; 103; 104; 10]; mk_file 200 [120; 121]].
Lemma ex_separate : separate ex_files.
Proof.
  intros i j f g N Hi Hj. destruct i as [|[|i]], j as [|[|j]]; cbn in Hi, Hj; try discriminate; try lia;
    try (destruct i; discriminate); try (destruct j; discriminate);
    injection Hi as <-; injection Hj as <-; cbn; lia.
Qed.

(** Looking up any position of any file finds the file (no assertion fails), and a line that is off by at most one: it is one
    too small only at the start of a line, one too large only at the end of a file that does not end in a line break. *)
Theorem C33_total : forall fs j f p, separate fs -> nth_error fs j = Some f -> p <= length (content f) ->
  exists ln o e, get_loc fs (base f + p) = Loc (mk_loc j ln o e) /\
    (ln = breaks (content f) p \/
     (ln + 1 = breaks (content f) p /\ line_start (content f) p) \/
     (p = length (content f) /\ ~ line_start (content f) p /\ ln = breaks (content f) p + 1)) /\
    (ln = breaks (content f) p -> delimits (content f) p o e).
Proof.
  intros fs j f p S Hj Hp. destruct (get_loc_ok fs j f p S Hj Hp) as (ln & o & e & H1 & H2 & _ & H3).
  exists ln, o, e. auto.
Qed.
Example C33_total_ex : separate ex_files /\
  map (get_loc ex_files) [100; 102; 104; 106; 108; 201] =
  [Loc (mk_loc 0 0 0 3); Loc (mk_loc 0 0 0 3); Loc (mk_loc 0 1 3 6); Loc (mk_loc 0 2 6 9); Loc (mk_loc 0 2 6 9); Loc (mk_loc 1 0 0 2)].
Proof. split; [exact ex_separate|vm_compute; reflexivity]. Qed.

(** The line reported is right if the position is neither the start of a line nor the end of the file.  (The full statement,
    for all positions, is refuted below.) *)
Theorem C33_line_partial : forall fs j f p, separate fs -> nth_error fs j = Some f -> p < length (content f) ->
  ~ line_start (content f) p ->
  exists o e, get_loc fs (base f + p) = Loc (mk_loc j (breaks (content f) p) o e) /\ delimits (content f) p o e.
Proof.
  intros fs j f p S Hj Hp N. destruct (get_loc_ok fs j f p S Hj ltac:(lia)) as (ln & o & e & H1 & H2 & _ & H3).
  destruct H2 as [->|[[_ H2]|[H2 _]]]; [|contradiction|lia]. exists o, e. auto.
Qed.
Example C33_line_partial_ex : ~ line_start (content (mk_file 100 [97; 10; 98; 99])) 3 /\
  breaks [97; 10; 98; 99] 3 = 1.
Proof. split; [|reflexivity]. intros [_ H]. vm_compute in H. discriminate. Qed.

(** Only positions in a file are found. *)
Theorem C33_unknown : forall fs token,
  (forall f, In f fs -> ~ base f <= token <= base f + length (content f)) <-> get_loc fs token = NoLoc.
Proof. exact get_loc_none. Qed.
Example C33_unknown_ex : get_loc ex_files 150 = NoLoc.
Proof. vm_compute. reflexivity. Qed.

(** The caret under the source line points to the character of the location (if this is printable and the location is not the
    start of a line), and the column reported is the caret's. *)
Theorem C33_caret : forall fs j f p o e, separate fs -> nth_error fs j = Some f -> p < length (content f) ->
  ~ line_start (content f) p -> delimits (content f) p o e ->
  (forall i, o <= i <= p -> is_printable (nth i (content f) 0) = true) -> nth p (content f) 0 <> TAB ->
  exists col text caret, loc_src fs (base f + p) = Some (j, breaks (content f) p + 1, Some col, text, caret) /\
    nth col text 0 = nth p (content f) 0 /\ nth col caret 0 = 94.
Proof. exact loc_src_ok. Qed.
(** "\tab" at 10: the 'b' is in column 6 *)
Example C33_caret_ex : loc_src [mk_file 10 [9; 97; 98]] 12 =
  Some (0, 1, Some 6, [32; 32; 32; 32; 32; 97; 98; 10], [32; 32; 32; 32; 32; 32; 94; 10]).
Proof. vm_compute. reflexivity. Qed.

(** The full statement is wrong: the 'g' in line 4 of the example above is reported in line 3, *)
Theorem C33_line_refuted : ~ (forall fs j f p, separate fs -> nth_error fs j = Some f -> p < length (content f) ->
  exists o e, get_loc fs (base f + p) = Loc (mk_loc j (breaks (content f) p) o e)).
Proof.
  intro H. destruct (H ex_files 0 _ 9 ex_separate eq_refl) as (o & e & E); [cbn; lia|]. vm_compute in E. discriminate.
Qed.
(** and the end of a file without a line break at the end is reported in a line that does not exist. *)
Theorem C33_eof_refuted : ~ (forall fs j f p, separate fs -> nth_error fs j = Some f -> p = length (content f) ->
  exists ln o e, get_loc fs (base f + p) = Loc (mk_loc j ln o e) /\ ln <= breaks (content f) p).
Proof.
  intro H. destruct (H ex_files 1 _ 2 ex_separate eq_refl) as (ln & o & e & E & L); [reflexivity|].
  vm_compute in E. injection E as <- <- <-. vm_compute in L. lia.
Qed.

Print Assumptions C33_total.
Print Assumptions C33_line_partial.
Print Assumptions C33_unknown.
Print Assumptions C33_caret.
Print Assumptions C33_line_refuted.
Print Assumptions C33_eof_refuted.
