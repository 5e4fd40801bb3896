(** C35: the scanner, the parser and the printer for SCAD syntax trees *)
From Coq Require Import String Ascii ZArith Bool List Lia Arith ZifyBool.
From Verif Require Import Syn_model Syn_spec Syn_proofs Syn_proofs2 Syn_proofs5 Syn_proofs6 Syn_proofs7 Syn_proofs8 Syn_proofs9.
Import ListNotations.
Local Open Scope Z_scope.
Definition ab (s : string) : list Z := map (fun c => Z.of_nat (nat_of_ascii c)) (list_ascii_of_string s).

Lemma posl_b l : forallb (Z.ltb 0) l = true -> posl l. Proof. intros H x I. rewrite forallb_forall in H. specialize (H x I). lia. Qed.
(** The trees that a run of the parser yields, seen in the memory that it leaves *)
Definition tree {F} (x : list (stmt nat F) * mem) : list (stmt (list Z) F) := map (view (m_mem (snd x))) (fst x).

(** For every file, with any characters: the scanner that ends tokens with NULs inside the file behaves like the one that copies all
    texts.  In particular, no token is overwritten by a later one, and nothing outside of the file and its final NUL is read or written. *)
Theorem C35_inplace : forall F (strtod : list Z -> F) fuel file,
  match syn_parse strtod fuel file, copy_parse strtod fuel file with
  | Ok x, Ok (t, _) => tree x = t
  | Err, Err | Inc, Inc | Crash, Crash | NoFuel, NoFuel => True
  | _, _ => False
  end.
Proof.
  intros F strtod fuel f. pose proof (parse_sim F strtod f fuel) as H. destruct (syn_parse strtod fuel f) as [x| | | |], (copy_parse strtod fuel f) as [(t, c)| | | |]; cbn in H; auto.
Qed.
Definition ex : list Z := ab "use <a/b>; /* x */ #a(x=1.5e3,[1:-2],[[1:+2:3],]) b(""h\""i"") { c(); } // end".
Definition ex_tree : list (stmt (list Z) (list Z)) :=
  [SUse (ab "a/b"); SItem (Item (Some (ab "a"))
     [(Some (ab "x"), VFloat (ab "1.5e3")); (None, VRange (VInt 1) (VInt (-2)) None); (None, VArray [VRange (VInt 1) (VInt 3) (Some (VInt 2))])]
     [Item (Some (ab "b")) [(None, VString (ab "h\""i"))] [Item (Some (ab "c")) [] [] 0] 0] 17)].
Example C35_inplace_ex : match syn_parse (fun s => s) 500 ex with Ok x => tree x = ex_tree /\ m_mem (snd x) <> ex ++ [0] | _ => False end.
Proof. vm_compute. split; [reflexivity|discriminate]. Qed.

(** For every file: the parser ends, with recursion and loops bounded by the length of the file, without an access outside of the file *)
Theorem C35_terminates : forall F (strtod : list Z -> F) fuel file, (4 * length file + 12 <= fuel)%nat ->
  syn_parse strtod fuel file <> NoFuel /\ syn_parse strtod fuel file <> Crash.
Proof.
  intros F strtod fuel f L. pose proof (C35_inplace F strtod fuel f) as H. destruct (parse_total strtod fuel f L) as (T1 & T2). destruct (syn_parse strtod fuel f), (copy_parse strtod fuel f) as [(t, c)| | | |]; try contradiction; split; congruence.
Qed.
Example C35_terminates_ex : (4 * length ex + 12 <= 500)%nat /\ syn_parse (fun s => s) 500 (ab "a(""") = Err /\ syn_parse (fun s => s) 500 (ab "/*") = Err.
Proof. split; [vm_compute; lia|]. split; reflexivity. Qed.

(** The result does not depend on the bound *)
Theorem C35_fuel : forall F (strtod : list Z -> F) fuel fuel' file x, posl file -> (4 * length file + 12 <= fuel')%nat ->
  syn_parse strtod fuel file = Ok x -> exists x', syn_parse strtod fuel' file = Ok x' /\ tree x' = tree x.
Proof.
  intros F strtod fuel fuel' f x P L E. pose proof (C35_inplace F strtod fuel f) as H. rewrite E in H. destruct (copy_parse strtod fuel f) as [(t, c)| | | |] eqn:C; try contradiction. apply parse_sound in C; auto. destruct (parse_complete strtod fuel' f t P C ltac:(lia)) as (c' & C'). pose proof (C35_inplace F strtod fuel' f) as H'. rewrite C' in H'. destruct (syn_parse strtod fuel' f) as [x'| | | |]; try contradiction. exists x'. split; congruence.
Qed.
Example C35_fuel_ex : posl ex /\ exists x, syn_parse (fun s => s) 60 ex = Ok x.
Proof. split; [apply posl_b; reflexivity|vm_compute; eauto]. Qed.

(** The parser accepts only texts of the grammar, and finds the tree that the grammar assigns *)
Theorem C35_sound : forall F (strtod : list Z -> F) fuel file x, posl file -> syn_parse strtod fuel file = Ok x -> source strtod file (tree x).
Proof.
  intros F strtod fuel f x P E. pose proof (C35_inplace F strtod fuel f) as H. rewrite E in H. destruct (copy_parse strtod fuel f) as [(t, c)| | | |] eqn:C; try contradiction. rewrite H. eapply parse_sound; eauto.
Qed.
(** The parser accepts all texts of the grammar *)
Theorem C35_complete : forall F (strtod : list Z -> F) fuel file t, posl file -> source strtod file t -> (4 * length file + 12 <= fuel)%nat ->
  exists x, syn_parse strtod fuel file = Ok x /\ tree x = t.
Proof.
  intros F strtod fuel f t P S L. destruct (parse_complete strtod fuel f t P S ltac:(lia)) as (c & C). pose proof (C35_inplace F strtod fuel f) as H. rewrite C in H. destruct (syn_parse strtod fuel f) as [x| | | |]; try contradiction. eauto.
Qed.
(** The grammar is not ambiguous *)
Theorem C35_unambiguous : forall F (strtod : list Z -> F) file t t', posl file -> source strtod file t -> source strtod file t' -> t = t'.
Proof.
  intros F strtod f t t' P S S'. destruct (C35_complete F strtod _ f t P S (le_n _)) as (x & E & <-). destruct (C35_complete F strtod _ f t' P S' (le_n _)) as (x' & E' & <-). congruence.
Qed.
(** a derivation: spaces, a comment, an argument, and an end *)
Example C35_complete_ex : let f := ab " a /**/ ( x ) ;" in posl f /\ source (fun s => s) f [SItem (Item (Some (ab "a")) [(None, VId (ab "x"))] [] 0)].
Proof.
  split; [apply posl_b; reflexivity|]. exists [TId (ab "a"); TP 40; TId (ab "x"); TP 41; TP 59]. split.
  - apply (lx_id [32] [97] (ab " /**/ ( x ) ;")); [constructor; [now left|constructor]|apply id_plain; [unfold letter; lia|constructor]|cbn; unfold dig, letter; lia|].
    apply (lx_punct (ab " /**/ ") 40 (ab " x ) ;")); [|cbn; tauto|].
    { apply bk_space; [now left|]. apply (bk_block [] [32]); [intros u v E; destruct u as [|? [|? u]]; discriminate|]. constructor; [now left|constructor]. }
    apply (lx_id [32] [120] (ab " ) ;")); [constructor; [now left|constructor]|apply id_plain; [unfold letter; lia|constructor]|cbn; unfold dig, letter; lia|].
    apply (lx_punct [32] 41 (ab " ;")); [constructor; [now left|constructor]|cbn; tauto|]. apply (lx_punct [32] 59 []); [constructor; [now left|constructor]|cbn; tauto|]. repeat constructor.
  - apply (pg_itm _ [TId (ab "a"); TP 40; TId (ab "x"); TP 41; TP 59] [Item (Some (ab "a")) [(None, VId (ab "x"))] [] 0] [] []); [|constructor].
    apply (i_call _ [] 0 (ab "a") [TId (ab "x")] [(None, VId (ab "x"))] [TP 59] []); [constructor| |constructor; constructor; constructor|apply ca_itm; [constructor|discriminate]].
    vm_compute. intuition discriminate.
Qed.

(** Printing and parsing again, for every tree that the parser yields: modifiers are lost, and each number [x] is read as what its text
    denotes, [again x].  Missing for C35: functors of groups, or functors that are keywords; [C35_group_refuted] and [C35_keyword_refuted]
    show that they are not read again. *)
Theorem C35_roundtrip_partial : forall F (strtod : list Z -> F) fmt again fuel fuel' file x, posl file -> syn_parse strtod fuel file = Ok x ->
  (forall f, In f (functors (tree x)) -> exists s, f = Some s /\ ~ In s keywords) ->
  (forall y, In y (floats (tree x)) -> reads strtod (fmt y) (again y)) ->
  let text := put_tree F fmt (tree x) in (4 * length text + 12 <= fuel')%nat ->
  exists x', syn_parse strtod fuel' text = Ok x' /\ tree x' = map (plain again) (tree x).
Proof.
  intros F strtod fmt again fuel fuel' f x P E K R text L. pose proof (C35_sound F strtod fuel f x P E) as S. pose proof (source_wf strtod f (tree x) S P) as W.
  assert (R' : Forall (readable strtod fmt again) (floats (tree x))) by (apply Forall_forall; exact R). assert (K' : Forall callable (functors (tree x))) by (apply Forall_forall; exact K).
  apply C35_complete; auto; [now apply put_tree_pos with strtod again|now apply put_tree_ok].
Qed.
(** The same tree is read if there are no modifiers, and if the texts of all numbers are read as the same numbers *)
Theorem C35_same_tree_partial : forall F (strtod : list Z -> F) fmt fuel fuel' file x, posl file -> syn_parse strtod fuel file = Ok x ->
  (forall f, In f (functors (tree x)) -> exists s, f = Some s /\ ~ In s keywords) -> (forall m, In m (modifiers (tree x)) -> m = 0) ->
  (forall y, In y (floats (tree x)) -> reads strtod (fmt y) (VFloat y)) ->
  let text := put_tree F fmt (tree x) in (4 * length text + 12 <= fuel')%nat ->
  exists x', syn_parse strtod fuel' text = Ok x' /\ tree x' = tree x.
Proof.
  intros F strtod fmt fuel fuel' f x P E K M R text L. destruct (C35_roundtrip_partial F strtod fmt VFloat fuel fuel' f x P E K R L) as (x' & E' & T). exists x'. split; auto. rewrite T. now apply plain_id.
Qed.
Definition ex2 : list Z := ab "use <a/b>; /* x */ a(x=1.5e3,[1:-2],[[1:+2:3],]) b(""h\""i"") { c(); } // end".
Example C35_same_tree_ex : posl ex2 /\ match syn_parse (fun s => s) 500 ex2 with
  | Ok x => (forall f, In f (functors (tree x)) -> exists s, f = Some s /\ ~ In s keywords) /\ (forall m, In m (modifiers (tree x)) -> m = 0) /\
      (forall y, In y (floats (tree x)) -> reads (fun s => s) y (VFloat y)) /\ floats (tree x) <> []
  | _ => False end.
Proof.
  split; [apply posl_b; reflexivity|]. vm_compute. split; [|split; [|split; [|discriminate]]].
  - intros f H. repeat (destruct H as [<-|H]; [eexists; split; [reflexivity|intuition discriminate]|]). destruct H.
  - intuition.
  - intros y [<-|[]]. apply (rd_float (fun s => s) [49; 46; 53; 101; 51] [49; 46; 53; 101; 51]). apply (nb_plain [49] [46; 53] [101; 51]); [constructor; [unfold dig; lia|constructor]|right; exists [53]; split; [reflexivity|constructor; [unfold dig; lia|constructor]]| |discriminate].
    right. exists 101, [], [51]. split; [reflexivity|]. split; [now left|]. split; [now left|constructor; [unfold dig; lia|constructor]].
Qed.

(** Integers that the parser yields are printed and read exactly *)
Theorem C35_integers : forall F (strtod : list Z -> F) n, - 2 ^ 63 <= n <= 2 ^ 63 - 1 -> reads strtod (put_int n) (VInt n).
Proof. intros F strtod n N. destruct (put_int_ok n N). eapply rd_int; eauto. Qed.
Example C35_integers_ex : put_int (- 2 ^ 63) = ab "-9223372036854775808" /\ put_int 0 = ab "0".
Proof. split; reflexivity. Qed.

(** What is read and printed: for [strtod] and [fmt] see the theorems *)
Definition reprint {F} (strtod : list Z -> F) fmt fuel (file : list Z) : option (list Z) :=
  match syn_parse strtod fuel file with Ok x => Some (put_tree F fmt (tree x)) | _ => None end.
Definition parsed {F} (strtod : list Z -> F) fuel (file : list Z) : option (list (stmt (list Z) F)) :=
  match syn_parse strtod fuel file with Ok x => Some (tree x) | _ => None end.
(** Modifiers are lost *)
Theorem C35_modifier_refuted : forall F (strtod : list Z -> F) fmt, exists text t t',
  reprint strtod fmt 100 (ab "#cube(1);") = Some text /\ parsed strtod 100 (ab "#cube(1);") = Some t /\ parsed strtod 100 text = Some t' /\ t <> t'.
Proof. intros. do 3 eexists. split; [vm_compute; reflexivity|]. split; [vm_compute; reflexivity|]. split; [vm_compute; reflexivity|discriminate]. Qed.
(** The text for a group is rejected *)
Theorem C35_group_refuted : forall F (strtod : list Z -> F) fmt fuel, (100 <= fuel)%nat ->
  reprint strtod fmt 100 (ab "{cube(1);}") = Some (ab "{() {
  cube(1);
}
") /\ syn_parse strtod fuel (ab "{() {
  cube(1);
}
") = Err.
Proof. intros F strtod fmt fuel L. do 100 (destruct fuel as [|fuel]; [lia|]). split; vm_compute; reflexivity. Qed.
(** A keyword behind a modifier is a functor; its text is rejected *)
Theorem C35_keyword_refuted : forall F (strtod : list Z -> F) fmt fuel, (100 <= fuel)%nat ->
  reprint strtod fmt 100 (ab "#use(1);") = Some (ab "use(1);
") /\ syn_parse strtod fuel (ab "use(1);
") = Err.
Proof. intros F strtod fmt fuel L. do 100 (destruct fuel as [|fuel]; [lia|]). split; vm_compute; reflexivity. Qed.
(** The text for the number 1.0 is read as an integer, if [fmt] is like printf with %.16g *)
Theorem C35_float_refuted : forall F (strtod : list Z -> F) fmt, fmt (strtod (ab "1.0")) = ab "1" ->
  parsed strtod 100 (ab "a(1.0);") = Some [SItem (Item (Some (ab "a")) [(None, VFloat (strtod (ab "1.0")))] [] 0)] /\
  (exists text, reprint strtod fmt 100 (ab "a(1.0);") = Some text /\ parsed strtod 100 text = Some [SItem (Item (Some (ab "a")) [(None, VInt 1)] [] 0)]).
Proof.
  intros F strtod fmt H. split; [vm_compute; reflexivity|]. exists (ab "a(1);
"). split; [|vm_compute; reflexivity]. vm_compute in H |- *. rewrite H. reflexivity.
Qed.
Example C35_float_ex : (fun _ : unit => ab "1") ((fun _ => tt) (ab "1.0")) = ab "1". Proof. reflexivity. Qed.
(** The text for a number that is too large is read as an identifier *)
Theorem C35_inf_refuted : forall F (strtod : list Z -> F) fmt, fmt (strtod (ab "1e999")) = ab "inf" ->
  exists text, put_tree F fmt [SItem (Item (Some (ab "a")) [(None, VFloat (strtod (ab "1e999")))] [] 0)] = text /\
  parsed strtod 100 text = Some [SItem (Item (Some (ab "a")) [(None, VId (ab "inf"))] [] 0)].
Proof. intros F strtod fmt H. eexists. split; [reflexivity|]. cbn - [ab]. rewrite H. vm_compute. reflexivity. Qed.
(** A file is inserted inside of a group, but not on the top level *)
Theorem C35_include_refuted : forall F (strtod : list Z -> F) fuel, (100 <= fuel)%nat ->
  syn_parse strtod fuel (ab "include <a>") = Err /\ syn_parse strtod fuel (ab "{include <a>}") = Inc.
Proof. intros F strtod fuel L. do 100 (destruct fuel as [|fuel]; [lia|]). split; vm_compute; reflexivity. Qed.
(** What follows a NUL is ignored silently *)
Theorem C35_nul_refuted : forall F (strtod : list Z -> F),
  parsed strtod 100 (ab "a();" ++ 0 :: ab "}}") = parsed strtod 100 (ab "a();") /\ parsed strtod 100 (ab "a();") <> None.
Proof. intros. split; [vm_compute; reflexivity|vm_compute; discriminate]. Qed.

Print Assumptions C35_inplace.
Print Assumptions C35_terminates.
Print Assumptions C35_fuel.
Print Assumptions C35_sound.
Print Assumptions C35_complete.
Print Assumptions C35_unambiguous.
Print Assumptions C35_roundtrip_partial.
Print Assumptions C35_same_tree_partial.
Print Assumptions C35_integers.
Print Assumptions C35_modifier_refuted.
Print Assumptions C35_group_refuted.
Print Assumptions C35_keyword_refuted.
Print Assumptions C35_float_refuted.
Print Assumptions C35_inf_refuted.
Print Assumptions C35_include_refuted.
Print Assumptions C35_nul_refuted.
