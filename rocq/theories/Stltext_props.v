(** C58: STL files in text format. *)
From Coq Require Import ZArith Bool String List Lia ZifyBool.
From Verif Require Import Stl_model Stl_spec Stl_proofs Stl_proofs2 Stl_props Stltext_model Stltext_spec Stltext_proofs2 Stltext_proofs3
  Stltext_proofs4 Stltext_proofs5 Stltext_proofs6.
Import ListNotations.
Local Open Scope Z_scope.

(** For the examples: the value of a text is the number made of its digits (in order), at most *)
Definition digit_value (w : list Z) : Z := fold_left (fun a c => if is_digit c then 10 * a + (c - 48) else a) w 0.
Definition read_file (f : list Z) : sres (list (list point3)) := stl_parse (fun x => x) pfind (parse_text digit_value pfind) f.
Definition cube_face : list Z := chars
  "facet normal 0 0 1 outer loop vertex 1 2 3 vertex +4 .5 6e vertex 7 8 9 endloop endfacet".
Definition named_file : list Z := chars "solid a" ++ nl ++ cube_face ++ nl ++ chars "endsolid a" ++ nl.
Definition unnamed_file : list Z := chars "solid" ++ nl ++ cube_face ++ nl ++ chars "endsolid" ++ nl.

(** The reader ends, and never accesses memory outside of the file: for any bytes, it reports an error, or it
    returns faces.  Also if the content is overwritten while it is read. *)
Theorem C58_safe : forall f64 strtod find f,
  (forall points v i, find points v = Some i -> (i < length points)%nat) -> starts_with_solid f ->
  (exists r, stl_parse f64 find (parse_text strtod find) f = SOk r) \/ stl_parse f64 find (parse_text strtod find) f = SErr.
Proof.
  intros f64 strtod find f FB S. unfold stl_parse. rewrite (proj2 (detect_text f) S).
  destruct (text_sound f strtod (fun _ _ => True) find) as [->|(faces & fs & -> & _)]; [|exact S|right; reflexivity|left; eauto].
  split; [trivial|]. intros points v i E. apply FB in E. destruct (nth_error points i) as [q|] eqn:N; [eauto|].
  apply nth_error_None in N. lia.
Qed.
Example C58_safe_ex : starts_with_solid (chars "solid" ++ [0; 200; 10]) /\ read_file (chars "solid" ++ [0; 200; 10]) = SErr /\
  starts_with_solid (chars "solid") /\ read_file (chars "solid") = SErr.
Proof. repeat split; try (eexists; reflexivity); vm_compute; reflexivity. Qed.

(** Whatever is accepted has the form of an STL file, and the faces are those of the file, corner by corner,
    in reverse order. *)
Theorem C58_sound : forall f64 strtod find same f faces, finds same find -> starts_with_solid f ->
  stl_parse f64 find (parse_text strtod find) f = SOk faces ->
  exists fs, accepted_form f fs /\
    Forall2 (fun face fc => face_of same (corner strtod (f_a fc)) (corner strtod (f_b fc)) (corner strtod (f_c fc)) face) faces fs.
Proof.
  intros f64 strtod find same f faces F S. unfold stl_parse. rewrite (proj2 (detect_text f) S). intros E.
  destruct (text_sound f strtod same find F S) as [E'|(faces' & fs & E' & A & FF)]; rewrite E in E'; [discriminate E'|].
  injection E' as <-. exists fs. split; assumption.
Qed.
Example C58_sound_ex : read_file named_file = SOk [[(7, 8, 9); (4, 5, 6); (1, 2, 3)]].
Proof. vm_compute. reflexivity. Qed.

(** Every STL file where something follows 'solid' in the first line is accepted, with its faces. *)
Theorem C58_complete_partial : forall f64 strtod find same c first body r fs, finds same find ->
  is_alpha c = false -> one_line (c :: first) -> (exists body', body = 10 :: body') ->
  Forall (facet_numbers number) fs -> words (body_words fs) body r -> file_end r ->
  exists faces, stl_parse f64 find (parse_text strtod find) (chars "solid" ++ (c :: first) ++ body) = SOk faces /\
    Forall2 (fun face fc => face_of same (corner strtod (f_a fc)) (corner strtod (f_b fc)) (corner strtod (f_c fc)) face) faces fs.
Proof.
  intros f64 strtod find same c first body r fs F C OL B N W FE. unfold stl_parse.
  replace (detect _) with Text by (symmetry; apply detect_text; eexists; reflexivity).
  apply (text_complete _ strtod same find F c first body fs r); try assumption; [reflexivity|inversion OL; assumption|].
  eapply Forall_impl; [|exact N]. intros fc. apply facet_loose.
Qed.
Definition digit (d : Z) : list Z := [48 + d].
Definition a_facet : facet := mk_facet (mk_vtext (digit 0) (digit 0) (digit 1)) (mk_vtext (digit 1) (digit 2) (digit 3))
  (mk_vtext (digit 4) (digit 5) (digit 6)) (mk_vtext (digit 7) (digit 8) (digit 9)).
Definition a_face : list Z := chars
  "facet normal 0 0 1 outer loop vertex 1 2 3 vertex 4 5 6 vertex 7 8 9 endloop endfacet".
Lemma digit_number d : 0 <= d <= 9 -> number (digit d).
Proof.
  intros H. exists [], (digit d), [], []. split; [reflexivity|]. split; [left; reflexivity|].
  split; [constructor; [unfold is_digit; lia|constructor]|]. split; [auto|]. split; [auto|]. left. discriminate.
Qed.
Lemma a_facet_numbers : facet_numbers number a_facet.
Proof. repeat split; apply digit_number; lia. Qed.
Lemma a_words : words (body_words [a_facet]) (nl ++ a_face ++ nl ++ chars "endsolid" ++ nl) nl.
Proof.
  unfold body_words. cbn [flat_map app]. unfold facet_words, vwords. cbn.
  repeat match goal with
  | |- words (?w :: ?ws) (?c :: ?s) ?r =>
      let n := eval cbv in (length w) in
      let s' := eval cbv in (skipn n s) in
      let s'' := (match s' with ?x => constr:(x) end) in
      change (words (w :: ws) ([c] ++ w ++ s'') r); apply words_cons; [repeat constructor|discriminate|]
  end.
  apply words_nil.
Qed.
Example C58_complete_ex : one_line (chars " a") /\ Forall (facet_numbers number) [a_facet] /\
  words (body_words [a_facet]) (nl ++ a_face ++ nl ++ chars "endsolid" ++ nl) nl /\ file_end nl.
Proof.
  split; [repeat (constructor; [split; discriminate|]); constructor|].
  split; [constructor; [exact a_facet_numbers|constructor]|]. split; [exact a_words|]. left. repeat constructor.
Qed.

(** The full statement: also if the name is missing. *)
Definition complete_full : Prop := forall f fs, document number f fs ->
  exists faces, stl_parse (fun x => x) pfind (parse_text digit_value pfind) f = SOk faces /\
    Forall2 (fun face fc => face_of eq (corner digit_value (f_a fc)) (corner digit_value (f_b fc)) (corner digit_value (f_c fc)) face) faces fs.
(** It is false: [tok_next_line] skips the character behind the current token, here the line break, and then the
    next line.  In this file the triangle is in that line, and is lost without a message. *)
Theorem C58_unnamed_refuted : ~ complete_full.
Proof.
  intros H. destruct (H (chars "solid" ++ [] ++ nl ++ a_face ++ nl ++ chars "endsolid" ++ nl) [a_facet]) as (faces & E & F).
  - eexists _, _, _. split; [reflexivity|]. split; [exact I|]. split; [constructor|]. split; [eexists; reflexivity|].
    split; [constructor; [exact a_facet_numbers|constructor]|]. split; [exact a_words|left; repeat constructor].
  - assert (E0 : stl_parse (fun x => x) pfind (parse_text digit_value pfind) (chars "solid" ++ [] ++ nl ++ a_face ++ nl ++ chars "endsolid" ++ nl) = SOk [])
      by (vm_compute; reflexivity).
    rewrite E0 in E. injection E as <-. inversion F.
Qed.
(** If the triangle has several lines, as usual, the file is rejected. *)
Example C58_unnamed_ex : read_file (chars "solid" ++ nl ++ chars "facet normal 0 0 1" ++ nl ++
  chars "outer loop vertex 1 2 3 vertex 4 5 6 vertex 7 8 9 endloop endfacet" ++ nl ++ chars "endsolid" ++ nl) = SErr.
Proof. vm_compute. reflexivity. Qed.

(** Is everything that is accepted an STL file? *)
Definition sound_full : Prop := forall f faces, stl_parse (fun x => x) pfind (parse_text digit_value pfind) f = SOk faces ->
  starts_with_solid f -> exists fs, document loose_number f fs.
(** No: the line behind 'endsolid' is not read if there is no name. *)
Theorem C58_trailing_refuted : ~ sound_full.
Proof.
  intros H. destruct (H (chars "solid a" ++ nl ++ chars "endsolid" ++ nl ++ chars "x y" ++ nl) []) as (fs & first & body & r & E & NL & OL & (body' & ->) & N & W & FE).
  - vm_compute. reflexivity.
  - eexists. reflexivity.
  - assert (E1 : first ++ 10 :: body' = [32; 97] ++ 10 :: chars "endsolid" ++ nl ++ chars "x y" ++ nl) by (cbn in E |- *; injection E as E; symmetry; exact E).
    assert (F1 : first = [32; 97] /\ body' = chars "endsolid" ++ nl ++ chars "x y" ++ nl).
    { destruct first as [|c0 first]; [discriminate E1|]. destruct first as [|c1 first]; [discriminate E1|]. destruct first as [|c2 first].
      - cbn in E1 |- *. injection E1 as -> -> ->. auto.
      - cbn in E1. injection E1 as _ _ E2 _. subst c2. inversion OL as [|? ? _ O1]; subst. inversion O1 as [|? ? _ O2]; subst. inversion O2 as [|? ? [O3 _] _]; subst. exfalso. apply O3. reflexivity. }
    destruct F1 as [-> ->].
    assert (WD : forall w ws, words (w :: ws) (10 :: chars "endsolid" ++ nl ++ chars "x y" ++ nl) r -> is_alpha (nth 0 w 0) = true ->
      exists s', chars "endsolid" ++ nl ++ chars "x y" ++ nl = w ++ s' /\ words ws s' r).
    { intros w ws WW AL. apply words_cons_inv in WW as (b & s' & EB & B & NB & W'). destruct b as [|b0 b]; [contradiction|].
      cbn [app] in EB. injection EB as _ EB. destruct b as [|b1 b]; [exists s'; split; assumption|].
      cbn in EB. injection EB as EB _. subst b1. inversion B as [|? ? _ B1]. inversion B1 as [|? ? B2 _]. discriminate B2. }
    destruct fs as [|fc fs].
    + destruct (WD _ _ W eq_refl) as (s' & ES & W'). apply words_nil_inv in W' as ->.
      assert (ER : r = nl ++ chars "x y" ++ nl) by (cbn in ES |- *; injection ES as ES; symmetry; exact ES). subst r.
      destruct FE as [B|(b & c & n & t & ER & B & OB & NB & _)].
      * inversion B as [|? ? _ B1]. inversion B1 as [|? ? B2 _]. discriminate B2.
      * destruct b as [|b0 b]; [contradiction|]. cbn in ER. injection ER as ER _. subst b0. inversion OB as [|? ? [O _] _]; subst. apply O. reflexivity.
    + destruct (WD _ _ W eq_refl) as (s' & ES & _). discriminate ES.
Qed.
Example C58_trailing_ex : read_file (chars "solid a" ++ nl ++ chars "endsolid a" ++ nl ++ chars "anything at all" ++ nl) = SOk [].
Proof. vm_compute. reflexivity. Qed.
(** Also accepted: numbers without digits *)
Example C58_dash_ex : read_file (chars "solid a" ++ nl ++
  chars "facet normal - - - outer loop vertex - + . vertex 1 .e 3 vertex 1 2 3e+ endloop endfacet endsolid") =
  SOk [[(1, 2, 3); (1, 0, 3); (0, 0, 0)]].
Proof. vm_compute. reflexivity. Qed.

(** What the program writes as text can be read again: all triangles, with the numbers as printed. *)
Theorem C58_roundtrip : forall normal zs zero one mone fmt f64 strtod find same root ts,
  (forall x, number (fmt x)) -> finds same find ->
  put_csg2 normal zs zero one mone collect [] 0 root = SOk ts ->
  exists f faces, write_text normal zs zero one mone fmt root = SOk f /\
    stl_parse f64 find (parse_text strtod find) f = SOk faces /\
    Forall2 (fun face t => face_of same (map3 (fun x => strtod (unplus (fmt x))) (t_a t)) (map3 (fun x => strtod (unplus (fmt x))) (t_b t))
      (map3 (fun x => strtod (unplus (fmt x))) (t_c t)) face) faces ts.
Proof. intros. apply text_roundtrip; try assumption. intros x. apply number_loose. auto. Qed.
Example C58_roundtrip_ex :
  match write_text nrm lay 0 1 9 (fun x => digit (x mod 10)) (Stack 0 [(Some [Poly sq_points sq_tris], 0%nat)]) with
  | SOk f => match read_file f with SOk faces => Some (length faces, nth 0 faces []) | _ => None end
  | _ => None
  end = Some (12%nat, [(1, 1, 7); (0, 0, 7); (0, 1, 7)]).
Proof. vm_compute. reflexivity. Qed.

Print Assumptions C58_safe.
Print Assumptions C58_sound.
Print Assumptions C58_complete_partial.
Print Assumptions C58_unnamed_refuted.
Print Assumptions C58_trailing_refuted.
Print Assumptions C58_roundtrip.
