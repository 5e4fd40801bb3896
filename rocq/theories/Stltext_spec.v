(** What STL files in text format are.  Nothing here refers to the reader; from its model, only names of
    types, [chars] for literals and the classes of characters are used. *)
From Coq Require Import ZArith Bool String List.
From Verif Require Import Stl_model Stltext_model.
Import ListNotations.
Local Open Scope Z_scope.

Definition blank (b : list Z) : Prop := Forall (fun c => is_space c = true) b.
Definition digits (d : list Z) : Prop := Forall (fun c => is_digit c = true) d.
(** no line break and no NUL *)
Definition one_line (l : list Z) : Prop := Forall (fun c => c <> 10 /\ c <> 0) l.

Definition sign (s : list Z) : Prop := s = [] \/ s = [43] \/ s = [45].

(** a number: sign, digits, fraction, exponent *)
Definition number (w : list Z) : Prop := exists s d f e, w = s ++ d ++ f ++ e /\ sign s /\ digits d /\
  (f = [] \/ exists d', f = 46 :: d' /\ digits d') /\
  (e = [] \/ exists x s' d', e = x :: s' ++ d' /\ (x = 101 \/ x = 69) /\ sign s' /\ digits d' /\ d' <> []) /\
  (d <> [] \/ exists d', f = 46 :: d' /\ d' <> []).
(** the same where there may be no digits at all *)
Definition loose_number (w : list Z) : Prop := exists s d f e, w = s ++ d ++ f ++ e /\ sign s /\ digits d /\
  (f = [] \/ exists d', f = 46 :: d' /\ digits d') /\
  (e = [] \/ exists x s' d', e = x :: s' ++ d' /\ (x = 101 \/ x = 69) /\ sign s' /\ digits d') /\
  s ++ d ++ f <> [].

(** how a number is given to strtod: without a plus sign *)
Definition unplus (w : list Z) : list Z :=
  match w with c :: r => if c =? 43 then r else w | [] => [] end.

(** a sequence of words, with blanks before each of them, and something that follows *)
Inductive words : list (list Z) -> list Z -> list Z -> Prop :=
  | words_nil r : words [] r r
  | words_cons w ws b s r : blank b -> b <> [] -> words ws s r -> words (w :: ws) (b ++ w ++ s) r.

(** the texts of three numbers; and of a triangle: normal and three corners *)
Record vtext := mk_vtext { vx : list Z; vy : list Z; vz : list Z }.
Record facet := mk_facet { f_n : vtext; f_a : vtext; f_b : vtext; f_c : vtext }.
Definition vwords (v : vtext) : list (list Z) := [vx v; vy v; vz v].
Definition facet_words (f : facet) : list (list Z) :=
  [chars "facet"; chars "normal"] ++ vwords (f_n f) ++ [chars "outer"; chars "loop"] ++
  [chars "vertex"] ++ vwords (f_a f) ++ [chars "vertex"] ++ vwords (f_b f) ++ [chars "vertex"] ++ vwords (f_c f) ++
  [chars "endloop"; chars "endfacet"].
Definition vnumbers (P : list Z -> Prop) (v : vtext) : Prop := P (vx v) /\ P (vy v) /\ P (vz v).
Definition facet_numbers (P : list Z -> Prop) (f : facet) : Prop :=
  vnumbers P (f_n f) /\ vnumbers P (f_a f) /\ vnumbers P (f_b f) /\ vnumbers P (f_c f).

(** the words of the file behind its first line, up to and including 'endsolid' *)
Definition body_words (fs : list facet) : list (list Z) := flat_map facet_words fs ++ [chars "endsolid"].

(** does not continue a word *)
Definition no_letter (s : list Z) : Prop := match s with [] => True | c :: _ => is_alpha c = false end.

(** the end of a file: nothing but blanks, or a name and blanks.  The name starts with an ASCII character. *)
Definition file_end (r : list Z) : Prop := blank r \/
  exists b c name t, r = b ++ (c :: name) ++ t /\ blank b /\ one_line b /\ b <> [] /\ c < 128 /\ is_space c = false /\
    one_line (c :: name) /\ blank t /\ (t = [] \/ exists t', t = 10 :: t').

(** A file: 'solid', a name, triangles, 'endsolid', a name.
    [first] is the rest of the first line, [body] starts with the line break. *)
Definition document (P : list Z -> Prop) (f : list Z) (fs : list facet) : Prop :=
  exists first body r, f = chars "solid" ++ first ++ body /\ no_letter first /\ one_line first /\
    (exists body', body = 10 :: body') /\ Forall (facet_numbers P) fs /\ words (body_words fs) body r /\ file_end r.

(** What is accepted: like a file, but the first character behind 'solid' may be anything (even a line break)
    but has to be there, numbers may have no digits, and something may follow 'endsolid'. *)
Definition accepted_form (f : list Z) (fs : list facet) : Prop :=
  exists c first body r, f = chars "solid" ++ (c :: first) ++ body /\ is_alpha c = false /\ one_line first /\
    (exists body', body = 10 :: body') /\ Forall (facet_numbers loose_number) fs /\ words (body_words fs) body r /\
    no_letter r.

(** the corners of a triangle *)
Section Corner.
Variable strtod : list Z -> Z.
Definition corner (v : vtext) : point3 := (strtod (unplus (vx v)), strtod (unplus (vy v)), strtod (unplus (vz v))).
End Corner.
