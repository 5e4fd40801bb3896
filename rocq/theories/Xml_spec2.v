(** The language that the XML parser accepts, for ASCII files: a grammar, together with what the sentences mean.  It is written without
    the model (only the types of trees are used).  Names may be empty, and spaces between attributes are optional: this is what is accepted. *)
From Coq Require Import ZArith Bool List.
From Verif Require Import Utf8_spec Xml_spec.
Import ListNotations.
Local Open Scope Z_scope.

Definition ascii_file (l : list Z) : Prop := Forall (fun c => 0 < c < 128) l.
Definition spc (c : Z) : Prop := In c [32; 9; 13; 10; 12].
Definition spaces (l : list Z) : Prop := Forall spc l.
Definition digit (c : Z) : Prop := 48 <= c <= 57.
(** letters, digits, - . _ and control characters that are no spaces *)
Definition name_char (c : Z) : Prop := 65 <= c <= 90 \/ 97 <= c <= 122 \/ digit c \/ In c [45; 46; 95; 127] \/ (1 <= c < 32 /\ ~ spc c).
Definition name (l : str) : Prop := Forall name_char l /\ match l with [] => True | c :: _ => ~ digit c /\ c <> 45 /\ c <> 46 end.
(** A name with an optional prefix: characters, prefix, name *)
Inductive qname : list Z -> option str -> str -> Prop :=
  | q_plain n : name n -> qname n None n
  | q_prefix p n : name p -> name n -> qname (p ++ 58 :: n) (Some p) n.
(** Text up to [delim]: like [denotes], but the numbers of references are taken modulo 2^32 *)
Inductive decodes (delim : Z) : list Z -> list Z -> Prop :=
  | dc_nil : decodes delim [] []
  | dc_char c s t : c <> 38 -> c <> 60 -> c <> delim -> decodes delim s t -> decodes delim (c :: s) (c :: t)
  | dc_named n c s t : In (n, c) named -> decodes delim s t -> decodes delim (38 :: n ++ 59 :: s) (c :: t)
  | dc_dec l v s t : dec l v -> scalar (v mod 2 ^ 32) -> decodes delim s t -> decodes delim (38 :: 35 :: l ++ 59 :: s) (v mod 2 ^ 32 :: t)
  | dc_hex x l v s t : x = 120 \/ x = 88 -> hex l v -> scalar (v mod 2 ^ 32) -> decodes delim s t -> decodes delim (38 :: 35 :: x :: l ++ 59 :: s) (v mod 2 ^ 32 :: t).

(** Attributes: prefix, name, value *)
Definition raw : Type := option str * str * option str.
Inductive attribute : list Z -> raw -> Prop :=
  | at_bare s nsp n : qname s nsp n -> attribute s (nsp, n, None)
  | at_value s nsp n q t v : qname s nsp n -> q = 34 \/ q = 39 -> decodes q t v -> attribute (s ++ 61 :: q :: t ++ [q]) (nsp, n, Some (flat_map utf8 v)).
Inductive attributes : list Z -> list raw -> Prop :=
  | ats_nil s : spaces s -> attributes s []
  | ats_cons s a x r l : spaces s -> attribute a x -> attributes r l -> attributes (s ++ a ++ r) (x :: l).

(** Namespaces: what the prefixes stand for, the latest declaration first, and the default *)
Record env := mk_env { prefixes : list (str * option str); default : option str }.
Definition s_xmlns : str := [120; 109; 108; 110; 115].
(** [declares e l e' l']: the attributes [l] turn [e] into [e'], and [l'] is what is no declaration *)
Inductive declares : env -> list raw -> env -> list raw -> Prop :=
  | dl_nil e : declares e [] e []
  | dl_prefix e n v r e' l : declares (mk_env ((n, v) :: prefixes e) (default e)) r e' l -> declares e ((Some s_xmlns, n, v) :: r) e' l
  | dl_default e v r e' l : declares (mk_env (prefixes e) (Some v)) r e' l -> declares e ((None, s_xmlns, Some v) :: r) e' l
  | dl_other e nsp n v r e' l : nsp <> Some s_xmlns -> ~ (nsp = None /\ n = s_xmlns) -> declares e r e' l -> declares e ((nsp, n, v) :: r) e' ((nsp, n, v) :: l).
Inductive uri_of : list (str * option str) -> str -> str -> Prop :=
  | uri_here p u l : uri_of ((p, Some u) :: l) p u
  | uri_there q v p u l : q <> p -> uri_of l p u -> uri_of ((q, v) :: l) p u.
Definition uri (e : env) (nsp : option str) (dflt ns : option str) : Prop :=
  match nsp with None => ns = dflt | Some p => exists u, ns = Some u /\ uri_of (prefixes e) p u end.
Definition resolved (e : env) (x : raw) (a : tattr) : Prop :=
  let '(nsp, n, v) := x in exists ns, uri e nsp None ns /\ a = mk_tattr nsp n ns v.

(** The body of a comment, in front of the end of the comment, has no double hyphen *)
Definition comment (b : list Z) : Prop := forall x y, b ++ [45] <> x ++ 45 :: 45 :: y.

Inductive element : env -> list Z -> tnode -> Prop :=
  | el_empty e q nsp n a l e' l' ns attrs :
      qname q nsp n -> attributes a l -> declares e l e' l' -> uri e' nsp (default e') ns -> Forall2 (resolved e') l' attrs ->
      element e (60 :: q ++ a ++ [47; 62]) (TElem nsp n ns attrs [])
  | el_full e q nsp n a l e' l' ns attrs c ch s :
      qname q nsp n -> attributes a l -> declares e l e' l' -> uri e' nsp (default e') ns -> Forall2 (resolved e') l' attrs ->
      content e' c ch -> spaces s ->
      element e (60 :: q ++ a ++ 62 :: c ++ 60 :: 47 :: q ++ s ++ [62]) (TElem nsp n ns attrs ch)
with content : env -> list Z -> list tnode -> Prop :=
  | ct_nil e : content e [] []
  | ct_text e s t r l : s <> [] -> decodes 60 s t -> content e r l -> content e (s ++ r) (TCdata (flat_map utf8 t) :: l)
  | ct_comment e b r l : comment b -> content e r l -> content e ([60; 33; 45; 45] ++ b ++ [45; 45; 62] ++ r) l
  | ct_elem e s x r l : element e s x -> content e r l -> content e (s ++ r) (x :: l).

Inductive xml_decl : list Z -> list raw -> Prop :=
  | xd_none : xml_decl [] []
  | xd_some a l : attributes a l -> xml_decl ([60; 63; 120; 109; 108] ++ a ++ [63; 62]) l.
Inductive doctype_decl : list Z -> Prop :=
  | dd_none : doctype_decl []
  | dd_some b s : ~ In 62 b -> spaces s -> doctype_decl ([60; 33; 68; 79; 67; 84; 89; 80; 69] ++ b ++ 62 :: s).
(** A file, the attributes of its <?xml ?>, and its contents *)
Definition document (file : list Z) (attrs : list tattr) (l : list tnode) : Prop :=
  exists p raws s d c e rest, file = p ++ s ++ d ++ c /\ xml_decl p raws /\ spaces s /\ doctype_decl d /\
    declares (mk_env [] None) raws e rest /\ attrs = map (fun '(nsp, n, v) => mk_tattr nsp n None v) rest /\ content e c l.

(** The well-formed part of the language: names are not empty, spaces separate attributes, texts are maximal, the contents do not start
    with a space, and no comment is the last thing in an element (which the parser rejects) *)
Definition sname (l : str) : Prop := name l /\ l <> [].
Inductive sqname : list Z -> option str -> str -> Prop :=
  | sq_plain n : sname n -> sqname n None n
  | sq_prefix p n : sname p -> sname n -> sqname (p ++ 58 :: n) (Some p) n.
Inductive sattribute : list Z -> raw -> Prop :=
  | sat_bare s nsp n : sqname s nsp n -> sattribute s (nsp, n, None)
  | sat_value s nsp n q t v : sqname s nsp n -> q = 34 \/ q = 39 -> decodes q t v -> sattribute (s ++ 61 :: q :: t ++ [q]) (nsp, n, Some (flat_map utf8 v)).
Inductive sattributes : list Z -> list raw -> Prop :=
  | sats_nil s : spaces s -> sattributes s []
  | sats_cons s a x r l : spaces s -> s <> [] -> sattribute a x -> sattributes r l -> sattributes (s ++ a ++ r) (x :: l).
Definition starts (P : Z -> Prop) (l : list Z) : Prop := match l with [] => True | c :: _ => P c end.
Inductive selement : env -> list Z -> tnode -> Prop :=
  | sel_empty e q nsp n a l e' l' ns attrs :
      sqname q nsp n -> sattributes a l -> declares e l e' l' -> uri e' nsp (default e') ns -> Forall2 (resolved e') l' attrs ->
      selement e (60 :: q ++ a ++ [47; 62]) (TElem nsp n ns attrs [])
  | sel_full e q nsp n a l e' l' ns attrs c ch s :
      sqname q nsp n -> sattributes a l -> declares e l e' l' -> uri e' nsp (default e') ns -> Forall2 (resolved e') l' attrs ->
      scontent false e' c ch -> spaces s ->
      selement e (60 :: q ++ a ++ 62 :: c ++ 60 :: 47 :: q ++ s ++ [62]) (TElem nsp n ns attrs ch)
with scontent : bool -> env -> list Z -> list tnode -> Prop :=
  | sct_nil top e : scontent top e [] []
  | sct_text top e s t r l : s <> [] -> decodes 60 s t -> starts (eq 60) r -> scontent top e r l -> scontent top e (s ++ r) (TCdata (flat_map utf8 t) :: l)
  | sct_comment (top : bool) e b r l : comment b -> top = true \/ l <> [] -> scontent top e r l -> scontent top e ([60; 33; 45; 45] ++ b ++ [45; 45; 62] ++ r) l
  | sct_elem top e s x r l : selement e s x -> scontent top e r l -> scontent top e (s ++ r) (x :: l).
Inductive sxml_decl : list Z -> list raw -> Prop :=
  | sxd_none : sxml_decl [] []
  | sxd_some a l : sattributes a l -> sxml_decl ([60; 63; 120; 109; 108] ++ a ++ [63; 62]) l.
Definition sdocument (file : list Z) (attrs : list tattr) (l : list tnode) : Prop :=
  exists p raws s d c e rest, file = p ++ s ++ d ++ c /\ sxml_decl p raws /\ spaces s /\ doctype_decl d /\ starts (fun x => ~ spc x) c /\
    declares (mk_env [] None) raws e rest /\ attrs = map (fun '(nsp, n, v) => mk_tattr nsp n None v) rest /\ scontent true e c l.
