(** Specification for the SCAD parser: a machine that copies the texts of tokens, and a grammar of the source text *)
From Coq Require Import ZArith Bool List Arith.
From Verif Require Import Syn_model.
Import ListNotations.
Local Open Scope Z_scope.

(** The copying machine: [c_rest] is what has not been read, [c_dirty] tells that its first character is taken by the end of a token,
    [c_acc] has the characters since the mark, backwards, [c_txt] is the text of the token *)
Record copy := mk_copy { c_rest : list Z; c_dirty : bool; c_acc : list Z; c_txt : list Z }.
Definition c_here (s : copy) : Z := if c_dirty s then 0 else hd 0 (c_rest s).
Definition c_step (s : copy) : copy :=
  match c_rest s with [] => s | c :: r => mk_copy r false (c :: c_acc s) (c_txt s) end.
Definition copying : ops copy (list Z) :=
  mk_ops copy (list Z) (fun s => hd 0 (c_rest s)) (fun s => Ok (c_here s)) (fun s => Ok (nth 1 (c_rest s) 0)) (fun s => Ok (c_step s))
    (fun s => mk_copy (c_rest s) (c_dirty s) [] (c_txt s)) (fun s => Ok (mk_copy (c_rest s) true (c_acc s) (rev (c_acc s)))) c_txt c_txt.
Definition copy_parse {F} (strtod : list Z -> F) (fuel : nat) (file : list Z) : res (list (stmt (list Z) F) * copy) :=
  parse copy (list Z) F copying strtod fuel (mk_copy file false [] []).

(** The tree that a tree of pointers stands for *)
Section View.
Context {F : Type}.
Variable m : list Z.
Fixpoint view_value (v : value nat F) : value (list Z) F :=
  match v with
  | VId s => VId (cstr m s) | VInt n => VInt n | VFloat x => VFloat x | VString s => VString (cstr m s)
  | VRange a b c => VRange (view_value a) (view_value b) (match c with Some c => Some (view_value c) | None => None end)
  | VArray l => VArray (map view_value l)
  end.
Definition view_arg (a : arg nat F) : arg (list Z) F := (option_map (cstr m) (fst a), view_value (snd a)).
Fixpoint view_item (i : item nat F) : item (list Z) F :=
  let '(Item f a b x) := i in Item (option_map (cstr m) f) (map view_arg a) (map view_item b) x.
Definition view (s : stmt nat F) : stmt (list Z) F := match s with SItem i => SItem (view_item i) | SUse p => SUse (cstr m p) end.
End View.

(** ** Lexical grammar *)
Inductive tok := TId (s : list Z) | TInt (s : list Z) | TFloat (s : list Z) | TStr (s : list Z) | TPath (s : list Z) | TP (c : Z).
Definition spc (c : Z) : Prop := c = 32 \/ c = 9 \/ c = 13 \/ c = 10.
Definition dig (c : Z) : Prop := 48 <= c <= 57.
Definition letter (c : Z) : Prop := 65 <= c <= 90 \/ 97 <= c <= 122.
Definition idc (c : Z) : Prop := letter c \/ dig c \/ c = 95.
Definition digs (l : list Z) : Prop := Forall dig l.
(** Spaces and comments; a comment at the end of the file needs no newline *)
Inductive blank : list Z -> Prop :=
  | bk_nil : blank []
  | bk_space c r : spc c -> blank r -> blank (c :: r)
  | bk_line b r : ~ In 10 b -> blank r -> blank ([47; 47] ++ b ++ 10 :: r)
  | bk_block b r : (forall x y, b ++ [42] <> x ++ 42 :: 47 :: y) -> blank r -> blank ([47; 42] ++ b ++ [42; 47] ++ r).
Inductive last_blank : list Z -> Prop :=
  | lb_blank w : blank w -> last_blank w
  | lb_line w b : blank w -> ~ In 10 b -> last_blank (w ++ [47; 47] ++ b).
Inductive ident : list Z -> Prop :=
  | id_dollar r : Forall idc r -> ident (36 :: r)
  | id_plain c r : letter c \/ c = 95 -> Forall idc r -> ident (c :: r).
Definition frac (f : list Z) : Prop := f = [] \/ exists d, f = 46 :: d /\ digs d.
Definition expo (x : list Z) : Prop := x = [] \/ exists c s d, x = c :: s ++ d /\ (c = 101 \/ c = 69) /\ (s = [] \/ s = [45] \/ s = [43]) /\ digs d.
(** source, text of the token, and whether it is floating point: a leading plus is not part of the text *)
Inductive number : list Z -> list Z -> bool -> Prop :=
  | nb_plain d f x : digs d -> frac f -> expo x -> d ++ f <> [] -> number (d ++ f ++ x) (d ++ f ++ x) (negb (equ (f ++ x) []))
  | nb_minus d f x : digs d -> frac f -> expo x -> number (45 :: d ++ f ++ x) (45 :: d ++ f ++ x) (negb (equ (f ++ x) []))
  | nb_plus d f x : digs d -> frac f -> expo x -> number (43 :: d ++ f ++ x) (d ++ f ++ x) (negb (equ (f ++ x) [])).
(** the text between the quotes *)
Inductive body : list Z -> Prop :=
  | bd_nil : body []
  | bd_char c r : c <> 34 -> c <> 92 -> body r -> body (c :: r)
  | bd_quoted c r : c < 128 -> body r -> body (92 :: c :: r).
Definition punct (c : Z) : Prop := In c [40; 41; 91; 93; 123; 125; 44; 59; 58; 61; 42; 37; 33; 35].
(** what cannot follow an identifier or a number directly *)
Definition apart (r : list Z) : Prop :=
  match r with [] => True | c :: _ => ~ (dig c \/ letter c \/ In c [43; 45; 46; 36; 95]) end.
Inductive lexes : list Z -> list tok -> Prop :=
  | lx_end w : last_blank w -> lexes w []
  | lx_punct w c r l : blank w -> punct c -> lexes r l -> lexes (w ++ c :: r) (TP c :: l)
  | lx_id w s r l : blank w -> ident s -> apart r -> lexes r l -> lexes (w ++ s ++ r) (TId s :: l)
  | lx_num w s t (fl : bool) r l : blank w -> number s t fl -> apart r -> lexes r l -> lexes (w ++ s ++ r) ((if fl then TFloat t else TInt t) :: l)
  | lx_str w s r l : blank w -> body s -> lexes r l -> lexes (w ++ 34 :: s ++ 34 :: r) (TStr s :: l)
  | lx_path w s r l : blank w -> ~ In 62 s -> lexes r l -> lexes (w ++ 60 :: s ++ 62 :: r) (TPath s :: l).

(** ** Grammar *)
Inductive dec : list Z -> Z -> Prop :=
  | dec_nil : dec [] 0
  | dec_app s c v : dec s v -> dig c -> dec (s ++ [c]) (10 * v + (c - 48)).
(** numbers are saturated to 64 bits *)
Definition clamp (v : Z) : Z := if v <? - 2 ^ 63 then - 2 ^ 63 else if 2 ^ 63 - 1 <? v then 2 ^ 63 - 1 else v.
Inductive int_value : list Z -> Z -> Prop :=
  | iv_plus s v : dec s v -> int_value s (clamp v)
  | iv_minus s v : dec s v -> int_value (45 :: s) (clamp (- v)).
Definition s_use : list Z := [117; 115; 101].
Definition keywords : list (list Z) := [[105; 110; 99; 108; 117; 100; 101]; s_use; [109; 111; 100; 117; 108; 101]; [102; 117; 110; 99; 116; 105; 111; 110]].
Section Grammar.
Context {F : Type}.
Variable strtod : list Z -> F.
Notation value := (value (list Z) F). Notation arg := (arg (list Z) F). Notation item := (item (list Z) F). Notation stmt := (stmt (list Z) F).
Inductive val : list tok -> value -> Prop :=
  | v_id s : val [TId s] (VId s)
  | v_int s n : int_value s n -> val [TInt s] (VInt n)
  | v_float s : val [TFloat s] (VFloat (strtod s))
  | v_str s : val [TStr s] (VString s)
  | v_empty : val [TP 91; TP 93] (VArray [])
  | v_array t l : vals t l -> val (TP 91 :: t ++ [TP 93]) (VArray l)
  | v_range t a u b : val t a -> val u b -> val (TP 91 :: t ++ TP 58 :: u ++ [TP 93]) (VRange a b None)
  | v_range3 t a u i w b : val t a -> val u i -> val w b -> val (TP 91 :: t ++ TP 58 :: u ++ TP 58 :: w ++ [TP 93]) (VRange a b (Some i))
with vals : list tok -> list value -> Prop :=
  | vs_one t v : val t v -> vals t [v]
  | vs_comma t v : val t v -> vals (t ++ [TP 44]) [v]
  | vs_cons t v u l : val t v -> vals u l -> vals (t ++ TP 44 :: u) (v :: l).
Inductive argument : list tok -> arg -> Prop :=
  | ar_value t v : val t v -> argument t (None, v)
  | ar_key k t v : val t v -> argument (TId k :: TP 61 :: t) (Some k, v).
Inductive arguments : list tok -> list arg -> Prop :=
  | as_nil : arguments [] []
  | as_one t a : argument t a -> arguments t [a]
  | as_cons t a u l : argument t a -> arguments u l -> arguments (t ++ TP 44 :: u) (a :: l).
(** the modifiers !, *, %, # *)
Inductive mods : list tok -> Z -> Prop :=
  | md_nil : mods [] 0
  | md_cons c b t m : In (c, b) [(33, 68); (42, 130); (37, 35); (35, 17)] -> mods t m -> mods (TP c :: t) (Z.lor b m).
(** a statement is at most one item; [calls] is what follows the parentheses *)
Inductive itm : list tok -> list item -> Prop :=
  | i_semi : itm [TP 59] []
  | i_group t l : itms t l -> itm (TP 123 :: t ++ [TP 125]) [Item None [] l 0]
  | i_call m b f t a u l : mods m b -> (m = [] -> ~ In f keywords) -> arguments t a -> calls u l -> itm (m ++ TId f :: TP 40 :: t ++ TP 41 :: u) [Item (Some f) a l b]
with calls : list tok -> list item -> Prop :=
  | ca_braces t l : itms t l -> calls (TP 123 :: t ++ [TP 125]) l
  | ca_itm t l : itm t l -> hd (TP 59) t <> TP 123 -> calls t l
with itms : list tok -> list item -> Prop :=
  | is_nil : itms [] []
  | is_cons t l u r : itm t l -> itms u r -> itms (t ++ u) (l ++ r).
Inductive program : list tok -> list stmt -> Prop :=
  | pg_nil : program [] []
  | pg_use p t l : program t l -> program (TId s_use :: TPath p :: t) (SUse p :: l)
  | pg_itm t l u r : itm t l -> program u r -> program (t ++ u) (map SItem l ++ r).
Definition source (file : list Z) (tree : list stmt) : Prop := exists toks, lexes file toks /\ program toks tree.
End Grammar.

(** ** Printing and reading again *)
Section Plain.
Context {F : Type}.
(** [again x] is the value that is read for the text that is printed for the number [x] *)
Variable again : F -> value (list Z) F.
Fixpoint plain_value (v : value (list Z) F) : value (list Z) F :=
  match v with
  | VFloat x => again x
  | VRange a b c => VRange (plain_value a) (plain_value b) (match c with Some c => Some (plain_value c) | None => None end)
  | VArray l => VArray (map plain_value l)
  | _ => v
  end.
Definition plain_arg (a : arg (list Z) F) : arg (list Z) F := (fst a, plain_value (snd a)).
(** without modifiers *)
Fixpoint plain_item (i : item (list Z) F) : item (list Z) F :=
  let '(Item f a b _) := i in Item f (map plain_arg a) (map plain_item b) 0.
Definition plain (s : stmt (list Z) F) : stmt (list Z) F := match s with SItem i => SItem (plain_item i) | SUse p => SUse p end.
End Plain.
(** Numbers, functors and modifiers of trees *)
Fixpoint floats_value {F} (v : value (list Z) F) : list F :=
  match v with
  | VFloat x => [x]
  | VRange a b c => floats_value a ++ floats_value b ++ (match c with Some c => floats_value c | None => [] end)
  | VArray l => flat_map floats_value l
  | _ => []
  end.
Fixpoint floats_item {F} (i : item (list Z) F) : list F :=
  let '(Item _ a b _) := i in flat_map (fun x => floats_value (snd x)) a ++ flat_map floats_item b.
Fixpoint functors_item {F} (i : item (list Z) F) : list (option (list Z)) := let '(Item f _ b _) := i in f :: flat_map functors_item b.
Fixpoint modifiers_item {F} (i : item (list Z) F) : list Z := let '(Item _ _ b m) := i in m :: flat_map modifiers_item b.
Definition items {F} (t : list (stmt (list Z) F)) : list (item (list Z) F) := flat_map (fun s => match s with SItem i => [i] | SUse _ => [] end) t.
Definition floats {F} (t : list (stmt (list Z) F)) : list F := flat_map floats_item (items t).
Definition functors {F} (t : list (stmt (list Z) F)) : list (option (list Z)) := flat_map functors_item (items t).
Definition modifiers {F} (t : list (stmt (list Z) F)) : list Z := flat_map modifiers_item (items t).
(** what is read for a text of a number *)
Inductive reads {F} (strtod : list Z -> F) (s : list Z) : value (list Z) F -> Prop :=
  | rd_int t n : number s t false -> int_value t n -> reads strtod s (VInt n)
  | rd_float t : number s t true -> reads strtod s (VFloat (strtod t)).
