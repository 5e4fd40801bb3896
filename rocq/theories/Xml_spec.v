(** A parser that copies its strings and never changes the file.  It reads like the model (its parts that only read are used here, too),
    but names and texts are lists of bytes, taken from the file.  And: the characters that a text denotes. *)
From Coq Require Import String Ascii ZArith Bool List.
From Verif Require Import Utf8_model Utf8_spec Xml_model.
Import ListNotations.
Local Open Scope Z_scope.

Definition str := list Z.
Record tattr := mk_tattr { t_nsp : option str; t_name : str; t_ns : option str; t_value : option str }.
Inductive tnode := TElem (nsp : option str) (tag : str) (ns : option str) (attrs : list tattr) (child : list tnode) | TCdata (text : str).

(** What a tree stands for, given the memory *)
Definition view_attr (m : list Z) (a : attr) : tattr :=
  mk_tattr (option_map (cstr m) (a_nsp a)) (cstr m (a_name a)) (option_map (cstr m) (a_ns a)) (option_map (cstr m) (a_value a)).
Fixpoint view (m : list Z) (n : node) : tnode :=
  match n with
  | Elem nsp tag ns attrs child => TElem (option_map (cstr m) nsp) (cstr m tag) (option_map (cstr m) ns) (map (view_attr m) attrs) (map (view m) child)
  | Cdata t => TCdata (cstr m t)
  end.

Definition segment (m : list Z) (a b : nat) : str := firstn (b - a) (skipn a m).

Section Copy.
Variable str_end : nat.
Definition c_tag (fuel : nat) (st : state) : xres (str * state) :=
  let tok := loc st in
  do st <- (if maybe_tag_begin (cur st) then tag_loop str_end fuel st else Ok st);
  Ok (segment (mem st) tok (loc st), st).
Fixpoint c_text (fuel : nat) (delim : Z) (st : state) : xres (str * state) :=
  match fuel with
  | O => NoFuel
  | S fuel' =>
    if (cur st =? delim) || (cur st =? 60) || (cur st =? 0) then Ok ([], st) else
    do (c, st) <- (if cur st =? 38 then entity str_end fuel' st else Ok (cur st, st));
    if negb (utf8_ok c) then Err else
    match encode 4 c with UOk l => do st <- lex_next str_end st; do (t, st) <- c_text fuel' delim st; Ok (l ++ t, st) | _ => Crash end
  end.
Definition c_scoped_name (fuel : nat) (st : state) : xres (option str * str * state) :=
  do (name, st) <- c_tag fuel st;
  if cur st =? 58 then do st <- lex_next str_end st; do (name', st) <- c_tag fuel st; Ok (Some name, name', st) else Ok (None, name, st).
Definition c_attr (fuel : nat) (st : state) : xres (option (option str * str * option str) * state) :=
  do st <- skip_space str_end fuel st;
  if (cur st =? 0) || (cur st =? 47) || (cur st =? 62) || (cur st =? 63) then Ok (None, st) else
  do (nsp, name, st) <- c_scoped_name fuel st;
  if negb (cur st =? 61) then Ok (Some (nsp, name, None), st) else
  do st <- lex_next str_end st;
  let delim := cur st in
  if negb (delim =? 34) && negb (delim =? 39) then Err else
  do st <- lex_next str_end st;
  do (v, st) <- c_text fuel delim st;
  if negb (cur st =? delim) then Err else
  do st <- lex_next str_end st; Ok (Some (nsp, name, Some v), st).
Record tctxt := mk_tctxt { t_map : list (str * option str); t_default : option str }.
Fixpoint c_attr_list (fuel : nat) (c : tctxt) (st : state) : xres (list tattr * tctxt * state) :=
  match fuel with
  | O => NoFuel
  | S fuel' =>
    do (a, st') <- c_attr fuel' st;
    match a with
    | None => Ok ([], c, st')
    | Some (nsp, name, v) =>
      if same st st' then Hang else
      if match nsp with Some q => equ q xmlns | None => false end then
        c_attr_list fuel' (mk_tctxt ((name, v) :: t_map c) (t_default c)) st'
      else if match nsp with None => equ name xmlns | Some _ => false end then
        match v with None => Null | Some v => c_attr_list fuel' (mk_tctxt (t_map c) (Some v)) st' end
      else
        do (r, c, st') <- c_attr_list fuel' c st'; Ok (mk_tattr nsp name None v :: r, c, st')
    end
  end.
Fixpoint c_map (l : list (str * option str)) (p : str) : xres (option str) :=
  match l with [] => Err | (n, v) :: l => if equ n p then match v with Some v => Ok (Some v) | None => Null end else c_map l p end.
Definition c_ns (c : tctxt) (nsp : option str) (is_elem : bool) : xres (option str) :=
  match nsp with None => Ok (if is_elem then t_default c else None) | Some p => c_map (t_map c) p end.
Fixpoint c_attrs (c : tctxt) (l : list tattr) : xres (list tattr) :=
  match l with
  | [] => Ok []
  | a :: l => do ns <- c_ns c (t_nsp a) false; do l <- c_attrs c l; Ok (mk_tattr (t_nsp a) (t_name a) ns (t_value a) :: l)
  end.
Section Rec.
Variable rec : tctxt -> option (option str * str) -> state -> xres (list tnode * state).
Definition c_elem (fuel : nat) (co : tctxt) (st : state) : xres (tnode * state) :=
  do (nsp, tag, st) <- c_scoped_name fuel st;
  do (attrs, c, st) <- c_attr_list fuel co st;
  do ns <- c_ns c nsp true;
  do attrs <- c_attrs c attrs;
  if cur st =? 47 then do st <- expect str_end [47; 62] st; Ok (TElem nsp tag ns attrs [], st)
  else
    do st <- expect str_end [62] st;
    do (ch, st) <- rec c (Some (nsp, tag)) st;
    Ok (TElem nsp tag ns attrs ch, st).
Fixpoint c_content (fuel : nat) (c : tctxt) (st : state) : xres (option tnode * state) :=
  match fuel with
  | O => NoFuel
  | S fuel' =>
    if cur st =? 0 then Ok (None, st) else
    if cur st =? 60 then
      do st <- lex_next str_end st;
      if cur st =? 33 then do st <- expect str_end [33; 45; 45] st; do st <- skip_comment str_end fuel' st; c_content fuel' c st
      else do (e, st) <- c_elem fuel' c st; Ok (Some e, st)
    else do (t, st) <- c_text fuel' 60 st; Ok (Some (TCdata t), st)
  end.
End Rec.
Fixpoint c_content_list (fuel : nat) (c : tctxt) (tag : option (option str * str)) (st : state) : xres (list tnode * state) :=
  match fuel with
  | O => NoFuel
  | S fuel' =>
    do e <- (if match tag with Some _ => cur st =? 60 | None => false end then peek st 47 else Ok false);
    match e, tag with
    | true, Some (nsp, name) =>
      do st <- lex_next str_end st; do st <- lex_next str_end st;
      do st <- match nsp with Some p => do st <- expect str_end p st; expect str_end [58] st | None => Ok st end;
      do st <- expect str_end name st; do st <- skip_space str_end fuel' st; do st <- expect str_end [62] st;
      Ok ([], st)
    | _, _ =>
      do (n, st) <- c_content (c_content_list fuel') fuel' c st;
      match n with
      | None => match tag with Some _ => Err | None => Ok ([], st) end
      | Some n => do (r, st) <- c_content_list fuel' c tag st; Ok (n :: r, st)
      end
    end
  end.
Definition c_doc (fuel : nat) (st : state) : xres (list tattr * list tnode * state) :=
  do st <- (if cur st =? 65279 then lex_next str_end st else Ok st);
  let c := mk_tctxt [] None in
  do q <- (if cur st =? 60 then peek st 63 else Ok false);
  do (c, attrs, st) <-
    (if q then
       do st <- lex_next str_end st; do st <- lex_next str_end st;
       do (tag, st) <- c_tag fuel st;
       if negb (equ tag [120; 109; 108]) then Err else
       do (attrs, c, st) <- c_attr_list fuel c st;
       do st <- expect str_end [63; 62] st; Ok (c, attrs, st)
     else Ok (c, [], st));
  do st <- skip_space str_end fuel st;
  do st <-
    (if (cur st =? 60) && prefix doctype (skipn (nxt st) (mem st)) then
       do st <- expect str_end (60 :: doctype) st; do st <- doctype_loop str_end fuel st; do st <- lex_next str_end st; skip_space str_end fuel st
     else Ok st);
  do (n, st) <- c_content_list fuel c None st; Ok (attrs, n, st).
End Copy.
(** The attributes of the <?xml ?> and the contents *)
Definition copy_parse (fuel : nat) (file : list Z) : xres (list tattr * list tnode) :=
  do st <- lex_next (length file) (mk_state 0 0 0 (file ++ [0]));
  do (a, n, _) <- c_doc (length file) fuel st; Ok (a, n).

Definition bytes (l : list Z) : Prop := forall c, In c l -> 0 <= c < 256.

(** What a text denotes: plain characters (ASCII; for others see C22), the five named entities, numeric references *)
Inductive dec : list Z -> Z -> Prop := dec_nil : dec [] 0 | dec_app l c n : dec l n -> 48 <= c <= 57 -> dec (l ++ [c]) (10 * n + (c - 48)).
Definition named : list (list Z * Z) :=
  [([113; 117; 111; 116], 34); ([108; 116], 60); ([103; 116], 62); ([97; 109; 112], 38); ([97; 112; 111; 115], 39)].
Inductive denotes (delim : Z) : list Z -> list Z -> Prop :=
  | den_nil : denotes delim [] []
  | den_char c s t : 0 < c < 128 -> c <> 38 -> c <> 60 -> c <> delim -> denotes delim s t -> denotes delim (c :: s) (c :: t)
  | den_named n c s t : In (n, c) named -> denotes delim s t -> denotes delim (38 :: n ++ 59 :: s) (c :: t)
  | den_dec l v s t : dec l v -> Utf8_spec.scalar v -> denotes delim s t -> denotes delim (38 :: 35 :: l ++ 59 :: s) (v :: t)
  | den_hex x l v s t : x = 120 \/ x = 88 -> Utf8_spec.hex l v -> Utf8_spec.scalar v -> denotes delim s t -> denotes delim (38 :: 35 :: x :: l ++ 59 :: s) (v :: t).

(** The loops of parse_tag, skip_comment and parse_attr_list without any check whether the state repeats: they run until the fuel is
    used up *)
Fixpoint plain_tag_loop (str_end fuel : nat) (st : state) : xres state :=
  match fuel with O => NoFuel | S fuel => if is_tag_char (cur st) then do st' <- lex_next str_end st; plain_tag_loop str_end fuel st' else Ok st end.
Fixpoint plain_comment (str_end fuel : nat) (st : state) : xres state :=
  match fuel with
  | O => NoFuel
  | S fuel =>
    do d <- (if cur st =? 45 then peek st 45 else Ok false);
    if d then expect str_end [45; 45; 62] st else do st' <- lex_next str_end st; plain_comment str_end fuel st'
  end.
Fixpoint plain_attr_list (str_end fuel : nat) (c : ctxt) (st : state) : xres (list attr * ctxt * state) :=
  match fuel with
  | O => NoFuel
  | S fuel' =>
    do (a, st') <- parse_attr str_end fuel' st;
    match a with
    | None => Ok ([], c, st')
    | Some (nsp, name, v) =>
      if match nsp with Some q => equ (cstr (mem st') q) xmlns | None => false end then plain_attr_list str_end fuel' (mk_ctxt ((name, v) :: ns_map c) (ns_default c)) st'
      else if match nsp with None => equ (cstr (mem st') name) xmlns | Some _ => false end then
        match v with None => Null | Some v => plain_attr_list str_end fuel' (mk_ctxt (ns_map c) (Some v)) st' end
      else do (r, c, st') <- plain_attr_list str_end fuel' c st'; Ok (mk_attr nsp name None v :: r, c, st')
    end
  end.
(** A character that starts no name and that nothing else accepts either, where an attribute is expected *)
Definition stuck (c : Z) : Prop :=
  c <> 0 /\ is_space c = false /\ c <> 47 /\ c <> 58 /\ c <> 61 /\ c <> 62 /\ c <> 63 /\ (maybe_tag_begin c = false \/ is_tag_char c = false).
(** Text as bytes *)
Definition ascii_bytes (s : String.string) : list Z := map (fun a => Z.of_nat (Ascii.nat_of_ascii a)) (String.list_ascii_of_string s).
