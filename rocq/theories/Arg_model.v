(** Model of the matching of arguments of modules: get_arg of src/hob3l/scad.c 706-778.

    The values [V], and the contents [D] of the variables that the getters write are parameters.  Names are lists of
    characters.  A pointer p->data is an index into a store of type [nat -> D]; a pointer have_p is an index into a store of
    type [nat -> option bool], where None is an uninitialised variable.  The parameter &pos[o] is identified with o, and
    &name[o] with pos_cnt + o. *)
From Coq Require Import Arith Bool List.
Import ListNotations.

Section Arg.
Context {V D : Type}.

(** scad.c 673-679 [param_t], except for [have], which is in a function of its own; get gives the new content, or None if it
    returns false (the variable may have been written then) *)
Record param := mk_param { pname : list nat; get : V -> D -> option D; data : nat; have_p : option nat }.
(** syn_tam.h [cp_syn_arg_t] *)
Notation arg := (option (list nat) * V)%type.

Fixpoint strequ (a b : list nat) : bool :=
  match a, b with
  | [], [] => true
  | x :: a, y :: b => (x =? y) && strequ a b
  | _, _ => false
  end.

(** scad.c 727-742: the two loops looking for the name *)
Fixpoint find_param (o : nat) (l : list param) (key : list nat) : option (nat * param) :=
  match l with
  | [] => None
  | p :: l => if strequ (pname p) key then Some (o, p) else find_param (S o) l key
  end.

Definition upd {A} (f : nat -> A) (i : nat) (x : A) : nat -> A := fun j => if j =? i then x else f j.

(** The end of the first loop: a return statement, or the end of the loop *)
Inductive loop_end := Return (r : bool) (st : nat -> D) | End (st : nat -> D) (have : nat -> bool).

(** scad.c 715-755: the loop over the arguments.  [unknown_ok]: msg returns true for err_unknown_param, that is, it is
    CP_ERR_WARN or CP_ERR_IGNORE (syn-msg.c 219-244). *)
Fixpoint arg_loop (unknown_ok : bool) (pos name : list param) (need_name : bool) (i : nat) (args : list arg)
  (st : nat -> D) (have : nat -> bool) : loop_end :=
  match args with
  | [] => End st have
  | (key, v) :: args =>
    let go need_name o p :=
      match get p v (st (data p)) with
      | None => Return false st
      | Some d => arg_loop unknown_ok pos name need_name (S i) args (upd st (data p) d) (upd have o true)
      end in
    match key with
    | None =>
      if (length pos <=? i) || need_name then Return false st else
      match nth_error pos i with
      | None => Return false st
      | Some p => go need_name i p
      end
    | Some k =>
      match find_param 0 pos k with
      | Some (o, p) => go true o p
      | None =>
        match find_param (length pos) name k with
        | Some (o, p) => go true o p
        | None => Return unknown_ok st
        end
      end
    end
  end.

(** scad.c 757-775: one of the loops over the parameters; [o] is the index of the first one *)
Fixpoint have_loop (o : nat) (l : list param) (have : nat -> bool) (hs : nat -> option bool) : bool * (nat -> option bool) :=
  match l with
  | [] => (true, hs)
  | p :: l =>
    match have_p p with
    | Some h => have_loop (S o) l have (upd hs h (Some (have o)))
    | None => if negb (have o) then (false, hs) else have_loop (S o) l have hs
    end
  end.

(** scad.c 706-778 [get_arg] *)
Definition get_arg (unknown_ok : bool) (args : list arg) (pos name : list param) (st : nat -> D) (hs : nat -> option bool)
  : bool * (nat -> D) * (nat -> option bool) :=
  match arg_loop unknown_ok pos name false 0 args st (fun _ => false) with
  | Return r st => (r, st, hs)
  | End st have =>
    let '(r, hs) := have_loop 0 pos have hs in
    if negb r then (false, st, hs) else
    let '(r, hs) := have_loop (length pos) name have hs in
    (r, st, hs)
  end.
End Arg.
Arguments param : clear implicits.
