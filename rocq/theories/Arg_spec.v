(** Specification of the matching of arguments *)
From Coq Require Import Arith Bool List.
From Verif Require Import Arg_model.
Import ListNotations.

Section Arg.
Context {V D : Type}.

Fixpoint index_name (k : list nat) (names : list (list nat)) : option nat :=
  match names with
  | [] => None
  | n :: l => if list_eq_dec Nat.eq_dec n k then Some 0 else option_map S (index_name k l)
  end.
(** The parameter (an index into the positional parameters followed by the others) for the argument at index [j]: an argument
    without name is for the parameter at the same position, unless there was a name before; an argument with a name is for the
    first parameter of that name. *)
Definition target (pos name : list (param V D)) (args : list (option (list nat) * V)) (j : nat) : option nat :=
  match nth_error args j with
  | None => None
  | Some (None, _) =>
    if (j <? length pos) && forallb (fun a => match fst a with None => true | Some _ => false end) (firstn j args)
    then Some j else None
  | Some (Some k, _) => index_name k (map pname (pos ++ name))
  end.
(** The values for a parameter, in order *)
Definition vals (pos name : list (param V D)) (args : list (option (list nat) * V)) (p : nat) : list V :=
  flat_map (fun j => match target pos name args j, nth_error args j with
    | Some q, Some (_, v) => if q =? p then [v] else []
    | _, _ => []
    end) (seq 0 (length args)).
Definition given pos name args p : Prop := vals pos name args p <> [].
(** What a variable contains after conversion of these values, one after the other: None if a conversion failed *)
Definition stored (g : V -> D -> option D) (vs : list V) (d : D) : option D :=
  fold_left (fun o v => match o with Some d => g v d | None => None end) vs (Some d).

(** Each parameter has its own variables *)
Definition separate (l : list (param V D)) : Prop :=
  NoDup (map data l) /\ NoDup (flat_map (fun p => match have_p p with Some h => [h] | None => [] end) l).
(** Which calls are right *)
Definition all_known pos name args : Prop := forall j, j < length args -> target pos name args j <> None.
Definition all_convert (pos name : list (param V D)) args (st : nat -> D) : Prop :=
  forall i p, nth_error (pos ++ name) i = Some p -> stored (get p) (vals pos name args i) (st (data p)) <> None.
Definition mandatory_given (pos name : list (param V D)) args : Prop :=
  forall i p, nth_error (pos ++ name) i = Some p -> have_p p = None -> given pos name args i.
End Arg.
