(** Specification of a keyword table: what a lookup has to give *)
From Coq Require Import Arith Bool List.
Import ListNotations.

(** the value of the first entry with key [k] *)
Fixpoint assoc {A} (k : list nat) (l : list (list nat * A)) : option A :=
  match l with
  | [] => None
  | (k', v) :: l => if list_eq_dec Nat.eq_dec k' k then Some v else assoc k l
  end.

(** A file of lines: keys have byte values, and no line break *)
Definition line_keys {A} (l : list (list nat * A)) : Prop :=
  forall k v c, In (k, v) l -> In c k -> c < 256 /\ c <> 10.

(** the number of characters of all keys *)
Definition total_len {A} (l : list (list nat * A)) : nat := fold_right (fun e n => length (fst e) + n) 0 l.
