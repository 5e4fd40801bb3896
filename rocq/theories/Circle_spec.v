(** Specification of the points of circles, and of doubles that are integers *)
From Coq Require Import ZArith List Arith.
Import ListNotations.
(** Coordinates of point [k] of [n]: the second half mirrors the first one, so that circles are symmetric *)
Definition coords {F} (one mone zero : F) (opp : F -> F) (cosd sind : nat -> F) (n k : nat) : F * F :=
  if Nat.eqb k 0 then (one, zero)
  else match Nat.compare (2 * k) n with
  | Lt => (cosd k, sind k)
  | Eq => (mone, zero)
  | Gt => (cosd (n - k)%nat, opp (sind (n - k)%nat))
  end.
Local Open Scope Z_scope.
(** The double with the bits [u] (sign [s], exponent [e], fraction [f]) has the value [v], an integer (IEEE 754 binary64) *)
Inductive is_int (u v : Z) : Prop :=
  | ii_normal s e f m : (s = 0 \/ s = 1) -> 0 < e < 2047 -> 0 <= f < 2 ^ 52 -> u = s * 2 ^ 63 + e * 2 ^ 52 + f ->
      m * 2 ^ 1075 = (2 ^ 52 + f) * 2 ^ e -> v = (if s =? 1 then - m else m) -> is_int u v
  | ii_subnormal s f m : (s = 0 \/ s = 1) -> 0 <= f < 2 ^ 52 -> u = s * 2 ^ 63 + f -> m * 2 ^ 1074 = f -> v = (if s =? 1 then - m else m) -> is_int u v.
