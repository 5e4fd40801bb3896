(** Model of the points of circles, and of exact sines: src/hob3lmat/algo.c 10-34, 1149-1291, include/hob3lmat/algo.h 22-45 *)
From Coq Require Import ZArith Bool List Arith.
Import ListNotations.

(** The iterator: algo.h 22-45, algo.c 13-34.  Numbers are opaque: [F] with [opp] and the constants; [cosd k] and [sind k] are
    cp_cos_deg and cp_sin_deg of the angle _a * k, where _a = 360/n. *)
Section Iter.
Context {F : Type}.
Variables (one mone zero : F) (opp : F -> F) (cosd sind : nat -> F).
Record iter := mk_iter { i_cos : F; i_sin : F; idx : nat; i_i : nat }.
(** CP_CIRCLE_ITER_INIT: algo.h 31-39 *)
Definition init : iter := mk_iter one zero 0 0.
(** cp_circle_iter_step: algo.c 13-34 *)
Definition step (n : nat) (t : iter) : iter :=
  let i := S (i_i t) in
  if Nat.odd i then
    let i1 := S i in
    let idx := Nat.div i1 2 in
    if Nat.eqb i1 n then mk_iter mone zero idx i else mk_iter (cosd idx) (sind idx) idx i
  else mk_iter (i_cos t) (opp (i_sin t)) (n - idx t) i.
(** cp_circle_each: algo.h 41-44; the states that the body of the loop sees.  The loop ends when _i = n: [todo] is n - _i. *)
Fixpoint each (n todo : nat) (t : iter) : list iter := match todo with O => [] | S todo => t :: each n todo (step n t) end.
Definition circle (n : nat) : list iter := each n n init.
End Iter.
Arguments iter F : clear implicits.

Local Open Scope Z_scope.
(** split_float: algo.c 1165-1193 (the structure: 1149-1157).  A double is given by its 64 bits.  [None]: not a number *)
Record split := mk_split { s_mant : Z; s_exp : Z; s_width : Z; s_neg : bool }.
Definition two64 : Z := 2 ^ 64.
Definition split_float (u : Z) : option split :=
  let exp_raw := (u / 2 ^ 52) mod 2 ^ 11 in
  let exp := exp_raw - 1023 in
  let mant := ((u mod 2 ^ 52) * 2 ^ 12) mod two64 in
  let neg := negb (u / 2 ^ 63 =? 0) in
  if exp_raw =? 2047 then None
  else if negb (exp_raw =? 0) then Some (mk_split (mant / 2 + 2 ^ 63) exp 53 neg) else Some (mk_split mant exp 52 neg).
(** cp_f_get_int: algo.c 1199-1227.  In the second shift, s.exp is in 0..52 when it is masked. *)
Definition get_int (u : Z) : option Z :=
  match split_float u with
  | None => None
  | Some s =>
    if s_exp s <? 0 then None
    else if s_exp s >=? s_width s then None
    else if negb ((s_mant s * 2 ^ (s_exp s + 1)) mod two64 =? 0) then None
    else let i := s_mant s / 2 ^ (64 - s_exp s - 1) in Some (if s_neg s then - i else i)
  end.
(** exact_sin: algo.c 1229-1253; twice the result *)
Definition exact_sin2 (ai : Z) : option Z :=
  let a := Z.rem ai 360 in
  let a := if a <? 0 then a + 360 else a in
  if (a =? 0) || (a =? 180) then Some 0 else if a =? 90 then Some 2 else if a =? 270 then Some (-2)
  else if (a =? 30) || (a =? 150) then Some 1 else if (a =? 210) || (a =? 330) then Some (-1) else None.
(** cp_sin_deg and cp_cos_deg: algo.c 1260-1291.  A result is either twice an exact one, or the one of the library function for the angle *)
Inductive result := Exact2 (r : Z) | Library.
Definition sin_deg (u : Z) : result := match get_int u with Some ai => match exact_sin2 ai with Some r => Exact2 r | None => Library end | None => Library end.
Definition cos_deg (u : Z) : result := match get_int u with Some ai => match exact_sin2 (ai + 90) with Some r => Exact2 r | None => Library end | None => Library end.
