(** Model of the exact integer arithmetic: src/hob3lop/matq.c completely, and the inline functions of
    include/hob3lop/matq.h, except conversion to double (500-503).
    Integers are mathematical integers; every C operation checks or reduces to its type. *)
From Coq Require Import ZArith Bool List.
Local Open Scope Z_scope.

(** Outcome of a computation: a value, a controlled stop (failing assertion, cq_fail,
    cq_overflow_fail of matq.c 7-21), or undefined behaviour in the C standard *)
Inductive res (A : Type) : Type :=
  | Ok (a : A)
  | Fail
  | UB.
Arguments Ok {A} a.
Arguments Fail {A}.
Arguments UB {A}.

(** Sequencing of C statements *)
Definition bind {A B} (x : res A) (f : A -> res B) : res B :=
  match x with Ok a => f a | Fail => Fail | UB => UB end.
Notation "'let!' x ':=' e 'in' f" := (bind e (fun x => f))
  (at level 200, x pattern, e at level 100, f at level 200, right associativity).

(** include/hob3lop/def_tam.h 28-52: int, unsigned, long long, unsigned long long *)
Definition fits32 (x : Z) : bool := (-2147483648 <=? x) && (x <=? 2147483647).
Definition fits64 (x : Z) : bool := (-9223372036854775808 <=? x) && (x <=? 9223372036854775807).
Definition fitsu32 (x : Z) : bool := (0 <=? x) && (x <=? 4294967295).
Definition fitsu64 (x : Z) : bool := (0 <=? x) && (x <=? 18446744073709551615).

(** CQ_DIM_W (def_tam.h 49) and 2^64 *)
Definition W : Z := 4294967296.
Definition WW : Z := 18446744073709551616.

(** conversion to unsigned types, and unsigned arithmetic: reduction modulo the type's size *)
Definition u32 (x : Z) : Z := x mod W.
Definition u64 (x : Z) : Z := x mod WW.

(** conversion of a wide value to int (implementation defined; modulo, as done by gcc) *)
Definition s32 (x : Z) : Z := (x + 2147483648) mod W - 2147483648.

(** plain signed arithmetic: overflow is undefined *)
Definition ub32 (x : Z) : res Z := if fits32 x then Ok x else UB.
Definition ub64 (x : Z) : res Z := if fits64 x then Ok x else UB.

(** assert, cq_assert, cq_ovf_if *)
Definition check (b : bool) : res unit := if b then Ok tt else Fail.

(** matq.h 181-200: overflow aware arithmetic *)
Definition ck32 (x : Z) : res Z := if fits32 x then Ok x else Fail.
Definition ck64 (x : Z) : res Z := if fits64 x then Ok x else Fail.
Definition cku64 (x : Z) : res Z := if fitsu64 x then Ok x else Fail.
Definition dim_add (a b : Z) : res Z := ck32 (a + b).
Definition dim_sub (a b : Z) : res Z := ck32 (a - b).
Definition dimw_add (a b : Z) : res Z := ck64 (a + b).
Definition dimw_sub (a b : Z) : res Z := ck64 (a - b).
Definition udimw_add (a b : Z) : res Z := cku64 (a + b).
Definition udimw_sub (a b : Z) : res Z := cku64 (a - b).
Definition dim_mul (a b : Z) : res Z := ck64 (a * b).
Definition udim_mul (a b : Z) : res Z := cku64 (a * b).

(** matq.h 202-222 *)
Definition dim_neg (x : Z) : res Z := dim_sub 0 x.
Definition dimw_neg (x : Z) : res Z := dimw_sub 0 x.
Definition udim_abs (x : Z) : res Z :=
  let! y := (if x <? 0 then dim_neg x else Ok x) in Ok (u32 y).
Definition udimw_abs (x : Z) : res Z :=
  let! y := (if x <? 0 then dimw_neg x else Ok x) in Ok (u64 y).

(** C division and remainder: undefined for a zero divisor and if the quotient does not fit *)
Definition c_div (fits : Z -> bool) (x d : Z) : res Z :=
  if (d =? 0) || negb (fits (Z.quot x d)) then UB else Ok (Z.quot x d).
Definition c_rem (fits : Z -> bool) (x d : Z) : res Z :=
  if (d =? 0) || negb (fits (Z.quot x d)) then UB else Ok (Z.rem x d).

(** matq.c 54-65, 80-91, 109-120: the common end of the three functions below *)
Definition euclid_fix (ub : Z -> res Z) (d div mod_ : Z) : res (Z * Z) :=
  if 0 <=? mod_ then Ok (div, mod_)
  else if 0 <=? d then
    let! q := ub (div - 1) in let! m := ub (mod_ + d) in Ok (q, m)
  else
    let! q := ub (div + 1) in let! m := ub (mod_ - d) in Ok (q, m).

(** matq.c 46-66 [cq_divmod]: (div, mod) *)
Definition divmod (x d : Z) : res (Z * Z) :=
  let! q := c_div fits32 x d in
  let! m := c_rem fits32 x d in
  euclid_fix ub32 d q m.

(** matq.c 72-92 [cq_divmodw] *)
Definition divmodw (x d : Z) : res (Z * Z) :=
  let! q := c_div fits64 x d in
  let! m := c_rem fits64 x d in
  euclid_fix ub64 d q m.

(** matq.c 98-121 [cq_divmodx]: the check 106 is done in int *)
Definition divmodx (x d : Z) : res (Z * Z) :=
  let! q := c_div fits64 x d in
  let! m := c_rem fits64 x d in
  let q := s32 q in
  let m := s32 m in
  let! p := ub32 (q * d) in
  let! s := ub32 (m + p) in
  let! _ := check (s =? x) in
  euclid_fix ub32 d q m.

(** matq.h 155-162 [cq_divw_rnd] *)
Definition divw_rnd (x d : Z) : res Z :=
  let! qm := divmodw x d in
  let '(q, m) := qm in
  let! h := c_div fits64 d 2 in
  if h + Z.land d 1 <=? m then ub64 (q + 1) else Ok q.

(** include/hob3lop/gon_tam.h 162-177: cq_dimif_t, value i + n/d *)
Record dimif := mk_dimif { dif_i : Z; dif_n : Z; dif_d : Z }.

(** matq.h 385-403 [cq_round] *)
Definition round (x : dimif) : res Z :=
  let d2 := u64 (dif_d x / 2 + Z.land (dif_d x) 1) in
  if d2 <=? dif_n x then dim_add (dif_i x) 1 else Ok (dif_i x).

(** *** 96 bit arithmetic: matq.c 167-217 *)
Record udime := mk_udime { e_hi : Z; e_lo : Z }.

(** matq.c 178-189 [cq_udime_add] *)
Definition udime_add (a b : udime) : res udime :=
  let! hi := udimw_add (e_hi a) (e_hi b) in
  let s := e_lo a + e_lo b in
  let! hi' := (if negb (fitsu32 s) then udimw_add hi 1 else Ok hi) in
  Ok (mk_udime hi' (u32 s)).

(** matq.c 191-201 [cq_udime_sub] *)
Definition udime_sub (a b : udime) : res udime :=
  let! hi := udimw_sub (e_hi a) (e_hi b) in
  let s := e_lo a - e_lo b in
  let! hi' := (if negb (fitsu32 s) then udimw_sub hi 1 else Ok hi) in
  Ok (mk_udime hi' (u32 s)).

(** matq.c 203-217 [cq_udime_mul_wn] *)
Definition udime_mul_wn (a b : Z) : udime :=
  let al := u32 a in
  let ah := u32 (Z.shiftr a 32) in
  let low := u64 (al * b) in
  let hiw := u64 (ah * b) in
  let hiw := u64 (hiw + u32 (Z.shiftr low 32)) in
  mk_udime hiw (u32 low).

(** matq.c 261-271: the correction loop; [None] in [fuel]: not terminated, given as [UB] *)
Fixpoint div_loop (fuel : nat) (u0 v1 v0 q r : Z) : res Z :=
  match fuel with
  | O => UB
  | S f =>
      if (W <=? q) || (u64 (u64 (r * W) + u0) <? u64 (q * v0)) then
        let q := u64 (q - 1) in
        let r := u64 (r + v1) in
        if r <? W then div_loop f u0 v1 v0 q r else Ok (u32 q)
      else Ok (u32 q)
  end.

(** matq.c 219-274 [cq_dim_div_ew], the GNUC branch; __builtin_clzll(v) is 63 - log2 v.
    A shift by the bit width or more is undefined. *)
Definition div_ew (u : udime) (v : Z) : res Z :=
  let u1 := e_hi u in
  let u0 := e_lo u in
  if v =? 0 then Fail else
  if v <=? u1 then Fail else
  let '(v, u1, u0) :=
    if v <=? 0x00000000ffffffff
    then (u64 (Z.shiftl v 32), Z.lor (u64 (Z.shiftl u1 32)) u0, 0)
    else (v, u1, u0) in
  let su := 63 - Z.log2 v in
  let! _ := (if (0 <? su) && (31 <? su) then UB else Ok tt) in
  let '(v, u1, u0) :=
    if su =? 0 then (v, u1, u0) else
    (u64 (Z.shiftl v su),
     Z.lor (u64 (Z.shiftl u1 su)) (Z.shiftr u0 (32 - su)),
     u32 (Z.shiftl u0 su)) in
  let v1 := u32 (Z.shiftr v 32) in
  let v0 := u32 v in
  let q := u1 / v1 in
  let r := u64 (u1 - u64 (q * v1)) in
  div_loop 4 u0 v1 v0 q r.

(** matq.c 279-323 [cq_dimif_mul_div_nww] *)
Definition mul_div_nww (sx sm sd : Z) : res dimif :=
  let! _ := check (negb (sm =? sd)) in
  let neg := xorb (xorb (sx <? 0) (sm <? 0)) (sd <? 0) in
  let! x := udim_abs sx in
  let! m := udimw_abs sm in
  let! d := udimw_abs sd in
  let! _ := check (0 <? m) in
  let! _ := check (m <? d) in
  let w := udime_mul_wn m x in
  let! _ := check (e_hi w <? d) in
  let! q := div_ew w d in
  let! re := udime_sub w (udime_mul_wn d q) in
  let! _ := check (e_hi re <? W) in
  let r := u64 (e_lo re + u64 (e_hi re * W)) in
  let! _ := check (r <? d) in
  let sq := s32 q in
  let! _ := check (0 <=? sq) in
  let! sqr :=
    (if neg then
       let! sq := ub32 (- sq) in
       if negb (r =? 0) then let! sq := ub32 (sq - 1) in Ok (sq, u64 (d - r)) else Ok (sq, r)
     else Ok (sq, r)) in
  let '(sq, r) := sqr in
  let! _ := check (r <? d) in
  Ok (mk_dimif sq r d).

(** matq.c 325-332 [cq_dim_mul_div_rnd_nww] *)
Definition mul_div_rnd_nww (sx sm sd : Z) : res Z :=
  let! r := mul_div_nww sx sm sd in round r.

(** matq.h 224-237 *)
Definition udimw_hi (x : Z) : Z := u32 (Z.shiftr x 32).
Definition udimw_lo (x : Z) : Z := u32 x.
Definition udimw_mk (mx mn : Z) : Z := Z.lor (u64 (Z.shiftl mx 32)) mn.

(** matq.c 334-361 [cq_udimw_mul_aux]: (h, l) of the result (matq.h 292-299, no native type) *)
Definition udimw_mul_aux (a b : Z) : res (Z * Z) :=
  let ah := udimw_hi a in
  let al := udimw_lo a in
  let bh := udimw_hi b in
  let bl := udimw_lo b in
  let! rlh := udim_mul al bh in
  let! rhl := udim_mul ah bl in
  let! rll := udim_mul al bl in
  let! rhh := udim_mul ah bh in
  let! rm := udimw_add 0 (udimw_hi rll) in
  let! rm := udimw_add rm (udimw_lo rhl) in
  let! rm := udimw_add rm (udimw_lo rlh) in
  let! rh := udimw_add rhh (udimw_hi rhl) in
  let! rh := udimw_add rh (udimw_hi rlh) in
  let! rh := udimw_add rh (udimw_hi rm) in
  Ok (rh, udimw_mk (udimw_lo rm) (udimw_lo rll)).

(** CP_CMP (include/hob3ldef/def.h 109-120) *)
Definition cp_cmp (a b : Z) : Z := if a <? b then -1 else if b <? a then 1 else 0.
(** CP_SIGN (include/hob3ldef/def.h 122-132) *)
Definition cp_sign (a : Z) : Z := if a <? 0 then -1 else if 0 <? a then 1 else 0.

(** matq.h 252-263 [cq_udimq_cmp] without native type *)
Definition udimq_cmp (a b : Z * Z) : Z :=
  let i := cp_cmp (fst a) (fst b) in
  if negb (i =? 0) then i else cp_cmp (snd a) (snd b).

(** matq.h 405-412 [cq_dimif_cmp_frac] with a native 128 bit type: the product is exact modulo
    2^128 *)
Definition cmp_frac_native (a b : dimif) : res Z :=
  Ok (cp_cmp ((dif_n a * dif_d b) mod (WW * WW)) ((dif_d a * dif_n b) mod (WW * WW))).

(** matq.c 363-386 [cq_dimif_cmp_frac_aux], used without a native 128 bit type *)
Definition cmp_frac_aux (a b : dimif) : res Z :=
  if Z.lor (dif_n a) (dif_n b) =? 0 then Ok 0 else
  if (dif_n a =? dif_n b) && (dif_d a =? dif_d b) then Ok 0 else
  if (dif_n b <=? dif_n a) && (dif_d a <=? dif_d b) then Ok 1 else
  if (dif_n a <=? dif_n b) && (dif_d b <=? dif_d a) then Ok (-1) else
  let! x := udimw_mul_aux (dif_n a) (dif_d b) in
  let! y := udimw_mul_aux (dif_d a) (dif_n b) in
  Ok (udimq_cmp x y).

Definition cmp_frac (native : bool) : dimif -> dimif -> res Z :=
  if native then cmp_frac_native else cmp_frac_aux.

(** matq.h 414-421 [cq_dimif_cmp] *)
Definition dimif_cmp (native : bool) (a b : dimif) : res Z :=
  let i := cp_cmp (dif_i a) (dif_i b) in
  if negb (i =? 0) then Ok i else cmp_frac native a b.

(** gon_tam.h 22-29 and 179-190 *)
Definition vec2 := (Z * Z)%type.
Definition vec2if := (dimif * dimif)%type.
(** gon_tam.h 192 CQ_VEC2IFI *)
Definition vec2ifi (v : vec2) : vec2if := (mk_dimif (fst v) 0 1, mk_dimif (snd v) 0 1).

(** matq.h 441-450 [cq_vec2if_cmp] *)
Definition vec2if_cmp (native : bool) (a b : vec2if) : res Z :=
  let! i := dimif_cmp native (fst a) (fst b) in
  if negb (i =? 0) then Ok i else dimif_cmp native (snd a) (snd b).

(** matq.h 423-426, 434-439 [cq_dimif_eq], [cq_vec2if_eq] *)
Definition dimif_eq (native : bool) (a b : dimif) : res bool :=
  let! i := dimif_cmp native a b in Ok (i =? 0).
Definition vec2if_eq (native : bool) (a b : vec2if) : res bool :=
  let! x := dimif_eq native (fst a) (fst b) in
  if x then dimif_eq native (snd a) (snd b) else Ok false.

(** matq.h 452-461 [cq_dim_dimif_cmp] *)
Definition dim_dimif_cmp (a : Z) (b : dimif) : Z :=
  if a <? dif_i b then -1 else
  if dif_i b <? a then 1 else
  if 0 <? dif_n b then -1 else 0.

(** matq.h 463-476 [cq_vec2_vec2if_cmp] *)
Definition vec2_vec2if_cmp (a : vec2) (b : vec2if) : Z :=
  if fst a <? dif_i (fst b) then -1 else
  if dif_i (fst b) <? fst a then 1 else
  if 0 <? dif_n (fst b) then -1 else
  if snd a <? dif_i (snd b) then -1 else
  if dif_i (snd b) <? snd a then 1 else
  if 0 <? dif_n (snd b) then -1 else 0.

(** matq.h 304-309 [cq_cross_z] *)
Definition cross_z (ax ay bx by_ : Z) : res Z :=
  let! p := dim_mul ax by_ in
  let! q := dim_mul ay bx in
  dimw_sub p q.

(** matq.h 313-321 [cq_right_cross3_z] *)
Definition right_cross3_z (ax ay ox oy bx by_ : Z) : res Z :=
  let! a := dim_sub ax ox in
  let! b := dim_sub ay oy in
  let! c := dim_sub bx ox in
  let! d := dim_sub by_ oy in
  cross_z a b c d.

(** matq.h 359-377: [cq_sqr_len], [cq_vec2_sqr_dist] *)
Definition sqr_len (x y : Z) : res Z :=
  let! a := dim_mul x x in
  let! b := dim_mul y y in
  dimw_add a b.
Definition vec2_sqr_dist (a b : vec2) : res Z :=
  let! x := dim_sub (fst a) (fst b) in
  let! y := dim_sub (snd a) (snd b) in
  sqr_len x y.

(** matq.c 123-165 [cq_cmp_edge_rnd] *)
Definition cmp_edge_rnd (vx vy lx ly kx ky : Z) : res Z :=
  let! bb := right_cross3_z vx vy lx ly kx ky in
  if W <=? bb then Ok 1 else
  if bb <=? - W then Ok (-1) else
  if (vx <? lx) && (vx <? kx) then Ok (if bb =? 0 then -1 else cp_sign bb) else
  if (lx <? vx) && (kx <? vx) then Ok (if bb =? 0 then 1 else cp_sign bb) else
  if (vy <? ly) && (vy <? ky) then Ok (if bb =? 0 then -1 else cp_sign bb) else
  if (ly <? vy) && (ky <? vy) then Ok (if bb =? 0 then 1 else cp_sign bb) else
  let! ky_ly := dim_sub ky ly in
  let! kx_lx := dim_sub kx lx in
  let! bb := ub64 (bb * 2) in
  let! bbp := dimw_add bb ky_ly in
  let! bbm := dimw_sub bb ky_ly in
  let! c1 := dimw_add bbm kx_lx in
  let! r1 := (if 0 <? c1 then let! c2 := dimw_add bbp kx_lx in Ok (0 <=? c2) else Ok false) in
  if r1 : bool then Ok 1 else
  let! c3 := dimw_sub bbm kx_lx in
  let! r2 := (if c3 <=? 0 then let! c4 := dimw_sub bbp kx_lx in Ok (c4 <=? 0) else Ok false) in
  if r2 : bool then Ok (-1) else
  Ok 0.

(** matq.c 444-471: the sign handling of t and u with respect to d: [None] is [return 0],
    [Some t] the new value of t *)
Definition pos_on_seg (d_neg : bool) (d t : Z) : res (option Z) :=
  if t =? 0 then Ok (Some t) else
  let! nt := (if t <? 0 then let! t' := dimw_neg t in Ok (negb d_neg, t') else Ok (d_neg, t)) in
  let '(t_neg, t') := nt in
  if (t_neg : bool) || (d <? t') then Ok None else Ok (Some t').

Definition b2z (b : bool) : Z := if b then 1 else 0.

(** matq.c 408-518 [cq_vec2if_intersect]: return value, and the intersection if it is
    assigned.  The checks 499-515 (NDEBUG off) are included. *)
Definition vec2if_intersect (p1 p2 p3 p4 : vec2) : res (Z * option vec2if) :=
  let! x2_1 := dim_sub (fst p2) (fst p1) in
  let! y2_1 := dim_sub (snd p2) (snd p1) in
  let! x4_3 := dim_sub (fst p4) (fst p3) in
  let! y4_3 := dim_sub (snd p4) (snd p3) in
  let! d := cross_z x2_1 y2_1 x4_3 y4_3 in
  if d =? 0 then Ok (-1, None) else
  let! x3_1 := dim_sub (fst p3) (fst p1) in
  let! y3_1 := dim_sub (snd p3) (snd p1) in
  let! t := cross_z x3_1 y3_1 x4_3 y4_3 in
  let! u := cross_z x3_1 y3_1 x2_1 y2_1 in
  let d_neg := d <? 0 in
  let! d := (if d_neg then dimw_neg d else Ok d) in
  let! ot := pos_on_seg d_neg d t in
  match ot with
  | None => Ok (0, None)
  | Some t =>
  let! ou := pos_on_seg d_neg d u in
  match ou with
  | None => Ok (0, None)
  | Some u =>
    let bits := Z.lor (b2z (u =? 0) * 8) (b2z (u =? d) * 16) in
    if t =? 0 then Ok (Z.lor (Z.lor 1 2) bits, Some (vec2ifi p1)) else
    if t =? d then Ok (Z.lor (Z.lor 1 4) bits, Some (vec2ifi p2)) else
    if u =? 0 then Ok (Z.lor 1 8, Some (vec2ifi p3)) else
    if u =? d then Ok (Z.lor 1 16, Some (vec2ifi p4)) else
    let! ix := mul_div_nww x2_1 t d in
    let! iy := mul_div_nww y2_1 t d in
    let! xi := dim_add (fst p1) (dif_i ix) in
    let! yi := dim_add (snd p1) (dif_i iy) in
    let! jx := mul_div_nww x4_3 u d in
    let! jy := mul_div_nww y4_3 u d in
    let! jxi := dim_add (fst p3) (dif_i jx) in
    let! jyi := dim_add (snd p3) (dif_i jy) in
    let! _ := check (xi =? jxi) in
    let! _ := check (dif_n ix =? dif_n jx) in
    let! _ := check (dif_d ix =? dif_d jx) in
    let! _ := check (yi =? jyi) in
    let! _ := check (dif_n iy =? dif_n jy) in
    let! _ := check (dif_d iy =? dif_d jy) in
    Ok (1, Some (mk_dimif xi (dif_n ix) (dif_d ix), mk_dimif yi (dif_n iy) (dif_d iy)))
  end end.
