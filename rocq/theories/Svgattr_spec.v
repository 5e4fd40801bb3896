(** Lengths and the attribute [transform] of SVG files: grammar and values. *)
From Coq Require Import ZArith QArith List Bool.
From Verif Require Import Svgpath_spec.
Import ListNotations.
Local Open Scope Q_scope.

(** * Lengths: https://www.w3.org/TR/css-values/#absolute-lengths *)
Inductive unit_ := In_ | Cm | Mm | Pt | Pc | Px | Percent | NoUnit.
Definition unit_text (u : unit_) : byte_text :=
  match u with
  | In_ => [105; 110]
  | Cm => [99; 109]
  | Mm => [109; 109]
  | Pt => [112; 116]
  | Pc => [112; 99]
  | Px => [112; 120]
  | Percent => [37]
  | NoUnit => []
  end%Z.
(** 1in is 2.54cm, 25.4mm, 72pt, 6pc, and 96px *)
Definition unit_px (perc100 unit1 : Q) (u : unit_) : Q :=
  match u with
  | In_ => 96
  | Cm => 96 / (254 # 100)
  | Mm => 96 / (254 # 10)
  | Pt => 96 / 72
  | Pc => 96 / 6
  | Px => 1
  | Percent => perc100 / 100
  | NoUnit => unit1
  end.
Inductive length_text : byte_text -> unit_ -> byte_text -> Prop :=
  | lt_intro sp w u sp' : spaces sp -> num false w -> spaces sp' -> length_text w u (sp ++ w ++ unit_text u ++ sp').

(** * Transformations *)
Definition alpha (c : Z) : Prop := (65 <= c <= 90 \/ 97 <= c <= 122)%Z.
Section Tr.
Variable val : byte_text -> Q.
(** a list of commands: a name, and one to eight numbers in brackets; separators may be missing, and a comma may be
    behind the last number (but not behind an eighth) *)
Inductive transforms : list (byte_text * list Q) -> byte_text -> Prop :=
  | tr_nil : transforms [] []
  | tr_cons n vs sp1 t sp sp2 cs r :
      n <> [] -> Forall alpha n -> spaces sp1 -> vs <> [] -> (length vs <= 8)%nat ->
      nums Q val false false vs t (sp ++ 41%Z :: sp2 ++ r) -> sep (Nat.ltb (length vs) 8) sp -> sep true sp2 ->
      transforms cs r -> transforms ((n, vs) :: cs) (n ++ sp1 ++ 40%Z :: t).
End Tr.

(** * Radii of rectangles and ellipses *)
(** an attribute that is not given or is auto, or that is a length *)
Inductive radius (val : byte_text -> Q) (perc100 : Q) : option byte_text -> option Q -> Prop :=
  | ra_none : radius val perc100 None None
  | ra_auto : radius val perc100 (Some [97; 117; 116; 111]%Z) None
  | ra_some w u t : length_text w u t -> radius val perc100 (Some t) (Some (val w * unit_px perc100 1 u)).
(** one that is not given is the other one *)
Definition radii (a b : option Q) : Q * Q :=
  match a, b with
  | None, None => (0, 0)
  | Some x, None => (x, x)
  | None, Some y => (y, y)
  | Some x, Some y => (x, y)
  end.
