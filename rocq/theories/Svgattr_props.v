(** C63: lengths and the attribute [transform] of SVG files. *)
From Coq Require Import ZArith QArith Lqa List Bool Lia ZifyBool String Ascii.
From Verif Require Import Svgpath_model Svgpath_spec Svgpath_proofs2 Svgpath_proofs3 Svgpath_props
  Svgdoc_model Svgdoc_spec Svgdoc_proofs Svgattr_model Svgattr_spec Svgattr_proofs.
Import ListNotations.
Local Open Scope Z_scope.

(** A text is accepted as length exactly if it is a number with one of the units (or none) and white space around,
    and its value is the number of px.  Missing: numbers with a sign in the exponent, the units em and ex. *)
Theorem C63_length_partial : forall (strtod : byte_text -> Q * nat) (val : byte_text -> Q) (perc100 unit1 : Q) (t : byte_text),
  strtod_reads Q val strtod ->
  (forall x, attr_dim strtod perc100 unit1 t = Some x ->
     exists w u, length_text w u t /\ (x == val w * unit_px perc100 unit1 u)%Q) /\
  (forall w u, length_text w u t ->
     exists x, attr_dim strtod perc100 unit1 t = Some x /\ (x == val w * unit_px perc100 unit1 u)%Q).
Proof.
  intros strtod val p u1 t ST. split.
  - intros x. now apply dim_sound.
  - intros w u. now apply dim_complete.
Qed.

Example C63_length_example :
  length_text (txt "-2.5") Mm (txt " -2.5mm ") /\
  option_map Qred (attr_dim qstrtod (q 50) (q 3) (txt " -2.5mm ")) = Some (-1200 # 127)%Q /\
  option_map Qred (attr_dim qstrtod (q 50) (q 3) (txt "30%")) = Some (q 15) /\
  option_map Qred (attr_dim qstrtod (q 50) (q 3) (txt "30")) = Some (q 90) /\
  option_map Qred (attr_dim qstrtod (q 50) (q 3) (txt "1e2pc")) = Some (q 1600) /\
  attr_dim qstrtod (q 50) (q 3) (txt "3 mm") = None /\
  attr_dim qstrtod (q 50) (q 3) (txt "3em") = None /\
  attr_dim qstrtod (q 50) (q 3) (txt "mm") = None.
Proof.
  split; [|vm_compute; repeat split].
  apply (lt_intro [32] (txt "-2.5") Mm [32]).
  - is_sp.
  - exists [45], (txt "2.5"), []. split; [auto|]. split; [|split; [constructor|reflexivity]].
    apply (m_dot [50] [53]); [repeat (constructor; [unfold digit; lia|]); constructor..|discriminate].
  - is_sp.
Qed.

(** The comment in the code says that a missing unit is the unit px; it is the unit that the caller gives. *)
Theorem C63_no_unit_refuted :
  ~ (forall (perc100 unit1 : Q), option_map Qred (attr_dim qstrtod perc100 unit1 (txt "7")) =
                                 option_map Qred (attr_dim qstrtod perc100 unit1 (txt "7px"))).
Proof. intros H. specialize (H (q 50) (q 3)). vm_compute in H. discriminate. Qed.

(** A text is read to its end, with names for all commands, exactly if it is a list of transformations with white
    space before; then its commands are read in their order, each with all of its numbers.  Missing: numbers with a
    sign in the exponent. *)
Theorem C63_transform_partial : forall (strtod : byte_text -> Q * nat) (val : byte_text -> Q) (t : byte_text)
    (cs : list (byte_text * list Q)),
  strtod_reads Q val strtod ->
  (transform_text strtod t = Some (cs, true) /\ Forall (fun c => fst c <> []) cs <->
   exists sp u, t = sp ++ u /\ spaces sp /\ transforms val cs u).
Proof.
  intros strtod val t cs ST. split.
  - intros [H F]. exact (transform_sound strtod val ST t cs H F).
  - intros (sp & u & -> & S & T). split; [now apply (transform_complete strtod val ST)|exact (transforms_named val cs u T)].
Qed.

(** Reading ends for every text, whatever strtod does. *)
Theorem C63_terminates : forall (strtod : byte_text -> Q * nat) (t : byte_text), transform_text strtod t <> None.
Proof.
  intros. unfold transform_text. apply loop_fuel2. pose proof (sep_length false t). lia.
Qed.

Lemma int_num w : w <> [] -> Forall digit w -> num false w.
Proof.
  intros N F. exists [], w, []. split; [left; reflexivity|]. split; [now constructor|]. split; [constructor|now rewrite app_nil_r].
Qed.
Ltac int_num := apply int_num; [discriminate|repeat (constructor; [unfold digit; split; vm_compute; discriminate|]); constructor].

Definition tr_text : byte_text := txt "translate (10,20), scale( 2 )".
Definition tr_cmds : list (byte_text * list Q) := [(txt "translate", [q 10; q 20]); (txt "scale", [q 2])].
Example C63_transform_example :
  transforms qval tr_cmds tr_text /\
  transform_text qstrtod tr_text = Some (tr_cmds, true) /\
  transform_text qstrtod (txt "scale(2)rotate(5,)") = Some ([(txt "scale", [q 2]); (txt "rotate", [q 5])], true) /\
  transform_text qstrtod (txt "scale(2) rotate 5") = Some ([(txt "scale", [q 2])], false).
Proof.
  split; [|vm_compute; repeat split].
  apply (tr_cons qval (txt "translate") [q 10; q 20] [32] (txt "10,20), scale( 2 )") [] [44; 32] [(txt "scale", [q 2])] (txt "scale( 2 )"));
    [discriminate|repeat (constructor; [unfold alpha; cbn; lia|]); constructor|is_sp|discriminate|cbn; lia| | | |].
  - apply (nums_cons Q qval false false [q 20] [] (txt "10") (txt ",20), scale( 2 )")).
    + left. constructor.
    + int_num.
    + cbn. unfold digit. lia.
    + apply (nums_cons Q qval false true [] [44] (txt "20") (txt "), scale( 2 )")).
      * right. split; [reflexivity|]. exists [], []. repeat split; constructor.
      * int_num.
      * cbn. unfold digit. lia.
      * constructor.
  - left. constructor.
  - right. split; [reflexivity|]. exists [], [32]. repeat split; is_sp.
  - apply (tr_cons qval (txt "scale") [q 2] [] (txt " 2 )") [32] [] [] []);
      [discriminate|repeat (constructor; [unfold alpha; cbn; lia|]); constructor|constructor|discriminate|cbn; lia| | | |].
    + apply (nums_cons Q qval false false [] [32] (txt "2") (txt " )")).
      * left. is_sp.
      * int_num.
      * cbn. unfold digit. lia.
      * constructor.
    + left. is_sp.
    + left. constructor.
    + constructor.
Qed.

(** A transform attribute with commands of the standard, each with the right number of numbers, is applied in full: the
    new matrix maps each point as the old one maps its image under all commands, the last one first.  Missing: numbers
    with a sign in the exponent. *)
Theorem C63_apply_partial : forall (strtod : byte_text -> Q * nat) (val : byte_text -> Q) (tand sind cosd : Q -> Q)
    (sp t : byte_text) (cs : list (byte_text * list Q)) (f : vec -> vec) (m : mat),
  strtod_reads Q val strtod -> spaces sp -> transforms val cs t -> meanss tand sind cosd cs f ->
  exists m', apply_text strtod tand sind cosd (sp ++ t) m = Some (m', true) /\
    forall p, veq (at_pt m' p) (at_pt m (f p)).
Proof.
  intros strtod val tand sind cosd sp t cs f m ST S T M. destruct (list_ok tand sind cosd cs f M m) as (m' & E & P).
  exists m'. split; [|exact P]. unfold apply_text.
  rewrite (apply_ok strtod tand sind cosd _ _ m cs true (transform_complete strtod val ST sp cs t S T)).
  rewrite E. reflexivity.
Qed.

(** For every text, the commands that are read before the first fault are applied, until one is not understood. *)
Theorem C63_apply_general : forall (strtod : byte_text -> Q * nat) (tand sind cosd : Q -> Q) (t : byte_text) (m : mat),
  exists cs ok, transform_text strtod t = Some (cs, ok) /\
    apply_text strtod tand sind cosd t m =
    Some (fst (xform_list tand sind cosd cs m), andb (snd (xform_list tand sind cosd cs m)) ok).
Proof.
  intros strtod tand sind cosd t m. destruct (transform_text strtod t) as [[cs ok]|] eqn:E.
  - exists cs, ok. split; [reflexivity|]. exact (apply_ok strtod tand sind cosd _ _ m cs ok E).
  - exfalso. exact (C63_terminates strtod t E).
Qed.

Example C63_apply_example :
  meanss (fun a => a) (fun a => a) (fun a => a) tr_cmds (fun p => (2 * fst p + 10, 2 * snd p + 20)%Q) /\
  apply_text qstrtod (fun a => a) (fun a => a) (fun a => a) tr_text (mk_mat 1 0 0 0 1 0) =
    Some (mk_mat 2 0 10 0 2 20, true) /\
  apply_text qstrtod (fun a => a) (fun a => a) (fun a => a) (txt "scale(2) turn(3) scale(4)") (mk_mat 1 0 0 0 1 0) =
    Some (mk_mat 2 0 0 0 2 0, false).
Proof.
  split; [|vm_compute; repeat split].
  exact (ms_cons _ _ _ _ _ _ _ _ (t2 _ _ _ (q 10) (q 20)) (ms_cons _ _ _ _ _ _ _ _ (s1 _ _ _ (q 2)) (ms_nil _ _ _))).
Qed.

(** * Rectangles *)
(** A rectangle whose position and size are all given is drawn there with this size, with radii of at most half of it:
    the straight edges and the radii make up the size.  If no radius is given, there
    is none, and there are never radii in one direction only.  Missing: attributes that are
    not given, the drawing, and numbers with a sign in the exponent. *)
Theorem C63_rect_partial : forall (strtod : byte_text -> Q * nat) (val : byte_text -> Q) (vw vh : Q)
    (tx ty tw th wx wy ww wh : byte_text) (ux uy uw uh : unit_) (arx ary : option byte_text),
  strtod_reads Q val strtod ->
  length_text wx ux tx -> length_text wy uy ty -> length_text ww uw tw -> length_text wh uh th ->
  let W := (val ww * unit_px vw 1 uw)%Q in let H := (val wh * unit_px vh 1 uh)%Q in
  match from_rect strtod vw vh (Some tx) (Some ty) (Some tw) (Some th) arx ary with
  | None => (W <= 0 \/ H <= 0)%Q
  | Some r =>
      (0 < W /\ 0 < H /\
       r_x r == val wx * unit_px vw 1 ux /\ r_y r == val wy * unit_px vh 1 uy /\
       r_ew r + 2 * r_rx r == W /\ r_eh r + 2 * r_ry r == H /\
       0 <= r_ew r /\ 0 <= r_eh r /\ 0 <= r_rx r /\ 0 <= r_ry r /\
       (r_rx r == 0 <-> r_ry r == 0) /\
       (arx = None -> ary = None -> r_rx r == 0))%Q
  end.
Proof.
  intros strtod val vw vh tx ty tw th wx wy ww wh ux uy uw uh arx ary ST LX LY LW LH W H.
  destruct (dim_complete strtod val ST vw 1 _ _ _ LX) as (x & EX & X).
  destruct (dim_complete strtod val ST vh 1 _ _ _ LY) as (y & EY & Y).
  destruct (dim_complete strtod val ST vw 1 _ _ _ LW) as (w & EW & XW).
  destruct (dim_complete strtod val ST vh 1 _ _ _ LH) as (h & EH & XH).
  fold W in XW. fold H in XH. clearbody W H.
  unfold from_rect, attr_coord, attr_opt. rewrite EX, EY, EW, EH. cbn [snd].
  destruct (Qle_bool w 0) eqn:C1; cbn [orb]; [left; apply Qle_bool_iff in C1; rewrite <- XW; exact C1|].
  destruct (Qle_bool h 0) eqn:C2; [right; apply Qle_bool_iff in C2; rewrite <- XH; exact C2|].
  assert (NL : forall a b, Qle_bool a b = false -> (b < a)%Q).
  { intros a b E. destruct (Qlt_le_dec b a) as [L|L]; [exact L|]. apply Qle_bool_iff in L. congruence. }
  apply NL in C1, C2.
  assert (RN : arx = None -> ary = None -> snd (attr_size strtod vw vh arx ary) = (0, 0)%Q) by (intros -> ->; reflexivity).
  destruct (snd (attr_size strtod vw vh arx ary)) as [rx ry].
  destruct (Qle_bool rx 0) eqn:C3; cbn [orb].
  { cbn. repeat split; try lra. }
  destruct (Qle_bool ry 0) eqn:C4.
  { cbn. repeat split; try lra. }
  apply NL in C3, C4.
  assert (DW : (w / 2 == w * (1 # 2))%Q) by (unfold Qdiv; reflexivity).
  assert (DH : (h / 2 == h * (1 # 2))%Q) by (unfold Qdiv; reflexivity).
  assert (RN' : arx = None -> ary = None -> False).
  { intros A B. specialize (RN A B). injection RN as -> ->. lra. }
  unfold Qltb. destruct (Qle_bool rx (w / 2)) eqn:C5; [apply Qle_bool_iff in C5|apply NL in C5];
    (destruct (Qle_bool ry (h / 2)) eqn:C6; [apply Qle_bool_iff in C6|apply NL in C6]);
    cbn [negb r_x r_y r_ew r_eh r_rx r_ry]; repeat split; try (intros A B; destruct (RN' A B)); lra.
Qed.

Example C63_rect_example :
  from_rect qstrtod (q 100) (q 50) (Some (txt "1")) (Some (txt "10%")) (Some (txt "1in")) (Some (txt "20px")) (Some (txt "12")) None
    = Some (mk_rect (1 * 1) (10 * (50 / 100)) (1 * 96 - 2 * (12 * 1)) (20 * 1 - 2 * (20 * 1 / 2)) (12 * 1) (20 * 1 / 2)).
Proof. vm_compute. reflexivity. Qed.

(** A coordinate that is not given should be 0 on its own.  Without x, also y is 0: [s_attr_coord] does not read y then. *)
Theorem C63_missing_refuted :
  ~ (forall (ty : byte_text) (y : Q), attr_dim qstrtod (q 50) 1 ty = Some y ->
       exists r, from_rect qstrtod (q 100) (q 50) None (Some ty) (Some (txt "7")) (Some (txt "8")) None None = Some r /\ (r_y r == y)%Q).
Proof.
  intros N. destruct (N (txt "5") (5 * 1)%Q) as (r & E & Y); [vm_compute; reflexivity|].
  vm_compute in E. injection E as <-. vm_compute in Y. discriminate.
Qed.

(** Radii of which each is a length, auto, or not given have the values of the standard; a rectangle has them if both
    are positive, but not more than half of its size. *)
Theorem C63_radii_partial : forall (strtod : byte_text -> Q * nat) (val : byte_text -> Q) (vw vh : Q)
    (ax ay aw ah arx ary : option byte_text) (a b : option Q) (r : rect),
  strtod_reads Q val strtod -> radius val vw arx a -> radius val vh ary b ->
  from_rect strtod vw vh ax ay aw ah arx ary = Some r ->
  let '(x, y) := radii a b in
  (fst (snd (attr_size strtod vw vh arx ary)) == x /\ snd (snd (attr_size strtod vw vh arx ary)) == y /\
   ((x <= 0 \/ y <= 0) /\ r_rx r == 0 /\ r_ry r == 0 \/
    0 < x /\ 0 < y /\
    (r_rx r == x \/ r_rx r < x /\ r_ew r == 0) /\ (r_ry r == y \/ r_ry r < y /\ r_eh r == 0)))%Q.
Proof.
  intros strtod val vw vh ax ay aw ah arx ary a b r ST RA RB.
  assert (NA : forall p t x, attr_dim strtod p 1 t = Some x -> not_auto (Some t) = Some t).
  { intros p t x E. unfold not_auto, name_eqb. destruct (list_eq_dec Z.eq_dec t auto_) as [->|]; [discriminate E|reflexivity]. }
  assert (V : let '(x, y) := radii a b in (fst (snd (attr_size strtod vw vh arx ary)) == x /\ snd (snd (attr_size strtod vw vh arx ary)) == y)%Q).
  { assert (F : forall p t o v, radius val p o v -> t = not_auto o ->
        match v with None => t = None | Some x => exists t' x', t = Some t' /\ attr_dim strtod p 1 t' = Some x' /\ (x' == x)%Q end).
    { intros p t o v R ->. destruct R as [| |w u t L]; [reflexivity|reflexivity|].
      destruct (dim_complete strtod val ST p 1 _ _ _ L) as (x & E & X). exists t, x. split; [exact (NA _ _ _ E)|]. split; assumption. }
    assert (FA := F vw _ _ _ RA eq_refl). assert (FB := F vh _ _ _ RB eq_refl). unfold attr_size. clear NA F RA RB.
    destruct a as [x|]; [destruct FA as (t & x' & -> & E & X)|rewrite FA];
      (destruct b as [y|]; [destruct FB as (t' & y' & -> & E' & Y)|rewrite FB]);
      try rewrite E; try rewrite E'; cbn; split; (assumption || reflexivity). }
  destruct (radii a b) as [x y]. destruct V as [VX VY]. intros H. split; [exact VX|]. split; [exact VY|].
  unfold from_rect in H. destruct (snd (attr_coord strtod vw vh ax ay)) as [px py].
  destruct (snd (attr_coord strtod vw vh aw ah)) as [w h].
  destruct (Qle_bool w 0 || Qle_bool h 0); [discriminate|].
  destruct (snd (attr_size strtod vw vh arx ary)) as [rx ry]. cbn [fst snd] in VX, VY.
  assert (NL : forall a b, Qle_bool a b = false -> (b < a)%Q).
  { intros c d E. destruct (Qlt_le_dec d c) as [L|L]; [exact L|]. apply Qle_bool_iff in L. congruence. }
  destruct (Qle_bool rx 0) eqn:C1; cbn [orb] in H.
  { apply Qle_bool_iff in C1. injection H as <-. left. split; [left; lra|]. split; reflexivity. }
  destruct (Qle_bool ry 0) eqn:C2; cbn [orb] in H.
  { apply Qle_bool_iff in C2. injection H as <-. left. split; [right; lra|]. split; reflexivity. }
  apply NL in C1, C2. right. split; [lra|]. split; [lra|].
  assert (DW : (w / 2 == w * (1 # 2))%Q) by (unfold Qdiv; reflexivity).
  assert (DH : (h / 2 == h * (1 # 2))%Q) by (unfold Qdiv; reflexivity).
  unfold Qltb in H. injection H as <-. cbn [r_rx r_ry r_ew r_eh]. split.
  - destruct (Qle_bool rx (w / 2)) eqn:C; cbn [negb]; [left; lra|apply NL in C; right; split; lra].
  - destruct (Qle_bool ry (h / 2)) eqn:C; cbn [negb]; [left; lra|apply NL in C; right; split; lra].
Qed.

Example C63_radii_example :
  radius qval (q 100) (Some (txt "12")) (Some (qval (txt "12") * 1)%Q) /\ radius qval (q 50) (Some (txt "auto")) None /\
  exists r, from_rect qstrtod (q 100) (q 50) None None (Some (txt "96")) (Some (txt "20")) (Some (txt "12")) (Some (txt "auto")) = Some r /\
    (r_rx r == 12 /\ r_ry r == 10 /\ r_ew r == 72 /\ r_eh r == 0)%Q.
Proof.
  split; [|split; [constructor|]].
  - apply (ra_some qval (q 100) (txt "12") NoUnit). apply (lt_intro [] (txt "12") NoUnit []); [constructor|int_num|constructor].
  - eexists. split; [vm_compute; reflexivity|]. vm_compute. repeat split.
Qed.

Print Assumptions C63_length_partial.
Print Assumptions C63_no_unit_refuted.
Print Assumptions C63_transform_partial.
Print Assumptions C63_terminates.
Print Assumptions C63_apply_partial.
Print Assumptions C63_apply_general.
Print Assumptions C63_rect_partial.
Print Assumptions C63_missing_refuted.
Print Assumptions C63_radii_partial.
