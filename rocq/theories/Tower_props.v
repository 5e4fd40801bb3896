(** C29: the solids made from stacks of rings of points have closed surfaces which are oriented alike under all transformations *)
From Coq Require Import List Bool Arith Lia ZifyBool QArith Lqa.
From Verif Require Import Mesh_spec Mesh_proofs Tower_model Tower_spec Tower_proofs Tower_proofs2.
Import ListNotations.
Local Open Scope nat_scope.

(** ** C29: each call with at least 3 points per ring and at least 2 rings succeeds (no assertion fails), and the result is a closed surface
    where each directed edge has exactly one partner, and which has the Euler characteristic of a sphere *)
Theorem C29_closed : forall npts fn fnz neg rv t (apex : bool), 3 <= fn -> 2 <= fnz -> npts = (if apex then fn * (fnz - 1) + 1 else fn * fnz) ->
  exists f, tower npts fn fnz neg rv t = Some f /\ good_solid npts f.
Proof. intros npts fn fnz neg rv t apex N Z E. destruct (tower_good npts fn fnz neg rv t apex N Z E) as (f & T & G & _). exists f. split; assumption. Qed.
Example C29_closed_ex : tower 7 3 3 false false TRI_LEFT =
  Some [[0; 1; 2]; [3; 1; 0]; [1; 3; 4]; [4; 2; 1]; [2; 4; 5]; [5; 0; 2]; [0; 5; 3]; [6; 4; 3]; [6; 5; 4]; [6; 3; 5]].
Proof. reflexivity. Qed.

(** The callers *)
Theorem C29_cube : forall neg, exists f, cube_faces neg = Some f /\ good_solid 8 f.
Proof. intros neg. apply (C29_closed 8 4 2 neg false TRI_NONE false); [lia|lia|reflexivity]. Qed.
Example C29_cube_ex : cube_faces false = Some [[0; 1; 2; 3]; [7; 6; 5; 4]; [4; 5; 1; 0]; [5; 6; 2; 1]; [6; 7; 3; 2]; [7; 4; 0; 3]].
Proof. reflexivity. Qed.
Theorem C29_cylinder : forall fn cone neg, 3 <= fn -> exists f, cylinder_faces fn cone neg = Some f /\ good_solid (if cone then fn + 1 else 2 * fn) f.
Proof. intros fn cone neg N. apply (C29_closed _ fn 2 neg false TRI_NONE cone); [exact N|lia|]. destruct cone; lia. Qed.
Example C29_cylinder_ex : cylinder_faces 3 true true = Some [[2; 1; 0]; [0; 1; 3]; [1; 2; 3]; [2; 0; 3]].
Proof. reflexivity. Qed.
Theorem C29_sphere : forall fn neg, 3 <= fn -> exists f, sphere_faces fn neg = Some f /\ good_solid (fn * ((fn + 1) / 2)) f.
Proof.
  intros fn neg N. assert (Z : 2 <= (fn + 1) / 2) by (apply Nat.div_le_lower_bound; lia).
  unfold sphere_faces. cbn zeta. replace (2 <=? (fn + 1) / 2) with true by (symmetry; apply Nat.leb_le; exact Z). cbn [check].
  apply (C29_closed _ fn _ neg true TRI_NONE false); [exact N|exact Z|reflexivity].
Qed.
Example C29_sphere_ex : option_map (@length (list nat)) (sphere_faces 5 false) = Some 12.
Proof. reflexivity. Qed.
Theorem C29_linext : forall pcnt slices cone neg t, 3 <= pcnt -> 1 <= slices ->
  exists f, linext_faces pcnt slices cone neg t = Some f /\ good_solid ((if cone then slices else slices + 1) * pcnt + b2n cone) f.
Proof.
  intros pcnt slices cone neg t N S. apply (C29_closed _ pcnt (slices + 1) neg true t cone); [exact N|lia|]. destruct cone; cbn [b2n]; [|lia].
  replace (slices + 1 - 1) with slices by lia. lia.
Qed.
Example C29_linext_ex : linext_faces 3 1 false false TRI_RIGHT = Some [[2; 1; 0]; [3; 4; 5]; [0; 1; 4]; [4; 3; 0]; [1; 2; 5]; [5; 4; 1]; [2; 0; 3]; [3; 5; 2]].
Proof. reflexivity. Qed.

(** ** C29: the surface is turned when the transformation mirrors: the signed volume is multiplied with the absolute value of the determinant,
    so no transformation turns the solid inside out *)
Theorem C29_orientation : forall pts m fn fnz rv t (apex : bool) f0, 3 <= fn -> 2 <= fnz -> length pts = (if apex then fn * (fnz - 1) + 1 else fn * fnz) ->
  tower (length pts) fn fnz false rv t = Some f0 ->
  exists p f, solid pts m fn fnz rv t = Some (p, f) /\ p = map (xform m) pts /\ (volume p f == qabs (det m) * volume pts f0)%Q.
Proof.
  intros pts m fn fnz rv t apex f0 N Z L T. unfold solid.
  destruct (tower_good _ fn fnz false rv t apex N Z L) as (f' & T' & (Gi & G3 & Gc & _) & _). rewrite T in T'. injection T' as <-.
  unfold qabs. destruct (Qle_bool 0 (det m)); cbn [negb].
  - rewrite T. exists (map (xform m) pts), f0. split; [reflexivity|]. split; [reflexivity|]. apply volume_map; assumption.
  - destruct (tower_flip _ fn fnz rv t apex N Z L f0 T) as (g & Tg & F). rewrite Tg. exists (map (xform m) pts), g.
    split; [reflexivity|]. split; [reflexivity|].
    destruct (tower_good _ fn fnz true rv t apex N Z L) as (g' & Tg' & (Hi & H3 & Hc & _) & _). rewrite Tg in Tg'. injection Tg' as <-.
    rewrite volume_map by assumption. unfold volume. destruct F as [->| ->]; rewrite volume_rev; ring.
Qed.

(** The cube: the faces are clockwise when seen from outside (negative volume) for each transformation *)
Definition cube_pts : list vec3 := map (fun i => let '(x, y, z) := cube_point i in mk_vec3 (inject_Z x) (inject_Z y) (inject_Z z)) (seq 0 8).
Theorem C29_cube_volume : forall m, exists p f, solid cube_pts m 4 2 false TRI_NONE = Some (p, f) /\ (volume p f == - (6) * qabs (det m))%Q.
Proof.
  intros m. destruct (C29_orientation cube_pts m 4 2 false TRI_NONE false _ ltac:(lia) ltac:(lia) eq_refl eq_refl) as (p & f & S & _ & V).
  exists p, f. split; [exact S|]. rewrite V.
  set (c := volume cube_pts _). assert (E : c == - (6)) by (vm_compute; reflexivity). rewrite E. ring.
Qed.
Example C29_mirrored : exists p f, solid cube_pts (mk_mat3w (mk_vec3 (-(2)) 0 0) (mk_vec3 0 1 0) (mk_vec3 0 0 1) (mk_vec3 5 7 9)) 4 2 false TRI_NONE = Some (p, f) /\ (volume p f == - (12))%Q.
Proof. eexists. eexists. split; [reflexivity|]. vm_compute. reflexivity. Qed.
(** The points of the cube are its 8 corners *)
Theorem C29_cube_corners : NoDup (map cube_point (seq 0 8)) /\
  forall x y z, In (x, y, z) (map cube_point (seq 0 8)) <-> (x = 0 \/ x = 1)%Z /\ (y = 0 \/ y = 1)%Z /\ (z = 0 \/ z = 1)%Z.
Proof.
  split.
  - vm_compute. repeat constructor; cbn; intuition discriminate.
  - intros x y z. set (l := map cube_point (seq 0 8)). vm_compute in l. subst l. split.
    + intros I. cbn in I. repeat (destruct I as [I|I]; [injection I as <- <- <-; lia|]). destruct I.
    + intros ([-> | ->] & [-> | ->] & [-> | ->]); cbn; tauto.
Qed.

Print Assumptions C29_closed.
Print Assumptions C29_cube.
Print Assumptions C29_cylinder.
Print Assumptions C29_sphere.
Print Assumptions C29_linext.
Print Assumptions C29_orientation.
Print Assumptions C29_cube_volume.
Print Assumptions C29_cube_corners.
