(** C26, C45: the output of triangles as scenes *)
From Coq Require Import ZArith List Bool Lia Permutation.
From Verif Require Import Js_model Js_spec Js_proofs Js_proofs2.
Import ListNotations.
Open Scope nat_scope.

(** C26: whatever the tree and the number of its triangles, reading the scenes that are printed yields the triangles of the shown
    polygons, all of them, once, in order; each index is the index of a vertex in the same scene (reading succeeds), and fits into 16
    bits; only the last scene can have free room. *)
Theorem C26_scenes : forall thick v0 t0 root x, shown 0 root x -> Forall (fun y => fst y < length thick /\ poly_ok (snd y)) x ->
  exists scenes, put_js thick v0 t0 (Some root) = Some scenes /\ read scenes = Some (all_tris thick x) /\ Forall scene_fits scenes /\ packed scenes.
Proof.
  intros thick v0 t0 root x S OK.
  assert (J0 : J (scene_flush (mk_ctxt v0 0 t0 0 [])) []).
  { unfold J, scene_flush. cbn. repeat match goal with |- _ /\ _ => split end; try (constructor; fail); try lia.
    exists []. split; reflexivity. }
  destruct (proj1 (does_tree thick) 0 root x S OK _ _ J0) as (c & E & JC). cbn [app] in JC.
  exists (out (scene_flush c)). split; [unfold put_js; rewrite E; reflexivity|]. exact (flush_read _ _ JC).
Qed.
Theorem C26_none : forall thick v0 t0, put_js thick v0 t0 None = Some [].
Proof. reflexivity. Qed.

(** C26: so the number of scenes is the least possible, with 21845 triangles in a scene *)
Lemma read_count : forall l T, Forall scene_fits l -> read l = Some T -> 3 * length T = list_sum (map (fun s : scene => length (fst s)) l).
Proof.
  assert (G : forall n vs l T, length l <= n -> group3 vs l = Some T -> 3 * length T = length l).
  { induction n as [|n IH]; intros vs l T L H.
    - destruct l; [|cbn in L; lia]. injection H as <-. reflexivity.
    - destruct l as [|a [|b [|c l]]]; try discriminate; [injection H as <-; reflexivity|]. cbn [group3] in H.
      destruct (look vs a); [|discriminate]. destruct (look vs b); [|discriminate]. destruct (look vs c); [|discriminate].
      destruct (group3 vs l) eqn:E; [|discriminate]. injection H as <-. apply IH in E; [|cbn in L; lia]. cbn [length]. lia. }
  assert (U : forall l a, length (undelta a l) = length l) by (induction l; intros; cbn [undelta length]; [|rewrite IHl]; reflexivity).
  induction l as [|s l IH]; intros T F H; cbn [read] in H.
  - injection H as <-. reflexivity.
  - destruct (read_scene s) eqn:E; [|discriminate]. destruct (read l); [|discriminate]. injection H as <-. inversion F as [|? ? (_ & F1 & _) F2]; subst.
    unfold read_scene in E. apply (G _ _ _ _ (le_n _)) in E. rewrite U in E. specialize (IH _ F2 eq_refl). rewrite app_length. cbn [map list_sum fold_right]. unfold list_sum in *. lia.
Qed.
Theorem C26_number : forall thick v0 t0 root x scenes, shown 0 root x -> Forall (fun y => fst y < length thick /\ poly_ok (snd y)) x ->
  put_js thick v0 t0 (Some root) = Some scenes ->
  let m := Z.to_nat 21845 in let n := length (all_tris thick x) in m * (length scenes - 1) < n <= m * length scenes \/ (n = 0 /\ scenes = []).
Proof.
  intros thick v0 t0 root x scenes S OK E m n. destruct (C26_scenes thick v0 t0 root x S OK) as (sc & E' & R & F & (pre & post & Q & FU & L)).
  rewrite E in E'. injection E' as <-. pose proof (read_count _ _ F R) as C. fold n in C. subst scenes. clear E R S OK.
  apply Forall_app in F. destruct F as (_ & F2).
  assert (P : list_sum (map (fun s : scene => length (fst s)) pre) = Z.to_nat 65535 * length pre).
  { clear -FU. induction FU as [|s l H FU IH]; [cbn; lia|]. unfold list_sum in *. cbn [map fold_right]. rewrite H, IH. cbn [length]. lia. }
  rewrite map_app, list_sum_app, P in C.
  destruct post as [|s [|? ?]]; [| |cbn in L; lia].
  - rewrite app_nil_r. destruct pre as [|s pre].
    + right. cbn in C. split; [lia|reflexivity].
    + left. cbn [length map list_sum fold_right] in *. unfold m. lia.
  - left. inversion F2 as [|? ? (A & B & D) _]; subst. rewrite app_length. unfold list_sum in C. cbn [length map fold_right] in *. unfold m. lia.
Qed.

(** C45: when no part of the top and the bottom is left out, and the triangles that share a side are not marked as outline there, then
    the triangles of the layer are a closed surface. *)
Theorem C45_closed : forall zi r, diff_above r = None -> diff_below r = None -> flags_right (body r) -> closed (poly_tris true zi r).
Proof. exact closed_poly. Qed.

(** Examples *)
Definition sq_pts : list point := [(0, 0); (0, 10); (10, 10); (10, 0)]%Z.
Definition sq : gon := (sq_pts, [mk_tri 0 1 2 true true false; mk_tri 0 2 3 false true true]).
Definition sq_poly : poly := mk_poly sq None None.
Definition ex_root : csg2 := Stack 1 [(1, [Poly sq_poly]); (7, []); (3, [Add [Poly sq_poly]; Sub [Poly (mk_poly sq (Some (sq_pts, [])) None)] [Other]])].
Definition ex_polys : list (nat * poly) := [(1, sq_poly); (3, sq_poly); (3, mk_poly sq (Some (sq_pts, [])) None)].
Lemma sq_gon : gon_ok sq.
Proof. intros t [<-|[<-|[]]]; cbn; lia. Qed.
Example C26_scenes_ex :
  shown 0 ex_root ex_polys /\ Forall (fun y => fst y < length [true; true; true; false] /\ poly_ok (snd y)) ex_polys /\
  option_map (map (fun s => (length (fst s), firstn 9 (snd s))))
    (put_js [true; true; true; false] (fun _ => mk_vertex Up (0, 0)%Z 0 false) (fun _ => (0, 0, 0)) (Some ex_root))
  = Some [(48, [0; 1; 1; 1; 1; 1; 1; 1; 1]%Z)] /\
  length (all_tris [true; true; true; false] ex_polys) = 16.
Proof.
  split; [|split].
  - apply sh_stack. apply (sl_cons 1 _ _ [(1, sq_poly)]); [apply (sa_cons _ _ _ [_] []); constructor|]. apply sl_empty.
    apply (sl_cons 3 _ _ [_; _] []); [|constructor]. apply (sa_cons _ _ _ [_] [_]); [constructor; apply (sa_cons _ _ _ [_] []); constructor|].
    apply (sa_cons _ _ _ [_] []); [constructor; apply (sa_cons _ _ _ [_] []); constructor|constructor].
  - unfold ex_polys. repeat match goal with |- Forall _ (_ :: _) => apply Forall_cons | |- Forall _ [] => apply Forall_nil end;
      (split; [cbn; lia|]; split; [apply sq_gon|]; split; intros g H; try discriminate H).
    injection H as <-. intros t [].
  - split; [vm_compute; reflexivity|reflexivity].
Qed.
(** More than one scene: 30000 triangles need two *)
Definition ex_big : poly := mk_poly (sq_pts, repeat (mk_tri 0 1 2 true true false) (Z.to_nat 30000)) None None.
Example C26_number_ex :
  shown 0 (Poly ex_big) [(0, ex_big)] /\ Forall (fun y => fst y < length [false] /\ poly_ok (snd y)) [(0, ex_big)] /\
  exists scenes, put_js [false] (fun _ => mk_vertex Up (0, 0)%Z 0 false) (fun _ => (0, 0, 0)) (Some (Poly ex_big)) = Some scenes /\ length scenes = 2.
Proof.
  assert (A : shown 0 (Poly ex_big) [(0, ex_big)]) by constructor.
  assert (B : Forall (fun y => fst y < length [false] /\ poly_ok (snd y)) [(0, ex_big)]).
  { constructor; [|constructor]. split; [cbn; lia|]. split; [|split; discriminate]. intros t H. apply repeat_spec in H. subst t. cbn. lia. }
  split; [exact A|]. split; [exact B|].
  destruct (C26_scenes [false] (fun _ => mk_vertex Up (0, 0)%Z 0 false) (fun _ => (0, 0, 0)) _ _ A B) as (sc & E & _).
  exists sc. split; [exact E|]. pose proof (C26_number _ _ _ _ _ _ A B E) as N. cbn zeta in N.
  replace (length (all_tris [false] [(0, ex_big)])) with (Z.to_nat 30000) in N.
  - lia.
  - unfold all_tris. cbn [flat_map fst snd]. rewrite app_nil_r. unfold poly_tris, ex_big. cbn [nth diff_above diff_below body fst snd app].
    rewrite app_nil_r, map_length, repeat_length. reflexivity.
Qed.
Example C45_closed_ex : flags_right (body sq_poly) /\ length (poly_tris true 0 sq_poly) = 12.
Proof. split; [|reflexivity]. unfold flags_right. cbn. apply perm_swap. Qed.

Print Assumptions C26_scenes.
Print Assumptions C26_none.
Print Assumptions C26_number.
Print Assumptions C45_closed.
