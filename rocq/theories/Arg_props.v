(** Theorems about the matching of arguments (C32) *)
From Coq Require Import Arith Bool List.
From Verif Require Import Arg_model Arg_spec Arg_proofs.
Import ListNotations.

(** C32.  If the names are known, or unknown names are errors: get_arg accepts exactly the calls whose arguments all have a
    parameter and can be converted and that give all mandatory parameters; then each variable contains what its arguments
    say, each flag tells whether there was one, and nothing else is written. *)
Theorem C32_get_arg_partial : forall V D unknown_ok args (pos name : list (param V D)) st hs, separate (pos ++ name) ->
  unknown_ok = false \/ (forall k v, In (Some k, v) args -> In k (map pname (pos ++ name))) ->
  exists r st' hs', get_arg unknown_ok args pos name st hs = (r, st', hs')
  /\ (r = true <-> all_known pos name args /\ all_convert pos name args st /\ mandatory_given pos name args)
  /\ (r = true -> (forall i p, nth_error (pos ++ name) i = Some p ->
         stored (get p) (vals pos name args i) (st (data p)) = Some (st' (data p))
         /\ (forall h, have_p p = Some h -> exists b, hs' h = Some b /\ (b = true <-> given pos name args i)))
       /\ (forall x, ~ In x (map data (pos ++ name)) -> st' x = st x)
       /\ (forall x, (forall p, In p (pos ++ name) -> have_p p <> Some x) -> hs' x = hs x)).
Proof. intros V D u args pos name st hs S U. exact (get_arg_ok pos name args S u st hs U). Qed.
(* missing, because false: that an unknown name that is only warned about does not change the rest; next theorem *)

(** C32, refuted for unknown names with a warning (the default, main.c 689): the arguments after it are dropped, mandatory
    parameters are not required, and no flag is written. *)
Theorem C32_unknown_refuted : forall V D (pos name : list (param V D)) pre k v post st hs, separate (pos ++ name) ->
  all_known pos name pre -> all_convert pos name pre st -> ~ In k (map pname (pos ++ name)) ->
  exists st', get_arg true (pre ++ (Some k, v) :: post) pos name st hs = (true, st', hs)
  /\ forall i p, nth_error (pos ++ name) i = Some p ->
       stored (get p) (vals pos name pre i) (st (data p)) = Some (st' (data p)).
Proof. exact unknown_stops. Qed.

(** The tables of sphere (scad.c 857-866; variables: r 0, d 1, $fa 2, $fs 3, $fn 4; flags likewise) and rotate (scad.c 1230-1235,
    a 0, v 1, flag have_v 1).  Values: numbers; strings are not converted. *)
Definition get_num (v : option nat) (_ : option nat) : option (option nat) := match v with Some n => Some (Some n) | None => None end.
Definition ch_r := [114]. Definition ch_d := [100]. Definition ch_fa := [36; 102; 97]. Definition ch_fs := [36; 102; 115].
Definition ch_fn := [36; 102; 110]. Definition ch_foo := [102; 111; 111]. Definition ch_a := [97]. Definition ch_v := [118].
Definition sphere_pos := [mk_param ch_r get_num 0 (Some 0)].
Definition sphere_name := [mk_param ch_d get_num 1 (Some 1); mk_param ch_fa get_num 2 (Some 2); mk_param ch_fs get_num 3 (Some 3);
  mk_param ch_fn get_num 4 (Some 4)].
Definition rotate_pos := [mk_param ch_a get_num 0 None; mk_param ch_v get_num 1 (Some 1)].
Definition sphere_run u args := let '(r, st, hs) := get_arg u args sphere_pos sphere_name (fun _ => None) (fun _ => None) in
  (r, map st (seq 0 5), map hs (seq 0 5)).
Definition rotate_run u args := let '(r, st, hs) := get_arg u args rotate_pos [] (fun _ => None) (fun _ => None) in
  (r, map st (seq 0 2), map hs (seq 0 2)).

Lemma sphere_separate : separate (sphere_pos ++ sphere_name).
Proof. split; simpl; repeat constructor; simpl; intuition congruence. Qed.
(** sphere(7, $fn = 30, $fa = 5) *)
Example C32_get_arg_ex : separate (sphere_pos ++ sphere_name)
  /\ (forall k v, In (Some k, v) [(None, Some 7); (Some ch_fn, Some 30); (Some ch_fa, Some 5)] -> In k (map pname (sphere_pos ++ sphere_name)))
  /\ sphere_run true [(None, Some 7); (Some ch_fn, Some 30); (Some ch_fa, Some 5)]
     = (true, [Some 7; None; Some 5; None; Some 30], [Some true; Some false; Some true; Some false; Some true])
  /\ fst (fst (sphere_run true [(Some ch_d, Some 7); (None, Some 30)])) = false
  /\ fst (fst (sphere_run true [(Some ch_d, None)])) = false
  /\ fst (fst (sphere_run false [(Some ch_foo, Some 7)])) = false
  /\ fst (fst (rotate_run true [(Some ch_v, Some 7)])) = false.
Proof.
  split; [exact sphere_separate|]. split; [|vm_compute; repeat split].
  intros k v I. simpl in I. destruct I as [I|[I|[I|[]]]]; inversion I; subst; simpl; tauto.
Qed.
(** sphere(foo = 1, d = 5) has radius 1 rather than 2.5; rotate(foo = 1) returns true without a, so that assert(a != NULL),
    scad.c 1240, fails; with rotate([…], foo = 1), have_v is read without having been written (scad.c 1229, 1242). *)
Example C32_unknown_refuted_ex :
  sphere_run true [(Some ch_foo, Some 1); (Some ch_d, Some 5)] = (true, [None; None; None; None; None], [None; None; None; None; None])
  /\ rotate_run true [(Some ch_foo, Some 1)] = (true, [None; None], [None; None])
  /\ rotate_run true [(None, Some 3); (Some ch_foo, Some 1)] = (true, [Some 3; None], [None; None])
  /\ all_known rotate_pos [] [(None, Some 3)] /\ all_convert rotate_pos [] [(None, Some 3)] (fun _ => None)
  /\ ~ In ch_foo (map pname (rotate_pos ++ [])).
Proof.
  repeat (split; [vm_compute; reflexivity|]). split; [|split].
  - intros [|j] H; [vm_compute; discriminate|simpl in H; inversion H as [|m H']; inversion H'].
  - intros [|[|[|i]]] p P; inversion P; subst; vm_compute; discriminate.
  - simpl. intuition discriminate.
Qed.

Print Assumptions C32_get_arg_partial.
Print Assumptions C32_unknown_refuted.
