(** C23, C24, C25: STL files. *)
From Coq Require Import ZArith Bool List Lia ZifyBool.
From Verif Require Import Stl_model Stl_spec Stl_proofs Stl_proofs2.
Import ListNotations.
Local Open Scope Z_scope.

(** For the examples: a square made of 2 triangles, with an inner edge from 0 to 2, in one layer from z=0 to z=7 *)
Definition sq_points : list point2 := [(0, 0); (0, 1); (1, 1); (1, 0)].
Definition sq_tris : list tri := [mk_tri 0 1 2 true true false; mk_tri 0 2 3 false true true].
Definition nrm (a b c : point3) : option point3 := Some (0, 0, 0).
Definition lay : list (Z * Z * bool) := [(0, 7, false)].
Definition p3eqb (a b : point3) : bool := if p3_eq_dec a b then true else false.
Fixpoint pfind (l : list point3) (v : point3) : option nat :=
  match l with
  | [] => None
  | q :: l => if p3eqb v q then Some 0%nat else option_map S (pfind l v)
  end.
Lemma pfind_finds : finds eq pfind.
Proof.
  split; [reflexivity|]. induction points as [|q l IH]; intros v i; cbn [pfind]; [discriminate|].
  unfold p3eqb. destruct (p3_eq_dec v q) as [ -> |N].
  - intros [= <-]. exists q. auto.
  - destruct (pfind l v) as [j|] eqn:E; [|discriminate]. intros [= <-]. apply IH, E.
Qed.

(** ** C23 *)

(** The triangles of a layer that is not flat form a closed surface. *)
Theorem C23_closed : forall normal zs zero one mone zi z0 z1 point tris ts,
  nth_error zs zi = Some (z0, z1, false) -> inner_balanced point tris ->
  put_poly normal zs zero one mone collect [] zi point tris = SOk ts -> balanced3 ts.
Proof. exact mesh_balanced. Qed.
(** They are written if no normal is infinite. *)
Theorem C23_written : forall normal zs zero one mone zi z0 z1 flat point tris,
  nth_error zs zi = Some (z0, z1, flat) -> indices_ok point tris ->
  (forall a b c, normal a b c <> None) ->
  exists ts, put_poly normal zs zero one mone collect [] zi point tris = SOk ts.
Proof. exact mesh_written. Qed.
Example C23_ex : inner_balanced sq_points sq_tris /\ indices_ok sq_points sq_tris /\
  exists ts, put_poly nrm lay 0 1 (-1) collect [] 0 sq_points sq_tris = SOk ts /\ length ts = 12%nat.
Proof.
  split; [|split].
  - intros a b. unfold sq_points, sq_tris. cbn [flat_map inner o01 o12 o20 p0 p1 p2 nth app].
    cbn [count_occ]. repeat destruct (e2_eq_dec _ _); try reflexivity; congruence.
  - intros t [<-|[<-|[]]]; cbn; lia.
  - eexists. split; reflexivity.
Qed.

(** ** C24 *)

(** [ts] are the triangles written, in order; [same] is how the reader compares points. *)
Theorem C24_roundtrip : forall f32 f64 find same normal zs zero one mone parse_text root ts,
  (forall x, 0 <= f32 x < 4294967296) -> finds same find ->
  put_csg2 normal zs zero one mone collect [] 0 root = SOk ts -> Z.of_nat (length ts) < 4294967296 ->
  exists f faces, write_bin normal zs zero one mone f32 root = SOk f /\
    length f = (84 + 50 * length ts)%nat /\ u32_at f 80 = Z.of_nat (length ts) /\
    stl_parse f64 find parse_text f = SOk faces /\
    Forall2 (fun face t => face_of same (map3 f64 (map3 f32 (t_a t))) (map3 f64 (map3 f32 (t_b t))) (map3 f64 (map3 f32 (t_c t))) face)
      faces ts.
Proof. exact roundtrip. Qed.
Example C24_roundtrip_ex :
  match write_bin nrm lay 0 1 1000 (fun x => x mod 4294967296) (Stack 0 [(Some [Poly sq_points sq_tris], 0%nat)]) with
  | SOk f => (length f, match stl_parse (fun x => x) pfind (fun _ => SErr) f with SOk faces => Some (length faces, nth 0 faces []) | _ => None end)
  | _ => (0%nat, None)
  end = (684%nat, Some (12%nat, [(1, 1, 7); (0, 0, 7); (0, 1, 7)])).
Proof. vm_compute. reflexivity. Qed.

(** ** C25 *)

Theorem C25_text : forall f, detect f = Text <-> starts_with_solid f.
Proof. exact detect_text. Qed.
Example C25_text_ex : detect (solid ++ [32; 120; 10]) = Text.
Proof. reflexivity. Qed.

(** Reading never accesses memory outside of the file and never fails otherwise than by reporting an error. *)
Theorem C25_safe : forall f64 find parse_text f,
  (forall points v i, find points v = Some i -> (i < length points)%nat) ->
  bytes f -> ~ starts_with_solid f ->
  (exists r, stl_parse f64 find parse_text f = SOk r) \/ stl_parse f64 find parse_text f = SErr.
Proof. exact read_safe. Qed.
Example C25_safe_ex : stl_parse (fun x => x) pfind (fun _ => SErr) (repeat 1 18) = SErr /\
  detect (repeat 1 18) = Binary /\ stl_parse (fun x => x) pfind (fun _ => SErr) (repeat 0 134) = SOk [].
Proof. repeat split; vm_compute; reflexivity. Qed.

(** A well-formed binary file is recognised and read completely if it does not start with 'solid'. *)
Theorem C25_binary_partial : forall f64 find same parse_text f,
  finds same find -> well_formed f -> ~ starts_with_solid f ->
  detect f = Binary /\
  exists r, stl_parse f64 find parse_text f = SOk r /\
    Forall2 (fun face i => face_of same (map3 f64 (corner_at f i 0)) (map3 f64 (corner_at f i 1)) (map3 f64 (corner_at f i 2)) face)
      r (seq 0 (Z.to_nat (u32_at f 80))).
Proof. exact read_ok. Qed.
Example C25_binary_ex : well_formed (repeat 0 80 ++ [1; 0; 0; 0] ++ repeat 7 50) /\
  ~ starts_with_solid (repeat 0 80 ++ [1; 0; 0; 0] ++ repeat 7 50).
Proof.
  split.
  - split; [|split].
    + unfold bytes. repeat (constructor; [lia|]). constructor.
    + cbn. lia.
    + reflexivity.
  - intros (r & E). discriminate E.
Qed.

(** The full statement: *)
Definition binary_full : Prop := forall f, well_formed f -> detect f = Binary.
(** It is false: the 80 bytes of header may be anything. *)
Theorem C25_binary_refuted : ~ binary_full.
Proof.
  intros H. specialize (H (solid ++ repeat 0 79)).
  assert (W : well_formed (solid ++ repeat 0 79)).
  { split; [|split].
    - unfold bytes, solid. cbn [app repeat]. repeat (constructor; [lia|]). constructor.
    - cbn. lia.
    - reflexivity. }
  specialize (H W). discriminate H.
Qed.

Print Assumptions C23_closed.
Print Assumptions C23_written.
Print Assumptions C24_roundtrip.
Print Assumptions C25_text.
Print Assumptions C25_safe.
Print Assumptions C25_binary_partial.
Print Assumptions C25_binary_refuted.
