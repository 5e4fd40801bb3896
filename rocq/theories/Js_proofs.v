(** Proofs about the output of triangles as scenes *)
From Coq Require Import ZArith List Bool Lia.
From Verif Require Import Js_model Js_spec.
Import ListNotations.
Open Scope nat_scope.

Definition cur (c : ctxt) (i : nat) : triangle := (vtx c (3 * i), vtx c (3 * i + 1), vtx c (3 * i + 2)).
Definition J (c : ctxt) (T : list triangle) : Prop :=
  v_cnt c = 3 * tri_cnt c /\ v_cnt c <= VERTEX_CNT /\ (forall i, i < tri_cnt c -> tri c i = (3 * i, 3 * i + 1, 3 * i + 2)) /\
  Forall full (out c) /\ Forall scene_fits (out c) /\ exists T0, read (out c) = Some T0 /\ T = T0 ++ map (cur c) (seq 0 (tri_cnt c)).

Lemma look_seq : forall (f : nat -> vertex) n i, i < n -> look (map f (seq 0 n)) (Z.of_nat i) = Some (f i).
Proof.
  intros f n i H. unfold look. destruct (Z.ltb_spec (Z.of_nat i) 0); [lia|]. rewrite Nat2Z.id.
  rewrite nth_error_map. rewrite (nth_error_nth' _ 0) by (rewrite seq_length; lia). rewrite seq_nth by lia. reflexivity.
Qed.
Lemma put_index_len : forall tri n i last, length (put_index tri i n last) = 3 * n.
Proof.
  induction n as [|n IH]; intros; [reflexivity|]. cbn [put_index]. destruct (tri i) as [[a b] d]. cbn [idx_val length]. rewrite IH. lia.
Qed.
Lemma index_read : forall c N n i last, i + n <= N -> (forall j, j < N -> tri c j = (3 * j, 3 * j + 1, 3 * j + 2)) ->
  group3 (map (vtx c) (seq 0 (3 * N))) (undelta last (put_index (tri c) i n last)) = Some (map (cur c) (seq i n)).
Proof.
  induction n as [|n IH]; intros i last H T; [reflexivity|]. cbn [put_index]. rewrite T by lia. unfold idx_val.
  cbn [undelta]. replace (last + (Z.of_nat (3 * i) - last))%Z with (Z.of_nat (3 * i)) by lia.
  replace (Z.of_nat (3 * i) + (Z.of_nat (3 * i + 1) - Z.of_nat (3 * i)))%Z with (Z.of_nat (3 * i + 1)) by lia.
  replace (Z.of_nat (3 * i + 1) + (Z.of_nat (3 * i + 2) - Z.of_nat (3 * i + 1)))%Z with (Z.of_nat (3 * i + 2)) by lia.
  cbn [group3]. rewrite !look_seq by lia. rewrite IH by (assumption || lia). reflexivity.
Qed.
Lemma read_app : forall a b A B, read a = Some A -> read b = Some B -> read (a ++ b) = Some (A ++ B).
Proof.
  induction a as [|s a IH]; intros b A B HA HB; cbn [read app] in *.
  - injection HA as <-. exact HB.
  - destruct (read_scene s) as [x|]; [|discriminate]. destruct (read a) as [y|]; [|discriminate]. injection HA as <-.
    rewrite (IH b y B eq_refl HB). rewrite app_assoc. reflexivity.
Qed.
Lemma flush_read : forall c T, J c T -> read (out (scene_flush c)) = Some T /\ Forall scene_fits (out (scene_flush c)) /\ packed (out (scene_flush c)).
Proof.
  intros c T (V & L & TR & FU & F & T0 & R & ->). repeat match goal with |- _ /\ _ => split end.
  - unfold scene_flush. cbn [out]. destruct (Nat.ltb_spec 0 (tri_cnt c)) as [P|P].
    + apply read_app; [exact R|]. cbn [read]. unfold read_scene. cbn [fst snd]. rewrite V, index_read by (assumption || lia). rewrite app_nil_r. reflexivity.
    + replace (tri_cnt c) with 0 by lia. cbn [seq map]. rewrite app_nil_r. exact R.
  - unfold scene_flush. cbn [out]. destruct (Nat.ltb_spec 0 (tri_cnt c)) as [P|P]; [|exact F]. apply Forall_app. split; [exact F|].
    constructor; [|constructor]. unfold scene_fits. cbn [fst snd]. rewrite put_index_len, map_length, seq_length.
    change (Z.to_nat 65535) with VERTEX_CNT. lia.
  - unfold scene_flush. cbn [out]. destruct (Nat.ltb_spec 0 (tri_cnt c)) as [P|P].
    + eexists _, [_]. split; [reflexivity|]. split; [exact FU|]. apply le_n.
    + exists (out c), []. rewrite app_nil_r. split; [reflexivity|]. split; [exact FU|]. apply Nat.le_0_l.
Qed.
Lemma flush_J : forall c T, J c T -> VERTEX_CNT < v_cnt c + 3 -> J (scene_flush c) T /\ tri_cnt (scene_flush c) = 0.
Proof.
  intros c T H G. destruct (flush_read _ _ H) as (RR & SF & _). destruct H as (V & L & TR & FU & F & T0 & R & ->).
  split; [|reflexivity].
  unfold J. repeat match goal with |- _ /\ _ => split end.
  - reflexivity.
  - cbn. apply Nat.le_0_l.
  - intros i H. cbn in H. lia.
  - unfold scene_flush. cbn [out]. destruct (Nat.ltb_spec 0 (tri_cnt c)) as [P|P]; [|exact FU]. apply Forall_app. split; [exact FU|].
    constructor; [|constructor]. unfold full. cbn [fst snd]. rewrite map_length, seq_length.
    unfold VERTEX_CNT in *. lia.
  - exact SF.
  - eexists. split; [exact RR|]. unfold scene_flush at 1. cbn [tri_cnt]. cbn [seq map]. rewrite app_nil_r. reflexivity.
Qed.

Lemma J_ext : forall c T c', J c T -> v_cnt c' = v_cnt c + 3 -> v_cnt c' <= VERTEX_CNT -> tri_cnt c' = tri_cnt c + 1 ->
  out c' = out c -> (forall i, i < tri_cnt c -> tri c' i = tri c i) ->
  tri c' (tri_cnt c) = (v_cnt c, v_cnt c + 1, v_cnt c + 2) -> (forall i, i < v_cnt c -> vtx c' i = vtx c i) ->
  J c' (T ++ [(vtx c' (v_cnt c), vtx c' (v_cnt c + 1), vtx c' (v_cnt c + 2))]).
Proof.
  intros c T c' (V & L & TR & FU & F & T0 & R & ->) E1 E2 E3 E4 E5 E6 E7.
  unfold J. repeat match goal with |- _ /\ _ => split end.
  - lia.
  - exact E2.
  - intros i H. rewrite E3 in H. destruct (Nat.eq_dec i (tri_cnt c)) as [->|]; [rewrite E6, V; reflexivity|]. rewrite E5 by lia. apply TR. lia.
  - rewrite E4. exact FU.
  - rewrite E4. exact F.
  - exists T0. rewrite E4. split; [exact R|]. rewrite E3. replace (tri_cnt c + 1) with (S (tri_cnt c)) by lia. rewrite seq_S, map_app, app_assoc. cbn [map Nat.add]. f_equal; [f_equal|].
    + apply map_ext_in. intros i Hi. apply in_seq in Hi. unfold cur. rewrite !E7 by lia. reflexivity.
    + unfold cur. rewrite <- V. reflexivity.
Qed.

Lemma mask_small : forall n, n < VERTEX_CNT -> VERTEX_MASK n = n.
Proof. intros n H. unfold VERTEX_MASK. apply Nat.mod_small. unfold VERTEX_CNT in H. lia. Qed.

Lemma put_room : forall c T, J c T ->
  let c' := if (VERTEX_CNT <? v_cnt c + 3) || (VERTEX_CNT <? tri_cnt c + 1) then scene_flush c else c in
  J c' T /\ v_cnt c' + 3 <= VERTEX_CNT /\ tri_cnt c' < VERTEX_CNT.
Proof.
  intros c T H. cbn zeta.
  destruct (Nat.ltb_spec VERTEX_CNT (v_cnt c + 3)) as [G|G]; cbn [orb].
  - destruct (flush_J _ _ H G) as (A & B). split; [exact A|]. rewrite B. unfold scene_flush. cbn [v_cnt]. unfold VERTEX_CNT. lia.
  - destruct H as (V & H'). destruct (Nat.ltb_spec VERTEX_CNT (tri_cnt c + 1)); [lia|]. split; [split; assumption|]. lia.
Qed.

Lemma nth_pt : forall pts k, k < length pts -> nth_error pts k = Some (pt pts k).
Proof. intros. apply nth_error_nth'. assumption. Qed.

Lemma triangle_J : forall c T pts zi n k1 i1 k2 i2 k3 i3, J c T -> k1 < length pts -> k2 < length pts -> k3 < length pts ->
  exists c', triangle_put c pts zi n k1 i1 k2 i2 k3 i3 = Some c' /\ J c' (T ++ [(vt n pts zi k1 i1, vt n pts zi k2 i2, vt n pts zi k3 i3)]).
Proof.
  intros c T pts zi n k1 i1 k2 i2 k3 i3 H H1 H2 H3. unfold triangle_put.
  destruct (put_room _ _ H) as (A & B & D). cbn zeta in *.
  set (c' := if (VERTEX_CNT <? v_cnt c + 3) || (VERTEX_CNT <? tri_cnt c + 1) then scene_flush c else c) in *. clearbody c'. clear c H.
  rewrite !nth_pt by assumption. cbn [obind].
  destruct (Nat.ltb_spec (tri_cnt c') VERTEX_CNT); [|lia]. cbn [negb].
  rewrite !mask_small by lia.
  unfold store_vertex.
  destruct (Nat.ltb_spec (v_cnt c') VERTEX_CNT); [|lia]. cbn [obind].
  destruct (Nat.ltb_spec (v_cnt c' + 1) VERTEX_CNT); [|lia]. cbn [obind].
  destruct (Nat.ltb_spec (v_cnt c' + 2) VERTEX_CNT); [|lia].
  eexists. split; [reflexivity|].
  match goal with |- J ?x _ => set (c'' := x) end.
  assert (V0 : vtx c'' (v_cnt c') = vt n pts zi k1 i1).
  { unfold c''. cbn [vtx]. unfold upd. destruct (Nat.eqb_spec (v_cnt c') (v_cnt c' + 2)); [lia|]. destruct (Nat.eqb_spec (v_cnt c') (v_cnt c' + 1)); [lia|].
    rewrite Nat.eqb_refl. reflexivity. }
  assert (V1 : vtx c'' (v_cnt c' + 1) = vt n pts zi k2 i2).
  { unfold c''. cbn [vtx]. unfold upd. destruct (Nat.eqb_spec (v_cnt c' + 1) (v_cnt c' + 2)); [lia|]. rewrite Nat.eqb_refl. reflexivity. }
  assert (V2 : vtx c'' (v_cnt c' + 2) = vt n pts zi k3 i3).
  { unfold c''. cbn [vtx]. unfold upd. rewrite Nat.eqb_refl. reflexivity. }
  rewrite <- V0, <- V1, <- V2. apply J_ext.
  - exact A.
  - reflexivity.
  - unfold c''. cbn [v_cnt]. lia.
  - reflexivity.
  - reflexivity.
  - intros i Hi. unfold c''. cbn [tri]. unfold upd. destruct (Nat.eqb_spec i (tri_cnt c')); [lia|reflexivity].
  - unfold c''. cbn [tri]. unfold upd. rewrite Nat.eqb_refl. reflexivity.
  - intros i Hi. unfold c''. cbn [vtx]. unfold upd.
    destruct (Nat.eqb_spec i (v_cnt c' + 2)); [lia|]. destruct (Nat.eqb_spec i (v_cnt c' + 1)); [lia|]. destruct (Nat.eqb_spec i (v_cnt c')); [lia|]. reflexivity.
Qed.

Definition does (f : ctxt -> option ctxt) (l : list triangle) : Prop := forall c T, J c T -> exists c', f c = Some c' /\ J c' (T ++ l).
Lemma does_bind : forall f g a b, does f a -> does g b -> does (fun c => obind (f c) g) (a ++ b).
Proof.
  intros f g a b F G c T H. destruct (F c T H) as (c1 & E1 & J1). destruct (G c1 _ J1) as (c2 & E2 & J2).
  exists c2. rewrite E1. cbn [obind]. split; [exact E2|]. rewrite app_assoc. exact J2.
Qed.
Lemma does_none : does Some [].
Proof. intros c T H. exists c. rewrite app_nil_r. auto. Qed.
Lemma does_when : forall (b : bool) f a, (b = true -> does f a) -> does (when b f) (if b then a else []).
Proof. intros [|] f a H; [exact (H eq_refl)|apply does_none]. Qed.
Lemma does_each : forall A (f : ctxt -> A -> option ctxt) (g : A -> list triangle) l, (forall x, In x l -> does (fun c => f c x) (g x)) ->
  does (fun c => each f c l) (flat_map g l).
Proof.
  induction l as [|x l IH]; intros H; [apply does_none|]. cbn [flat_map]. intros c T HJ. cbn [each].
  apply (does_bind (fun c => f c x) (fun c => each f c l)); [apply H; left; reflexivity|apply IH; intros; apply H; right; assumption|exact HJ].
Qed.
Lemma does_tri : forall pts zi n k1 i1 k2 i2 k3 i3, k1 < length pts -> k2 < length pts -> k3 < length pts ->
  does (fun c => triangle_put c pts zi n k1 i1 k2 i2 k3 i3) [(vt n pts zi k1 i1, vt n pts zi k2 i2, vt n pts zi k3 i3)].
Proof. intros. intros c T H'. apply triangle_J; assumption. Qed.
Lemma does_edge : forall pts zi j k, j < length pts -> k < length pts -> does (fun c => outline_edge c pts zi j k) (edge_tris pts zi j k).
Proof.
  intros pts zi j k Hj Hk c T H. unfold outline_edge. rewrite !nth_pt by assumption. cbn [obind].
  apply (does_bind (fun c => triangle_put c pts zi (Side (pt pts j) (pt pts k)) k false j true k true) (fun c => triangle_put c pts zi (Side (pt pts j) (pt pts k)) k false j false j true)
    [_] [_] (does_tri _ _ _ _ _ _ _ _ _ Hk Hj Hk) (does_tri _ _ _ _ _ _ _ _ _ Hk Hj Hj) c T H).
Qed.
Lemma flat_map_one : forall A B (f : A -> B) l, flat_map (fun x => [f x]) l = map f l.
Proof. induction l as [|x l IH]; cbn; [reflexivity|]. rewrite IH. reflexivity. Qed.
Lemma does_poly : forall thick zi r, zi < length thick -> poly_ok r -> does (fun c => poly_put thick c zi r) (poly_tris (nth zi thick false) zi r).
Proof.
  intros thick zi r Hz (OB & OA & OL) c T H. unfold poly_put, poly_tris. rewrite (nth_error_nth' thick false Hz). cbn [obind].
  set (th := nth zi thick false). clearbody th. revert c T H.
  set (top := match diff_above r with Some g => g | None => body r end).
  assert (OT : gon_ok top) by (unfold top; destruct (diff_above r); auto). clearbody top.
  set (bot := match (if th then diff_below r else None) with Some g => g | None => body r end).
  assert (OBO : gon_ok bot) by (unfold bot; destruct th; [destruct (diff_below r)|]; auto). clearbody bot.
  match goal with |- forall c T, J c T -> exists c', @?f c = Some c' /\ J c' (T ++ ?l) => change (does f l) end.
  cbn beta. refine (does_bind (when th _) _ _ _ _ _).
  - apply does_when. intros _. rewrite <- flat_map_one. apply (does_each _ (fun c t => triangle_put c (fst top) zi Up (p1 t) true (p0 t) true (p2 t) true)).
    intros t Ht. destruct (OT t Ht) as (B0 & B1 & B2). apply does_tri; assumption.
  - refine (does_bind (fun c => each _ c _) _ _ _ _ _).
    + rewrite <- flat_map_one. apply (does_each _ (fun c t => triangle_put c (fst bot) zi Down (p0 t) false (p1 t) false (p2 t) false)).
      intros t Ht. destruct (OBO t Ht) as (B0 & B1 & B2). apply does_tri; assumption.
    + apply does_when. intros _. refine (does_each _ _ _ _ _). intros t Ht. destruct (OB t Ht) as (B0 & B1 & B2). unfold tri_sides.
      refine (does_bind (when _ _) _ _ _ _ _); [apply does_when; intros _; apply does_edge; assumption|].
      refine (does_bind (when _ _) _ _ _ _ _); [apply does_when; intros _; apply does_edge; assumption|].
      apply does_when. intros _. apply does_edge; assumption.
Qed.

Fixpoint put_v (thick : list bool) (c : ctxt) (zi : nat) (l : list csg2) : option ctxt :=
  match l with [] => Some c | x :: l => obind (put thick c zi x) (fun c => put_v thick c zi l) end.
Fixpoint put_l (thick : list bool) (c : ctxt) (i : nat) (l : list (nat * list csg2)) : option ctxt :=
  match l with
  | [] => Some c
  | (z, root) :: l =>
    obind (match root with [] => Some c | _ => if i =? z then put_v thick c z root else None end) (fun c => put_l thick c (S i) l)
  end.
Lemma put_add : forall thick zi l c, put thick c zi (Add l) = put_v thick c zi l.
Proof.
  induction l as [|x l IH]; intros c; [reflexivity|]. change (put thick c zi (Add (x :: l))) with (obind (put thick c zi x) (fun c => put thick c zi (Add l))).
  cbn [put_v]. destruct (put thick c zi x) as [c'|]; [apply IH|reflexivity].
Qed.
Lemma put_stack : forall thick zi l i c, put thick c zi (Stack i l) = put_l thick c i l.
Proof.
  induction l as [|[z root] l IH]; intros i c; [reflexivity|].
  change (put thick c zi (Stack i ((z, root) :: l))) with
    (obind (match root with [] => Some c | _ => if i =? z then put thick c z (Add root) else None end) (fun c => put thick c zi (Stack (S i) l))).
  cbn [put_l]. rewrite put_add. match goal with |- obind ?x _ = _ => destruct x as [c'|] end; [apply IH|reflexivity].
Qed.
Lemma put_eq : forall thick c zi r, put thick c zi r =
  match r with
  | Poly p => poly_put thick c zi p
  | Add l => put_v thick c zi l
  | Sub a _ => put_v thick c zi a
  | Cut l => match l with [] => Some c | a :: _ => put_v thick c zi a end
  | Xor l => match l with [] => Some c | a :: _ => put_v thick c zi a end
  | Stack idx0 layers => put_l thick c idx0 layers
  | Other => None
  end.
Proof.
  intros. destruct r; try reflexivity; try apply put_add; try apply put_stack.
  - destruct l as [|a l]; [reflexivity|]. exact (put_add thick zi a c).
  - destruct l as [|a l]; [reflexivity|]. exact (put_add thick zi a c).
Qed.

Scheme shown_i := Induction for shown Sort Prop with shown_all_i := Induction for shown_all Sort Prop with shown_layers_i := Induction for shown_layers Sort Prop.
Combined Scheme shown_mut from shown_i, shown_all_i, shown_layers_i.
Definition all_ok (thick : list bool) (l : list (nat * poly)) : Prop := Forall (fun x => fst x < length thick /\ poly_ok (snd x)) l.
Lemma all_tris_app : forall thick a b, all_tris thick (a ++ b) = all_tris thick a ++ all_tris thick b.
Proof. intros. apply flat_map_app. Qed.
Lemma does_tree : forall thick,
  (forall zi r x, shown zi r x -> all_ok thick x -> does (fun c => put thick c zi r) (all_tris thick x)) /\
  (forall zi l x, shown_all zi l x -> all_ok thick x -> does (fun c => put_v thick c zi l) (all_tris thick x)) /\
  (forall i l x, shown_layers i l x -> all_ok thick x -> does (fun c => put_l thick c i l) (all_tris thick x)).
Proof.
  intros thick.
  apply (shown_mut (fun zi r x _ => all_ok thick x -> does (fun c => put thick c zi r) (all_tris thick x))
    (fun zi l x _ => all_ok thick x -> does (fun c => put_v thick c zi l) (all_tris thick x))
    (fun i l x _ => all_ok thick x -> does (fun c => put_l thick c i l) (all_tris thick x))).
  1-8: intros; intros c T HJ; rewrite put_eq.
  - inversion H as [|? ? [A B] ?]; subst. unfold all_tris. cbn [flat_map fst snd]. rewrite app_nil_r. apply does_poly; assumption.
  - apply (H H0); assumption.
  - apply (H H0); assumption.
  - apply does_none; assumption.
  - apply (H H0); assumption.
  - apply does_none; assumption.
  - apply (H H0); assumption.
  - apply (H H0); assumption.
  - intros; apply does_none.
  - intros zi r l x y S1 IH1 S2 IH2 OK. apply Forall_app in OK. destruct OK as (O1 & O2). rewrite all_tris_app. cbn [put_v].
    exact (does_bind (fun c => put thick c zi r) _ _ _ (IH1 O1) (IH2 O2)).
  - intros; apply does_none.
  - intros i z l y S1 IH OK c T HJ. cbn [put_l obind]. apply (IH OK); assumption.
  - intros i root l x y S1 IH1 S2 IH2 OK. apply Forall_app in OK. destruct OK as (O1 & O2). rewrite all_tris_app. cbn [put_l].
    refine (does_bind (fun c => match root with [] => Some c | _ => if i =? i then put_v thick c i root else None end) _ _ _ _ (IH2 O2)).
    intros c T HJ. destruct (IH1 O1 c T HJ) as (c' & E & HJ'). exists c'. split; [|exact HJ']. destruct root; [exact E|]. rewrite Nat.eqb_refl. exact E.
Qed.
