(** C39: rotate_extrude yields closed surfaces that are oriented alike *)
From Coq Require Import List Bool Arith Lia ZifyBool QArith Lqa.
From Verif Require Import Mesh_spec Mesh_proofs Tower_model Tower_spec Tower_proofs Tower_proofs2 Rot_model Rot_spec Rot_proofs Rot_proofs2 Rot_proofs3.
Import ListNotations.
Local Open Scope nat_scope.

(** ** C39: for each polygon that is not on both sides of the axis (and not completely on it), all paths and all numbers of segments, no assertion
    fails and the surfaces are balanced; they are closed if no point is used twice *)
Theorem C39_rotext : forall zero p2 paths m (full : bool) cs seg, paths <> [] -> paths_ok (length p2) paths ->
  ~ (on_left zero p2 /\ on_right zero p2) -> on_left zero p2 \/ on_right zero p2 ->
  (if full then 2 else 1) <= seg < length cs ->
  exists l, rotext zero p2 paths m full cs seg = Ok l /\ length l = (if full then 2 else 1) /\ (forall r, In r l -> good paths r) /\
  (* the volume: the sum of the sines of the steps times the first moment of the polygon *)
  forall left : bool, (left = true <-> on_left zero p2) -> simple_paths paths ->
  (qsum (fun r => volume (fst r) (snd r)) l ==
   (if full then - (1) else 1) * (if left then - (1) else 1) * qabs (det m) * turning cs 0 seg * moment zero p2 paths)%Q.
Proof.
  intros zero p2 paths m full cs seg NE POK NB OFF SEG. unfold rotext. replace (length paths =? 0) with false by (symmetry; apply Nat.eqb_neq; destruct paths; [congruence|discriminate]).
  rewrite partition_ok. cbn [Nat.add orb]. set (hf := existsb _ p2). set (ht := existsb _ p2).
  assert (HT : ht = true <-> on_left zero p2).
  { unfold ht. rewrite existsb_exists. unfold on_left, axq, isneg. split; intros (q & I & H); exists q; (split; [exact I|]).
    - apply andb_true_iff in H. destruct H as (H1 & H2). apply negb_true_iff in H1. split; [exact H1|]. apply negb_true_iff in H2. apply Qnot_le_lt. intros K. apply Qle_bool_iff in K. congruence.
    - destruct H as (-> & H). cbn. apply negb_true_iff. destruct (Qle_bool 0 (fst q)) eqn:E; [|reflexivity]. apply Qle_bool_iff in E. apply Qle_not_lt in E. contradiction. }
  assert (HF : hf = true <-> on_right zero p2).
  { unfold hf. rewrite existsb_exists. unfold on_right, axq, isneg. split; intros (q & I & H); exists q; (split; [exact I|]).
    - apply andb_true_iff in H. destruct H as (H1 & H2). apply negb_true_iff in H1. split; [exact H1|]. rewrite negb_involutive in H2. apply Qle_bool_iff. exact H2.
    - destruct H as (-> & H). cbn. rewrite negb_involutive. apply Qle_bool_iff. exact H. }
  replace (hf && ht) with false. 2:{ symmetry. destruct hf eqn:E1, ht eqn:E2; try reflexivity. exfalso. apply NB. split; [apply HT|apply HF]; reflexivity. }
  replace (length (filter (fun q => negb (axq zero q)) p2) =? 0) with false.
  2:{ symmetry. apply Nat.eqb_neq. intros E. apply length_zero_iff_nil in E. assert (K : exists q, In q p2 /\ zero (fst q) = false).
      { destruct OFF as [(q & I & H & _)|(q & I & H & _)]; exists q; tauto. }
      destruct K as (q & I & H). assert (J : In q (filter (fun q => negb (axq zero q)) p2)) by (apply filter_In; split; [exact I|unfold axq; rewrite H; reflexivity]). rewrite E in J. destruct J. }
  fold (idx zero p2). fold (n0 zero p2).
  assert (L : forall left : bool, (left = true <-> on_left zero p2) -> left = ht). { intros left E. apply eq_true_iff_eq. rewrite E. symmetry. exact HT. }
  clearbody hf ht.
  destruct full.
  - assert (D : seg / 2 + (seg + 1) / 2 = seg) by (destruct (Nat.Even_or_Odd seg) as [(k & ->)|(k & ->)];
      [replace (2 * k) with (k * 2) by lia; rewrite Nat.div_mul by lia; replace (k * 2 + 1) with (1 + k * 2) by lia; rewrite Nat.div_add by lia; cbn; lia
      |replace (2 * k + 1 + 1) with ((k + 1) * 2) by lia; rewrite Nat.div_mul by lia; replace (2 * k + 1) with (1 + k * 2) by lia; rewrite Nat.div_add by lia; cbn; lia]).
    assert (D1 : 1 <= seg / 2) by (apply Nat.div_le_lower_bound; lia). assert (D2 : 1 <= (seg + 1) / 2) by (apply Nat.div_le_lower_bound; lia).
    set (m1 := seg / 2) in *. set (m2 := (seg + 1) / 2) in *.
    destruct (arc_good zero p2 paths m cs (m1 + 1) ht POK ltac:(lia)) as (r1 & -> & G1 & V1). cbn [lift].
    destruct (arc_good zero p2 paths m (skipn m1 cs) (m2 + 1) ht POK ltac:(rewrite skipn_length; lia)) as (r2 & -> & G2 & V2). cbn [lift].
    exists [r1; r2]. split; [reflexivity|]. split; [reflexivity|]. split; [intros r [<-|[<-|[]]]; assumption|].
    intros left E SIM. rewrite (L left E). rewrite !qsum_cons, qsum_nil, V1, V2 by exact SIM. rewrite turning_skipn, !Nat.add_sub, <- D, turning_split.
    destruct ht; ring.
  - destruct (arc_good zero p2 paths m cs (seg + 1) (negb ht) POK ltac:(lia)) as (r & -> & G & VV). cbn [lift].
    exists [r]. split; [reflexivity|]. split; [reflexivity|]. split; [intros r' [<-|[]]; exact G|].
    intros left E SIM. rewrite (L left E). rewrite qsum_cons, qsum_nil, VV by exact SIM. rewrite Nat.add_sub. destruct ht; cbn [negb]; ring.
Qed.

(** A square that touches the axis, with 4 segments: two halves of a cylinder *)
Definition iszero (x : Q) : bool := Qeq_bool x 0.
Definition square : list (Q * Q) := [(0, 0); (1, 0); (1, 1); (0, 1)]%Q.
Definition quarter : list (Q * Q) := [(-(1), 0); (0, 1); (1, 0); (0, -(1)); (-(1), 0)]%Q.
Example C39_ex : match rotext iszero square [[3; 2; 1; 0]] unit_mat true quarter 4 with Ok [(p, f); (p', f')] =>
    f = [[1; 3; 5]; [3; 2; 4; 5]; [2; 0; 4]; [1; 5; 7]; [5; 4; 6; 7]; [4; 0; 6]; [0; 2; 3; 1]; [1; 7; 6; 0]] /\ (volume p f + volume p' f' == - (12))%Q | _ => False end.
Proof. vm_compute. split; reflexivity. Qed.
Example C39_ex_hyps : paths_ok (length square) [[3; 2; 1; 0]] /\ simple_paths [[3; 2; 1; 0]] /\ on_right iszero square /\ ~ on_left iszero square /\ (turning quarter 0 4 == - (4))%Q /\
  (moment iszero square [[3; 2; 1; 0]%nat] == - (3))%Q.
Proof.
  split; [intros i I; cbn in *; lia|]. split.
  - split; [cbn; repeat constructor; cbn; lia|]. intros p [<-|[]]. cbn. lia.
  - split; [exists (1, 0)%Q; split; [cbn; tauto|split; [reflexivity|vm_compute; discriminate]]|]. split; [|split; vm_compute; reflexivity].
    intros (q & I & _ & H). cbn in I. repeat (destruct I as [<-|I]; [vm_compute in H; discriminate|]). destruct I.
Qed.

(** ** C39: a polygon on both sides of the axis is refused *)
Theorem C39_both : forall zero p2 paths m full cs seg, paths <> [] -> on_left zero p2 -> on_right zero p2 -> rotext zero p2 paths m full cs seg = Msg.
Proof.
  intros zero p2 paths m full cs seg NE (q & I & Z & H) (q' & I' & Z' & H'). unfold rotext. replace (length paths =? 0) with false by (symmetry; apply Nat.eqb_neq; destruct paths; [congruence|discriminate]).
  rewrite partition_ok. cbn [orb].
  replace (existsb (fun q => negb (axq zero q) && negb (isneg q)) p2) with true.
  2:{ symmetry. apply existsb_exists. exists q'. split; [exact I'|]. unfold axq, isneg. rewrite Z', negb_involutive. apply Qle_bool_iff. exact H'. }
  replace (existsb (fun q => negb (axq zero q) && isneg q) p2) with true; [reflexivity|].
  symmetry. apply existsb_exists. exists q. split; [exact I|]. unfold axq, isneg. rewrite Z. cbn. apply negb_true_iff.
  destruct (Qle_bool 0 (fst q)) eqn:E; [|reflexivity]. apply Qle_bool_iff in E. apply Qle_not_lt in E. contradiction.
Qed.
Example C39_both_ex : rotext iszero [(-(1), 0); (1, 0); (0, 1)]%Q [[0; 1; 2]] unit_mat false quarter 2 = Msg.
Proof. vm_compute. reflexivity. Qed.

Print Assumptions C39_rotext.
Print Assumptions C39_both.
