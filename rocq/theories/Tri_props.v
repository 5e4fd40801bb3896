(** Theorems about the triangulation *)
From Coq Require Import ZArith List Bool Lia.
From Verif Require Import List_model Reduce_model Poly_model Tri_model Tri_spec Tri_proofs Tri_proofs2 Tri_proofs3 Tri_proofs4 Tri_proofs5.
Import ListNotations.
Open Scope Z_scope.

Lemma around_area : forall a b c, around area2 (a, b, c) = cross3_z a b c.
Proof. intros [ax ay] [bx by_] [cx cy]. unfold around, area2, cross3_z. cbn [fst snd]. ring. Qed.
Lemma area_odd : odd_fun area2.
Proof. intros [ax ay] [bx by_]. unfold area2. cbn [fst snd]. ring. Qed.

(** C28: cutting off triangles from a vertex p in one direction, in a well formed ring.  Each triangle that is added is clockwise and
    has a positive area.  For each function of lines that changes its sign with the direction (such as the area under the line, or
    its contribution to a winding number), the sum for the chain of vertices before is the sum for the chain after plus the sum
    for the triangles.  Only vertices of the chain were removed, the ends of the chain remain, and the ring is well formed again. *)
Theorem C28_flush : forall bk p M z fuel d L R d', seg all d L bk p M R z -> flush fuel p None bk d = Done d' ->
  exists L' R' new, seg all d' L' bk p M R' z
  /\ (forall u, on d' L' u <-> on d L u /\ (In u R -> In u R')) /\ incl R' R
  /\ tris d' = tris d ++ new /\ Forall (tri_ok (tpts d)) new
  /\ forall c, odd_fun c ->
       along c (map (xy d) (if bk then rev (p :: M ++ R) else p :: M ++ R)) = along c (map (xy d) (if bk then rev (p :: M ++ R') else p :: M ++ R')) + tsum c (tpts d) new.
Proof.
  intros bk p M z fuel d L R d' G H. destruct (flush_ok bk p M z fuel None d L R d' G I H) as (L' & R' & new & G' & S & T & O & C).
  exists L', R', new. split; [exact G'|split; [apply S|split; [apply S|split; [exact T|split; [exact O|]]]]].
  intros c Oc. specialize (C c Oc). destruct bk; [rewrite !map_rev, <- !csum_rev|rewrite <- !csum_fore]; exact C.
Qed.
(** It succeeds: no assertion fails, and there is no endless loop *)
Theorem C28_done : forall bk p M z fuel d L R, seg all d L bk p M R z -> (forall e, inner d e = true -> member_of e (tline d) = false) -> (2 * length R + 1 < fuel)%nat ->
  exists d', flush fuel p None bk d = Done d'.
Proof. intros bk p M z fuel d L R G H F. exact (flush_done bk p M z fuel None d L R G H I F). Qed.
(** The area: the triangles have the area that is missing in the chain *)
Theorem C28_area : forall p M z fuel d L R d', seg all d L false p M R z -> flush_fore fuel p d = Done d' ->
  exists R' new, tris d' = tris d ++ new
  /\ (forall t, In t new -> let '(a, b, c) := tri_xy (tpts d) t in 0 < cross3_z a b c)
  /\ along area2 (map (xy d) (p :: M ++ R)) = along area2 (map (xy d) (p :: M ++ R')) + fold_right Z.add 0 (map (fun t => let '(a, b, c) := tri_xy (tpts d) t in cross3_z a b c) new).
Proof.
  intros p M z fuel d L R d' G H. destruct (C28_flush false p M z fuel d L R d' G H) as (L' & R' & new & _ & _ & _ & T & O & C). exists R', new. split; [exact T|split].
  - intros t I. rewrite Forall_forall in O. apply (O t I).
  - rewrite (C area2 area_odd). f_equal. clear. induction new as [|t new IH]; [reflexivity|]. cbn [tsum map fold_right]. rewrite IH. unfold tri_xy at 1 2. rewrite around_area. reflexivity.
Qed.
(** The chain below is flushed from (4, 0) to the left: (4, 0), (2, -4), (1, -3), (0, 0), and then the right end of the edge at
    the top, which is not known yet *)
Definition ex_d : tdata := mk_tdata [4; 0]%nat
  (fun e => match e with 0%nat => mk_edge (0, 0) (9, 5) 1 | 1%nat => mk_edge (0, 0) (1, -3) 1 | 2%nat => mk_edge (1, -3) (2, -4) 1 | 3%nat => mk_edge (2, -4) (4, 0) 1 | _ => mk_edge (4, 0) (9, 0) 1 end)
  5%nat (fun e => match e with 0 => false | _ => true end%nat) (fun _ => false) (fun _ => false)
  (mk_heap (fun e => match e with 0 => 4 | 1 => 0 | 2 => 1 | 3 => 2 | _ => 3 end%nat) (fun e => match e with 0 => 1 | 1 => 2 | 2 => 3 | 3 => 4 | _ => 0 end%nat))
  (fun v => match v with (0, false) => Some 0 | (1, false) => Some 0 | (1, true) => Some 1 | (2, false) => Some 1 | (2, true) => Some 2 | (3, false) => Some 2 | (3, true) => Some 3 | (4, false) => Some 3 | _ => None end%nat)
  (fun _ => None) (fun _ => false) [(0, 0); (1, -3); (2, -4); (4, 0)] [].
Definition ex_R : list vx := [(3, false); (2, true); (2, false); (1, true); (1, false); (0, false); (0, true)]%nat.
Lemma ex_seg : seg all ex_d [0; 1; 2; 3; 4]%nat false (4, false)%nat [(3, true)%nat] ex_R (0, true)%nat.
Proof.
  assert (FIN : forall (Q : nat -> Prop), Q 0%nat -> Q 1%nat -> Q 2%nat -> Q 3%nat -> Q 4%nat -> forall e, In e [0; 1; 2; 3; 4]%nat -> Q e).
  { intros Q H0 H1 H2 H3 H4 e I. simpl in I. repeat (destruct I as [<-|I]; [assumption|]). destruct I. }
  constructor.
  - constructor.
    + repeat (apply NoDup_cons; [simpl; intros H; repeat (destruct H as [H|H]; [discriminate|]); exact H|]). apply NoDup_nil.
    + intros e b I. revert b. revert e I. match goal with |- forall e, In e _ -> @?Q e => apply (FIN Q) end; intros [|]; cbn; tauto.
    + intros e b I. revert b. revert e I. match goal with |- forall e, In e _ -> @?Q e => apply (FIN Q) end; intros [|]; reflexivity.
    + intros v _ H. discriminate.
    + intros v _ H. discriminate.
    + intros [e s] i I. cbn [fst] in I. revert s i. revert e I. match goal with |- forall e, In e _ -> @?Q e => apply (FIN Q) end; intros [|] i H; cbn in H; first [discriminate|injection H as <-; reflexivity].
    + repeat (apply NoDup_cons; [simpl; intros H; repeat (destruct H as [H|H]; [discriminate|]); exact H|]). apply NoDup_nil.
    + match goal with |- forall e, In e _ -> @?Q e => apply (FIN Q) end; discriminate.
  - intros b [e s] (I & _) _ _. cbn [fst] in I. revert b s. revert e I. match goal with |- forall e, In e _ -> @?Q e => apply (FIN Q) end; intros [|] [|] N V1 V2 X; cbn in *; first [discriminate|congruence|reflexivity].
  - repeat (apply Forall_cons; [split; [cbn; tauto|reflexivity]|]). apply Forall_nil.
  - repeat (apply NoDup_cons; [simpl; intros H; repeat (destruct H as [H|H]; [discriminate|]); exact H|]). apply NoDup_nil.
  - cbn. tauto.
  - exists [(3, false); (2, true); (2, false); (1, true); (1, false); (0, false)]%nat. reflexivity.
  - intros u I N. simpl in I. repeat (destruct I as [<-|I]; [first [reflexivity|exfalso; apply N; reflexivity]|]). destruct I.
  - left. split; reflexivity.
  - right. exists (3, true)%nat. repeat split.
Qed.
Example C28_flush_ex : (forall e, inner ex_d e = true -> member_of e (tline ex_d) = false) /\ seg all ex_d [0; 1; 2; 3; 4]%nat false (4, false)%nat [(3, true)%nat] ex_R (0, true)%nat
  /\ match flush_fore 20 (4, false)%nat ex_d with
     | Done d' => map (tri_xy (tpts d')) (tris d') = [((4, 0), (2, -4), (1, -3)); ((4, 0), (1, -3), (0, 0))] /\ tsum area2 (tpts d') (tris d') = 18
       /\ along area2 (map (xy ex_d) ((4, false) :: (3, true) :: ex_R)%nat) = 18
     | _ => False
     end.
Proof. split; [discriminate|]. split; [exact ex_seg|]. vm_compute. repeat split. Qed.

Print Assumptions C28_flush.
Print Assumptions C28_done.
Print Assumptions C28_area.
