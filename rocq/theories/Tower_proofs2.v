(** Number of edges, and the volume of transformed towers *)
From Coq Require Import List Bool Arith Lia ZifyBool Permutation QArith Lqa.
From Verif Require Import Mesh_spec Mesh_proofs Tower_model Tower_spec Tower_proofs.
Import ListNotations.
Local Open Scope nat_scope.

Lemma edges_len : forall {A} (f : list A), length (edges f) = length f.
Proof. intros A [|x f]; [reflexivity|]. cbn [edges]. rewrite combine_length, app_length. cbn [length]. rewrite Nat.add_1_r. apply Nat.min_id. Qed.
Lemma all_edges_len : forall {A} (l : list (list A)), length (all_edges l) = length (concat l).
Proof. induction l as [|f l IH]; [reflexivity|]. unfold all_edges in *. cbn [flat_map concat]. rewrite !app_length, edges_len, IH. reflexivity. Qed.
Lemma concat_len : forall {A} k (l : list (list A)), (forall f, In f l -> length f = k) -> length (concat l) = length l * k.
Proof. induction l as [|f l IH]; intros H; cbn; [reflexivity|]. rewrite app_length, H by (left; reflexivity). rewrite IH; [reflexivity|]. intros. apply H. right. assumption. Qed.
Lemma turn_len : forall r f, length (turn r f) = length f.
Proof. intros [|] f; cbn; [apply rev_length|reflexivity]. Qed.
Lemma row_len : forall n k, length (row n k) = n.
Proof. intros. unfold row. rewrite map_length, seq_length. reflexivity. Qed.
Lemma faces_euler : forall npts fn m ht t r, 3 <= fn -> npts = (if ht : bool then m * fn + fn else m * fn + fn + 1) ->
  2 * npts + 2 * length (faces npts fn m ht t r) = length (all_edges (faces npts fn m ht t r)) + 4.
Proof.
  intros npts fn m ht t r N E. rewrite all_edges_len. unfold faces. cbn [concat length]. rewrite !concat_app, !app_length, turn_len, row_len.
  set (k := match t with TRI_NONE => 4 | _ => 3 end). set (c := match t with TRI_NONE => 1 | _ => 2 end).
  assert (LS : forall i j, length (sides fn t i j) = c) by (intros; destruct t; reflexivity).
  assert (LI : forall i, length (flat_map (fun j => map (turn (negb r)) (sides fn t i j)) (seq 0 fn)) = fn * c).
  { intros i. rewrite (flat_map_len _ c); [rewrite seq_length; reflexivity|]. intros. rewrite map_length. apply LS. }
  rewrite (concat_len k (flat_map _ _)).
  2:{ intros f I. apply in_flat_map in I. destruct I as (i & _ & I). apply in_flat_map in I. destruct I as (j & _ & I). apply in_map_iff in I. destruct I as (g & <- & I).
    rewrite turn_len. unfold sides in I. destruct t; cbn in I; repeat (destruct I as [<-|I]; [reflexivity|]); destruct I. }
  rewrite (flat_map_len _ (fn * c)) by (intros; apply LI). rewrite seq_length.
  destruct ht; cbn [concat length].
  - rewrite app_length, turn_len, row_len. cbn [length]. unfold k, c. destruct t; nia.
  - rewrite (concat_len 3), map_length, seq_length. 2:{ intros f I. apply in_map_iff in I. destruct I as (j & <- & _). rewrite turn_len. reflexivity. }
    unfold k, c. destruct t; nia.
Qed.
Lemma faces_3 : forall npts fn m ht t r p, 3 <= fn -> In p (faces npts fn m ht t r) -> 3 <= length p.
Proof.
  intros npts fn m ht t r p N I. unfold faces in I. destruct I as [<-|I]; [rewrite turn_len, row_len; exact N|].
  apply in_app_or in I. destruct I as [I|I]; [destruct ht; [|destruct I]; destruct I as [<-|[]]; rewrite turn_len, row_len; exact N|].
  apply in_app_or in I. destruct I as [I|I].
  - apply in_flat_map in I. destruct I as (i & _ & I). apply in_flat_map in I. destruct I as (j & _ & I). apply in_map_iff in I. destruct I as (g & <- & I).
    rewrite turn_len. unfold sides in I. destruct t; cbn in I; repeat (destruct I as [<-|I]; [cbn; lia|]); destruct I.
  - destruct ht; [destruct I|]. apply in_map_iff in I. destruct I as (j & <- & _). rewrite turn_len. cbn. lia.
Qed.

(** ** Volume *)
Local Open Scope Q_scope.
Lemma qsum_cons : forall {A} (f : A -> Q) x l, qsum f (x :: l) = f x + qsum f l.
Proof. reflexivity. Qed.
Lemma qsum_nil : forall {A} (f : A -> Q), qsum f [] = 0.
Proof. reflexivity. Qed.
Lemma qsum_plus : forall {A} (f g : A -> Q) l, qsum (fun x => f x + g x) l == qsum f l + qsum g l.
Proof. induction l as [|x l IH]; [reflexivity|]. rewrite !qsum_cons, IH. ring. Qed.
Lemma qsum_scale : forall {A} c (f : A -> Q) l, qsum (fun x => c * f x) l == c * qsum f l.
Proof. induction l as [|x l IH]; [rewrite !qsum_nil; ring|]. rewrite !qsum_cons, IH. ring. Qed.
Lemma qsum_ext : forall {A} (f g : A -> Q) l, (forall x, In x l -> f x == g x) -> qsum f l == qsum g l.
Proof. induction l as [|x l IH]; intros H; [reflexivity|]. rewrite !qsum_cons. rewrite (H x) by (left; reflexivity). rewrite IH; [reflexivity|]. intros. apply H. right. assumption. Qed.
Lemma qsum_app : forall {A} (f : A -> Q) a b, qsum f (a ++ b) == qsum f a + qsum f b.
Proof. induction a as [|x a IH]; intros b; [rewrite qsum_nil; cbn [app]; ring|]. cbn [app]. rewrite !qsum_cons, IH. ring. Qed.
Lemma qsum_perm : forall {A} (f : A -> Q) a b, Permutation a b -> qsum f a == qsum f b.
Proof. induction 1; rewrite ?qsum_cons; [reflexivity|rewrite IHPermutation; reflexivity|ring|rewrite IHPermutation1; exact IHPermutation2]. Qed.
Lemma qsum_map : forall {A B} (f : B -> Q) (g : A -> B) l, qsum f (map g l) == qsum (fun x => f (g x)) l.
Proof. induction l as [|x l IH]; [reflexivity|]. cbn [map]. rewrite !qsum_cons, IH. reflexivity. Qed.
Lemma qsum_const : forall {A} c (l : list A), qsum (fun _ => c) l == inject_Z (Z.of_nat (length l)) * c.
Proof.
  induction l as [|x l IH]; [rewrite qsum_nil; cbn; ring|]. rewrite qsum_cons, IH. cbn [length].
  rewrite Nat2Z.inj_succ. unfold Z.succ. rewrite inject_Z_plus. change (inject_Z 1) with 1. ring.
Qed.
Lemma map_fst_edges : forall {A} (f : list A), map fst (edges f) = f.
Proof.
  intros A [|x r]; [reflexivity|]. cbn [edges].
  assert (H : forall (a b : list A), length a = length b -> map fst (combine a b) = a).
  { induction a as [|y a IH]; intros [|z b] L; try discriminate; [reflexivity|]. cbn. rewrite IH; [reflexivity|]. cbn in L. lia. }
  apply H. rewrite app_length. cbn. lia.
Qed.
Lemma map_snd_edges : forall {A} (f : list A), Permutation (map snd (edges f)) f.
Proof.
  intros A [|x r]; [reflexivity|]. cbn [edges].
  assert (H : forall (a b : list A), length a = length b -> map snd (combine a b) = b).
  { induction a as [|y a IH]; intros [|z b] L; try discriminate; [reflexivity|]. cbn. rewrite IH; [reflexivity|]. cbn in L. lia. }
  rewrite H by (rewrite app_length; cbn; lia). symmetry. apply Permutation_cons_append.
Qed.
(** The sum of an odd function over a closed surface is 0 *)
Lemma odd_zero : forall {A} (g : A * A -> Q) l, (forall e, g (swap e) == - g e) -> closed l -> qsum g (all_edges l) == 0.
Proof.
  intros A g l O C. pose proof (qsum_perm g _ _ (closed_perm l C)) as E. rewrite qsum_map in E.
  rewrite (qsum_ext (fun e => g (swap e)) (fun e => -(1) * g e)) in E by (intros; rewrite O; ring). rewrite qsum_scale in E. lra.
Qed.

Section Xform.
Variables (m : mat3w) (P : nat -> vec3).
Definition lin (v : vec3) : vec3 := mk_vec3 (dot (r0 m) v) (dot (r1 m) v) (dot (r2 m) v).
Definition tau (a b : vec3) : Q := det3 (w m) (lin a) (lin b).
Lemma tau_odd : forall a b, tau b a == - tau a b.
Proof. intros. unfold tau, det3, lin. cbn. ring. Qed.
Lemma det_xform : forall p a b, det3 (xform m p) (xform m a) (xform m b) == det m * det3 p a b + tau a b + (tau p a - tau p b).
Proof.
  intros [p1 p2 p3] [a1 a2 a3] [b1 b2 b3]. unfold tau, det, det3, lin, xform, dot. destruct m as [[x0 y0 z0] [x1 y1 z1] [x2 y2 z2] [w0 w1 w2]]. cbn. ring.
Qed.
Lemma face_xform : forall f, (3 <= length f)%nat -> face_vol (fun i => xform m (P i)) f == det m * face_vol P f + qsum (fun e => tau (P (fst e)) (P (snd e))) (edges f).
Proof.
  intros f L. unfold face_vol. set (T := qsum (fun e => tau (P (fst e)) (P (snd e))) (edges f)). set (k := inject_Z (Z.of_nat (length f))).
  assert (K : ~ k == 0) by (unfold k, inject_Z, Qeq; cbn; lia).
  assert (E : qsum (fun p => qsum (fun e => det3 (xform m (P p)) (xform m (P (fst e))) (xform m (P (snd e)))) (edges f)) f ==
    det m * qsum (fun p => qsum (fun e => det3 (P p) (P (fst e)) (P (snd e))) (edges f)) f + k * T).
  { rewrite (qsum_ext _ (fun p => det m * qsum (fun e => det3 (P p) (P (fst e)) (P (snd e))) (edges f) + T)).
    - rewrite qsum_plus, qsum_scale, qsum_const. reflexivity.
    - intros p _. rewrite (qsum_ext _ (fun e => (det m * det3 (P p) (P (fst e)) (P (snd e)) + tau (P (fst e)) (P (snd e))) + (tau (P p) (P (fst e)) + -(1) * tau (P p) (P (snd e))))) by (intros e _; rewrite det_xform; ring).
      rewrite !qsum_plus, !qsum_scale.
      rewrite <- (qsum_map (fun i => tau (P p) (P i)) fst), <- (qsum_map (fun i => tau (P p) (P i)) snd).
      rewrite map_fst_edges, (qsum_perm _ _ _ (map_snd_edges f)). fold T. ring. }
  rewrite E. field. exact K.
Qed.
Lemma volume_xform : forall faces, closed faces -> (forall f, In f faces -> (3 <= length f)%nat) ->
  qsum (face_vol (fun i => xform m (P i))) faces == det m * qsum (face_vol P) faces.
Proof.
  intros faces C L.
  assert (E : qsum (face_vol (fun i => xform m (P i))) faces == det m * qsum (face_vol P) faces + qsum (fun e => tau (P (fst e)) (P (snd e))) (all_edges faces)).
  { clear C. induction faces as [|f l IH]; [change (all_edges (@nil (list nat))) with (@nil (nat * nat)); rewrite !qsum_nil; ring|]. unfold all_edges in *. cbn [flat_map]. rewrite !qsum_cons.
    rewrite qsum_app, IH by (intros; apply L; right; assumption). rewrite face_xform by (apply L; left; reflexivity). ring. }
  rewrite E, (odd_zero (fun e => tau (P (fst e)) (P (snd e)))); [ring| |exact C]. intros e. cbn. apply tau_odd.
Qed.
End Xform.
Lemma face_rev : forall P f, face_vol P (rev f) == - face_vol P f.
Proof.
  intros P f. unfold face_vol. rewrite rev_length. set (k := inject_Z (Z.of_nat (length f))).
  assert (E : qsum (fun p => qsum (fun e => det3 (P p) (P (fst e)) (P (snd e))) (edges (rev f))) (rev f) == -(1) * qsum (fun p => qsum (fun e => det3 (P p) (P (fst e)) (P (snd e))) (edges f)) f).
  { rewrite (qsum_perm _ _ _ (Permutation_sym (Permutation_rev f))). rewrite <- qsum_scale. apply qsum_ext. intros p _.
    rewrite (qsum_perm _ _ _ (edges_rev f)), qsum_map, <- qsum_scale. apply qsum_ext. intros e _. unfold swap, det3. cbn. ring. }
  rewrite E. unfold Qdiv. ring.
Qed.
Lemma volume_rev : forall P faces, qsum (face_vol P) (map (@rev nat) faces) == - qsum (face_vol P) faces.
Proof.
  intros P faces. rewrite qsum_map. rewrite (qsum_ext _ (fun f => -(1) * face_vol P f)) by (intros; rewrite face_rev; ring). rewrite qsum_scale. ring.
Qed.
Lemma face_vol_ext : forall P R f, (forall i, In i f -> P i = R i) -> face_vol P f == face_vol R f.
Proof.
  intros P R f H. unfold face_vol. rewrite (qsum_ext _ (fun p => qsum (fun e => det3 (R p) (R (fst e)) (R (snd e))) (edges f)) f); [reflexivity|].
  intros p I. apply qsum_ext. intros e Ie. rewrite (H p I), (H (fst e)), (H (snd e)); [reflexivity| |].
  - apply (Permutation_in _ (map_snd_edges f)). apply in_map. exact Ie.
  - rewrite <- (map_fst_edges f). apply in_map. exact Ie.
Qed.
Lemma volume_map : forall m pts faces, (forall i, In i (concat faces) -> (i < length pts)%nat) -> closed faces -> (forall f, In f faces -> (3 <= length f)%nat) ->
  volume (map (xform m) pts) faces == det m * volume pts faces.
Proof.
  intros m pts faces I C L. unfold volume. rewrite <- (volume_xform m _ faces C L). apply qsum_ext. intros f F. apply face_vol_ext. intros i K.
  rewrite (nth_indep _ _ (xform m (mk_vec3 0 0 0))); [apply map_nth|]. rewrite map_length. apply I. apply in_concat. exists f. split; assumption.
Qed.
Lemma good_faces : forall npts fn m ht t r, (3 <= fn)%nat -> npts = (if ht : bool then m * fn + fn else m * fn + fn + 1)%nat -> good_solid npts (faces npts fn m ht t r).
Proof.
  intros npts fn m ht t r N E. split; [intros i; apply faces_points; assumption|]. split; [intros p; apply faces_3; assumption|].
  split; [apply faces_closed; assumption|apply faces_euler; assumption].
Qed.
Lemma tower_good : forall npts fn fnz neg rv t (apex : bool), (3 <= fn)%nat -> (2 <= fnz)%nat -> npts = (if apex then fn * (fnz - 1) + 1 else fn * fnz)%nat ->
  exists f, tower npts fn fnz neg rv t = Some f /\ good_solid npts f /\ f = faces npts fn (fnz - b2n apex - 1) (negb apex) t (xorb neg rv).
Proof.
  intros npts fn fnz neg rv t apex N Z E. exists (faces npts fn (fnz - b2n apex - 1) (negb apex) t (xorb neg rv)). split; [|split; [|reflexivity]].
  - rewrite (tower_ok _ _ _ _ _ _ (negb apex)); [rewrite negb_involutive; reflexivity|assumption..|]. rewrite E. destruct apex; cbn [negb]; lia.
  - apply good_faces; [exact N|]. rewrite E. destruct apex; cbn [negb b2n]; nia.
Qed.
Lemma tower_flip : forall npts fn fnz rv t (apex : bool), (3 <= fn)%nat -> (2 <= fnz)%nat -> npts = (if apex then fn * (fnz - 1) + 1 else fn * fnz)%nat ->
  forall f, tower npts fn fnz false rv t = Some f -> exists g, tower npts fn fnz true rv t = Some g /\ (g = map (@rev nat) f \/ f = map (@rev nat) g).
Proof.
  intros npts fn fnz rv t apex N Z E f T.
  destruct (tower_good npts fn fnz false rv t apex N Z E) as (f' & T' & _ & F). rewrite T' in T. injection T as <-.
  destruct (tower_good npts fn fnz true rv t apex N Z E) as (g & G & _ & H). exists g. split; [exact G|].
  subst g f'. destruct rv; cbn [xorb].
  - left. apply faces_false.
  - right. apply faces_false.
Qed.
