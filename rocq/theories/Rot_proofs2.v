(** Rotational extrusion: the surface is balanced, and closed for simple paths *)
From Coq Require Import List Bool Arith Lia ZifyBool Permutation ZArith QArith.
From Verif Require Import Mesh_spec Mesh_proofs Tower_model Tower_spec Tower_proofs Tower_proofs2 Rot_model Rot_spec Rot_proofs.
Import ListNotations.
Local Open Scope nat_scope.

(** ** Sums of odd functions *)
Fixpoint zsum {A} (f : A -> Z) (l : list A) : Z := match l with [] => 0%Z | x :: l => (f x + zsum f l)%Z end.
Lemma zsum_app : forall {A} (f : A -> Z) a b, zsum f (a ++ b) = (zsum f a + zsum f b)%Z.
Proof. induction a as [|x a IH]; intros b; cbn; [reflexivity|]. rewrite IH. lia. Qed.
Lemma zsum_flat : forall {A B} (f : B -> Z) (g : A -> list B) l, zsum f (flat_map g l) = zsum (fun x => zsum f (g x)) l.
Proof. induction l as [|x l IH]; cbn; [reflexivity|]. rewrite zsum_app, IH. reflexivity. Qed.
Lemma zsum_ext : forall {A} (f g : A -> Z) l, (forall x, In x l -> f x = g x) -> zsum f l = zsum g l.
Proof. induction l as [|x l IH]; intros H; cbn; [reflexivity|]. rewrite H by (left; reflexivity). rewrite IH; [reflexivity|]. intros. apply H. right. assumption. Qed.
Lemma zsum_plus : forall {A} (f g : A -> Z) l, zsum (fun x => f x + g x)%Z l = (zsum f l + zsum g l)%Z.
Proof. induction l as [|x l IH]; cbn; [reflexivity|]. rewrite IH. lia. Qed.
Lemma zsum_opp : forall {A} (f : A -> Z) l, zsum (fun x => - f x)%Z l = (- zsum f l)%Z.
Proof. induction l as [|x l IH]; cbn; [reflexivity|]. rewrite IH. lia. Qed.
Lemma zsum_map : forall {A B} (f : B -> Z) (g : A -> B) l, zsum f (map g l) = zsum (fun x => f (g x)) l.
Proof. induction l as [|x l IH]; cbn; [reflexivity|]. rewrite IH. reflexivity. Qed.
Lemma zsum_perm : forall {A} (f : A -> Z) a b, Permutation a b -> zsum f a = zsum f b.
Proof. induction 1; cbn; lia. Qed.
Lemma zsum_zero : forall {A} (f : A -> Z) l, (forall x, In x l -> f x = 0%Z) -> zsum f l = 0%Z.
Proof. induction l as [|x l IH]; intros H; cbn; [reflexivity|]. rewrite H by (left; reflexivity). rewrite IH; [reflexivity|]. intros. apply H. right. assumption. Qed.
Lemma zsum_tele : forall (f : nat -> Z) n, zsum (fun j => f j - f (S j))%Z (seq 0 n) = (f 0%nat - f n)%Z.
Proof. induction n as [|n IH]; [cbn; lia|]. rewrite seq_S, zsum_app, IH. cbn. lia. Qed.

Definition odd (g : nat * nat -> Z) : Prop := forall e, g (swap e) = (- g e)%Z.
Lemma odd_pair : forall g a b, odd g -> g (b, a) = (- g (a, b))%Z.
Proof. intros g a b O. exact (O (a, b)). Qed.
Lemma odd_loop : forall g a, odd g -> g (a, a) = 0%Z.
Proof. intros g a O. pose proof (odd_pair g a a O). lia. Qed.
(** The signed number of occurrences *)
Definition signed (e x : nat * nat) : Z := ((if edge_dec x e then 1 else 0) - (if edge_dec x (swap e) then 1 else 0))%Z.
Lemma signed_odd : forall e, odd (signed e).
Proof.
  intros e x. unfold signed.
  assert (H1 : swap x = e <-> x = swap e) by (split; [intros <-; symmetry; apply swap_swap|intros ->; apply swap_swap]).
  assert (H2 : swap x = swap e <-> x = e) by (split; [intros E; rewrite <- (swap_swap x), E; apply swap_swap|intros ->; reflexivity]).
  destruct (edge_dec (swap x) e), (edge_dec (swap x) (swap e)), (edge_dec x e), (edge_dec x (swap e)); try reflexivity; exfalso; tauto.
Qed.
Lemma signed_count : forall e l, zsum (signed e) l = (Z.of_nat (count_occ edge_dec l e) - Z.of_nat (count_occ edge_dec l (swap e)))%Z.
Proof.
  intros e l. induction l as [|x l IH]; [reflexivity|]. cbn [zsum]. rewrite IH, !(count_cons edge_dec). unfold signed, one.
  destruct (edge_dec x e), (edge_dec x (swap e)); lia.
Qed.
Lemma balanced_odd : forall f, (forall g, odd g -> zsum g (all_edges f) = 0%Z) -> balanced f.
Proof. intros f H e. pose proof (H (signed e) (signed_odd e)) as K. rewrite signed_count in K. lia. Qed.
Lemma zsum_rev_edges : forall g f, odd g -> zsum g (all_edges (map (@rev nat) f)) = (- zsum g (all_edges f))%Z.
Proof. intros g f O. rewrite (zsum_perm _ _ _ (all_edges_rev f)), zsum_map, <- zsum_opp. apply zsum_ext. intros e _. apply O. Qed.

Section Rot.
Variables (zero : Q -> bool) (p2 : list (Q * Q)) (paths : list (list nat)) (s : nat).
Hypothesis (POK : paths_ok (length p2) paths) (S2 : 2 <= s).
Notation V := (V zero p2).
Notation ax := (ax zero p2).
Notation quad := (quad zero p2).
Notation PE := (all_edges paths).
Notation len := (length p2).

(** The edges of a side *)
Lemma quad_sum : forall g j e, odd g -> fst e < len -> snd e < len ->
  zsum g (all_edges (quad false j e)) =
  (g (V (fst e) j, V (snd e) j) + g (V (snd e) j, V (snd e) (S j)) + g (V (snd e) (S j), V (fst e) (S j)) + g (V (fst e) (S j), V (fst e) j))%Z.
Proof.
  intros g j [a b] O LA LB. cbn [fst snd] in *. unfold quad, Rot_proofs.quad, face4. cbn [fst snd]. rewrite !V_eqb by assumption.
  rewrite (Nat.eqb_sym b a), !Nat.eqb_refl. replace (j =? S j) with false by (symmetry; apply Nat.eqb_neq; lia). replace (S j =? S j) with true by (symmetry; apply Nat.eqb_refl).
  rewrite !orb_true_r, !orb_false_r.
  destruct (a =? b) eqn:AB.
  - apply Nat.eqb_eq in AB. subst b. destruct (ax a) eqn:A; cbn.
    + rewrite !(V_ax zero p2 a (S j) j) by exact A. rewrite !(odd_loop g _ O). reflexivity.
    + rewrite !(odd_loop g _ O), (odd_pair g (V a j) (V a (S j)) O). lia.
  - destruct (ax a) eqn:A, (ax b) eqn:B; cbn -[Z.add].
    + rewrite !(V_ax zero p2 a (S j) j), !(V_ax zero p2 b (S j) j) by assumption. rewrite !(odd_loop g _ O), (odd_pair g (V a j) (V b j) O). lia.
    + rewrite !(V_ax zero p2 a (S j) j) by assumption. rewrite !(odd_loop g _ O). lia.
    + rewrite !(V_ax zero p2 b (S j) j) by assumption. rewrite !(odd_loop g _ O). lia.
    + lia.
Qed.
Definition ring (g : nat * nat -> Z) (j : nat) : Z := zsum (fun e => g (V (fst e) j, V (snd e) j)) PE.
Lemma cycle_zero : forall (h : nat -> Z) l, zsum (fun e => h (snd e) - h (fst e))%Z (all_edges l) = 0%Z.
Proof.
  intros h l. unfold all_edges. rewrite zsum_flat. apply zsum_zero. intros f _.
  rewrite (zsum_ext _ (fun e => h (snd e) + - h (fst e))%Z) by (intros; lia). rewrite zsum_plus, zsum_opp.
  rewrite <- (zsum_map h snd), <- (zsum_map h fst), map_fst_edges, (zsum_perm _ _ _ (map_snd_edges f)). lia.
Qed.
Lemma layer_sum : forall g j, odd g -> zsum g (all_edges (flat_map (quad false j) PE)) = (ring g j - ring g (S j))%Z.
Proof.
  intros g j O. unfold all_edges at 1. rewrite flat_flat, zsum_flat.
  rewrite (zsum_ext _ (fun e => (g (V (fst e) j, V (snd e) j) + - g (V (fst e) (S j), V (snd e) (S j))) + (g (V (snd e) j, V (snd e) (S j)) - g (V (fst e) j, V (fst e) (S j))))%Z).
  - rewrite !zsum_plus, zsum_opp, (cycle_zero (fun i => g (V i j, V i (S j)))). unfold ring. lia.
  - intros e I. destruct (path_pts p2 paths POK e I). change (flat_map edges (quad false j e)) with (all_edges (quad false j e)).
    rewrite quad_sum by assumption. rewrite (odd_pair g (V (fst e) (S j)) (V (snd e) (S j)) O), (odd_pair g (V (fst e) j) (V (fst e) (S j)) O). lia.
Qed.
Lemma caps_sum : forall g, odd g -> zsum g (all_edges (flat_map (caps zero p2 s false) paths)) = (ring g (s - 1) - ring g 0)%Z.
Proof.
  intros g O. unfold ring. clear POK. induction paths as [|pa l IH]; [reflexivity|].
  cbn [flat_map]. rewrite all_edges_app, zsum_app, IH. unfold all_edges at 4 5. cbn [flat_map]. rewrite !zsum_app.
  change (flat_map edges l) with (all_edges l). unfold caps. cbn [rev_perhaps negb]. unfold all_edges at 1. cbn [flat_map].
  rewrite app_nil_r, zsum_app, (zsum_perm _ _ _ (edges_rev _)), zsum_map. rewrite (zsum_ext (fun x => g (swap x)) (fun e => - g e)%Z) by (intros; apply O).
  rewrite zsum_opp, !edges_map, !zsum_map. unfold both. lia.
Qed.
Lemma arc_odd : forall g rv, odd g -> zsum g (all_edges (arc_faces zero p2 paths s rv)) = 0%Z.
Proof.
  intros g rv O. assert (H : zsum g (all_edges (arc_faces zero p2 paths s false)) = 0%Z).
  { unfold arc_faces. rewrite all_edges_app, zsum_app, caps_sum by exact O. unfold all_edges at 1. rewrite flat_flat, zsum_flat.
    rewrite (zsum_ext _ (fun j => ring g j - ring g (S j))%Z) by (intros; apply layer_sum; exact O). rewrite zsum_tele. lia. }
  destruct rv; [|exact H]. rewrite arc_rev, zsum_rev_edges by exact O. lia.
Qed.
Lemma arc_balanced : forall rv, balanced (arc_faces zero p2 paths s rv).
Proof. intros rv. apply balanced_odd. intros g O. apply arc_odd. exact O. Qed.

(** ** Simple paths *)
Hypothesis (SIM : simple_paths paths).
Lemma perm_flat2 : forall {A B} (f g : A -> list B) l, Permutation (flat_map (fun x => f x ++ g x) l) (flat_map f l ++ flat_map g l).
Proof.
  induction l as [|x l IH]; cbn; [reflexivity|]. rewrite IH. rewrite <- !app_assoc. apply Permutation_app_head. rewrite !app_assoc. apply Permutation_app_tail. apply Permutation_app_comm.
Qed.
Lemma perm_flat_ext : forall {A B} (f g : A -> list B) l, (forall x, In x l -> Permutation (f x) (g x)) -> Permutation (flat_map f l) (flat_map g l).
Proof. induction l as [|x l IH]; intros H; cbn; [reflexivity|]. apply Permutation_app; [apply H; left; reflexivity|apply IH; intros; apply H; right; assumption]. Qed.
Lemma nodup_flat : forall {A B} (f : A -> list B) l, NoDup l -> (forall x, In x l -> NoDup (f x)) -> (forall x y z, In x l -> In y l -> In z (f x) -> In z (f y) -> x = y) -> NoDup (flat_map f l).
Proof.
  induction l as [|x l IH]; intros N H D; cbn; [constructor|]. inversion N; subst. apply nodup_app_intro.
  - apply H. left. reflexivity.
  - apply IH; [assumption|intros; apply H; right; assumption|]. intros a b z IA IB. apply D; right; assumption.
  - intros z I J. apply in_flat_map in J. destruct J as (y & Iy & J). assert (E : x = y) by (apply (D x y z); [left; reflexivity|right; exact Iy|exact I|exact J]). subst y. contradiction.
Qed.
Lemma concat_all : forall (l : list (list nat)), Permutation (map snd (all_edges l)) (concat l) /\ map fst (all_edges l) = concat l.
Proof.
  induction l as [|f l (I1 & I2)]; [split; reflexivity|]. unfold all_edges in *. cbn [flat_map concat]. rewrite !map_app, I2, map_fst_edges. split; [|reflexivity].
  apply Permutation_app; [apply map_snd_edges|exact I1].
Qed.
Lemma nodup_map_inv : forall {A B} (f : A -> B) l x y, NoDup (map f l) -> In x l -> In y l -> f x = f y -> x = y.
Proof.
  induction l as [|z l IH]; intros x y N I J E; [destruct I|]; destruct I as [->|I], J as [->|J]; try reflexivity; cbn in N; inversion N; subst.
  - exfalso. apply H1. rewrite E. apply in_map. exact J.
  - exfalso. apply H1. rewrite <- E. apply in_map. exact I.
  - apply (IH x y); assumption.
Qed.
Lemma PE_fst : NoDup (map fst PE).
Proof. rewrite (proj2 (concat_all paths)). apply SIM. Qed.
Lemma PE_snd : NoDup (map snd PE).
Proof. eapply Permutation_NoDup; [symmetry; apply (proj1 (concat_all paths))|]. apply SIM. Qed.
Lemma PE_nodup : NoDup PE.
Proof. apply (NoDup_map_inv fst). apply PE_fst. Qed.
Lemma nodup_concat_path : forall (l : list (list nat)) f, NoDup (concat l) -> In f l -> NoDup f.
Proof.
  induction l as [|x l IH]; intros f N I; [destruct I|]; destruct I as [->|I]; cbn in N.
  - clear -N. induction f as [|y f IHf]; [constructor|]. cbn in N. inversion N; subst. constructor; [intros J; apply H1; apply in_or_app; left; exact J|apply IHf; assumption].
  - apply IH; [|exact I]. clear -N. induction x as [|y x IHx]; [exact N|]. cbn in N. inversion N; subst. apply IHx. assumption.
Qed.
Lemma nodup_concat_same : forall (l : list (list nat)) f g i, NoDup (concat l) -> In f l -> In g l -> In i f -> In i g -> f = g.
Proof.
  assert (D : forall (l : list (list nat)) x i, NoDup (x ++ concat l) -> In i x -> forall g, In g l -> In i g -> False).
  { intros l x. induction x as [|y x IH]; intros i N I g G J; [destruct I|]. cbn in N. inversion N; subst. destruct I as [->|I].
    - apply H1. apply in_or_app. right. apply in_concat. exists g. split; assumption.
    - apply (IH i H2 I g G J). }
  induction l as [|x l IH]; intros f g i N IF IG I J; [destruct IF|]. cbn in N. destruct IF as [->|IF], IG as [->|IG].
  - reflexivity.
  - exfalso. exact (D l f i N I g IG J).
  - exfalso. exact (D l g i N J f IF I).
  - apply (IH f g i); try assumption. clear -N. induction x as [|y x IHx]; [exact N|]. cbn in N. inversion N; subst. apply IHx. assumption.
Qed.
Lemma edge_asym : forall (f : list nat) a b, NoDup f -> 3 <= length f -> In (a, b) (edges f) -> In (b, a) (edges f) -> False.
Proof.
  intros f a b N L I J. rewrite edges_nth in I, J. apply in_map_iff in I. destruct I as (l & E & I). apply in_map_iff in J. destruct J as (k & E' & J).
  apply in_seq in I. apply in_seq in J. injection E as <- E2. injection E' as E1' E2'.
  assert (W : forall x, x < length f -> wrap_add1 x (length f) < length f) by (intros; apply wrap_lt; assumption).
  pose proof (proj1 (NoDup_nth f 0) N) as M.
  assert (K1 : wrap_add1 l (length f) = k) by (apply M; [apply W; lia|lia|congruence]).
  assert (K2 : wrap_add1 k (length f) = l) by (apply M; [apply W; lia|lia|congruence]). revert K1 K2. unfold wrap_add1. cbn zeta. destruct (S l =? length f) eqn:A, (S k =? length f) eqn:B; lia.
Qed.
Lemma PE_asym : forall a b, In (a, b) PE -> In (b, a) PE -> False.
Proof.
  intros a b I J. apply in_flat_map in I. destruct I as (f & F & I). apply in_flat_map in J. destruct J as (g & G & J).
  assert (f = g). { apply (nodup_concat_same paths f g a (proj1 SIM) F G); [exact (proj1 (edge_in _ _ I))|exact (proj2 (edge_in _ _ J))]. }
  subst g. apply (edge_asym f a b); try assumption; [apply (nodup_concat_path paths); [apply SIM|exact F]|apply (proj2 SIM); exact F].
Qed.
Lemma PE_irrefl : forall a, In (a, a) PE -> False.
Proof. intros a I. exact (PE_asym a a I I). Qed.

Definition both_ax (e : nat * nat) : bool := ax (fst e) && ax (snd e).
Definition rf (j : nat) (e : nat * nat) : list (nat * nat) := if both_ax e then [] else [(V (fst e) j, V (snd e) j)].
Definition vf (j : nat) (i : nat) : list (nat * nat) := if ax i then [] else [(V i j, V i (S j))].
Lemma quad_edges : forall j e, In e PE -> all_edges (quad false j e) = (rf j e ++ vf j (snd e)) ++ (map swap (rf (S j) e) ++ map swap (vf j (fst e))).
Proof.
  intros j [a b] I. destruct (path_pts p2 paths POK _ I) as (LA & LB). cbn [fst snd] in *. unfold quad, Rot_proofs.quad, face4, rf, vf, both_ax. cbn [fst snd]. rewrite !V_eqb by assumption.
  rewrite (Nat.eqb_sym b a), !Nat.eqb_refl. replace (j =? S j) with false by (symmetry; apply Nat.eqb_neq; lia). replace (S j =? S j) with true by (symmetry; apply Nat.eqb_refl).
  rewrite !orb_true_r, !orb_false_r. destruct (a =? b) eqn:AB; [apply Nat.eqb_eq in AB; subst; exfalso; exact (PE_irrefl _ I)|].
  destruct (ax a) eqn:A, (ax b) eqn:B; cbn; try reflexivity.
  - rewrite (V_ax zero p2 a (S j) j A). reflexivity.
  - rewrite (V_ax zero p2 b (S j) j B). reflexivity.
Qed.
(** Rings forward, and up edges *)
Definition RF : list (nat * nat) := flat_map (fun j => flat_map (rf j) PE) (seq 0 (s - 1)) ++ map (fun e => (V (fst e) (s - 1), V (snd e) (s - 1))) PE.
Definition RB : list (nat * nat) := flat_map (fun j => flat_map (fun e => map swap (rf (S j) e)) PE) (seq 0 (s - 1)) ++ map (fun e => (V (snd e) 0, V (fst e) 0)) PE.
Definition UF : list (nat * nat) := flat_map (fun j => flat_map (fun e => vf j (snd e)) PE) (seq 0 (s - 1)).
Definition UB : list (nat * nat) := flat_map (fun j => flat_map (fun e => map swap (vf j (fst e))) PE) (seq 0 (s - 1)).
Lemma caps_edges : Permutation (all_edges (flat_map (caps zero p2 s false) paths))
  (map (fun e => (V (snd e) 0, V (fst e) 0)) PE ++ map (fun e => (V (fst e) (s - 1), V (snd e) (s - 1))) PE).
Proof.
  clear SIM POK. induction paths as [|pa l IH]; [reflexivity|]. cbn [flat_map]. rewrite all_edges_app, IH. unfold all_edges at 4 5. cbn [flat_map]. change (flat_map edges l) with (all_edges l). rewrite !map_app.
  unfold caps. cbn [rev_perhaps negb]. unfold all_edges at 1. cbn [flat_map]. rewrite app_nil_r, edges_rev, !edges_map, map_map. unfold both, swap. cbn [fst snd].
  rewrite <- !app_assoc. apply Permutation_app_head. rewrite !app_assoc. apply Permutation_app_tail. apply Permutation_app_comm.
Qed.
Lemma arc_edges : Permutation (all_edges (arc_faces zero p2 paths s false)) ((RF ++ RB) ++ (UF ++ UB)).
Proof.
  unfold arc_faces. rewrite all_edges_app, caps_edges. unfold all_edges at 1. rewrite flat_flat.
  rewrite (perm_flat_ext _ (fun j => (flat_map (rf j) PE ++ flat_map (fun e => vf j (snd e)) PE) ++ (flat_map (fun e => map swap (rf (S j) e)) PE ++ flat_map (fun e => map swap (vf j (fst e))) PE))).
  - rewrite perm_flat2, (perm_flat2 (fun j => flat_map (rf j) PE)), (perm_flat2 (fun j => flat_map (fun e => map swap (rf (S j) e)) PE)).
    unfold RF, RB, UF, UB. set (a := flat_map _ (seq 0 (s - 1))). set (b := flat_map _ (seq 0 (s - 1))). set (c := flat_map _ (seq 0 (s - 1))). set (d := flat_map _ (seq 0 (s - 1))).
    set (e := map _ PE). set (f := map _ PE). clearbody a b c d e f. clear.
    apply (Permutation_count_occ edge_dec). intros x. rewrite !count_occ_app. lia.
  - intros j _. change (flat_map (fun x => edges x) (flat_map (quad false j) PE)) with (all_edges (flat_map (quad false j) PE)).
    unfold all_edges at 1. rewrite flat_flat. rewrite (perm_flat_ext _ (fun e => (rf j e ++ vf j (snd e)) ++ (map swap (rf (S j) e) ++ map swap (vf j (fst e))))).
    + rewrite perm_flat2, !perm_flat2. reflexivity.
    + intros e I. change (flat_map edges (quad false j e)) with (all_edges (quad false j e)). rewrite quad_edges by exact I. reflexivity.
Qed.

Lemma ring_inj : forall e e' j j', In e PE -> In e' PE -> (V (fst e) j, V (snd e) j) = (V (fst e') j', V (snd e') j') -> e = e' /\ (both_ax e = true \/ j = j').
Proof.
  intros [a b] [a' b'] j j' I I' E. destruct (path_pts p2 paths POK _ I), (path_pts p2 paths POK _ I'). cbn [fst snd] in *. injection E as E1 E2.
  apply V_inj in E1; [|assumption..]. apply V_inj in E2; [|assumption..]. destruct E1 as (-> & E1), E2 as (-> & E2). split; [reflexivity|].
  unfold both_ax. cbn [fst snd]. destruct E1 as [->| ->]; [|right; reflexivity]. destruct E2 as [->| ->]; [left|right]; reflexivity.
Qed.
Lemma in_rf : forall j e z, In z (rf j e) -> both_ax e = false /\ z = (V (fst e) j, V (snd e) j).
Proof. intros j e z I. unfold rf in I. destruct (both_ax e); [destruct I|]. destruct I as [<-|[]]. split; reflexivity. Qed.
Lemma in_rb : forall j e z, In z (map swap (rf j e)) -> both_ax e = false /\ z = (V (snd e) j, V (fst e) j).
Proof. intros j e z I. apply in_map_iff in I. destruct I as (x & <- & I). apply in_rf in I. destruct I as (B & ->). split; [exact B|reflexivity]. Qed.
Lemma in_vf : forall j i z, In z (vf j i) -> ax i = false /\ z = (V i j, V i (S j)).
Proof. intros j i z I. unfold vf in I. destruct (ax i) eqn:A; [destruct I|]. destruct I as [<-|[]]. split; reflexivity. Qed.
Lemma in_vb : forall j i z, In z (map swap (vf j i)) -> ax i = false /\ z = (V i (S j), V i j).
Proof. intros j i z I. apply in_map_iff in I. destruct I as (x & <- & I). apply in_vf in I. destruct I as (B & ->). split; [exact B|reflexivity]. Qed.
Lemma nodup_swap : forall l : list (nat * nat), NoDup l -> NoDup (map swap l).
Proof. intros l N. apply (nodup_left swap swap); [intros; apply swap_swap|exact N]. Qed.
Lemma nodup_rf : forall j e, NoDup (rf j e).
Proof. intros. unfold rf. destruct (both_ax e); [constructor|]. constructor; [intros []|constructor]. Qed.
Lemma nodup_vf : forall j i, NoDup (vf j i).
Proof. intros. unfold vf. destruct (ax i); [constructor|]. constructor; [intros []|constructor]. Qed.
Lemma pair_swap : forall {A} (a b c d : A), (a, b) = (c, d) -> (b, a) = (d, c).
Proof. intros A a b c d E. injection E as -> ->. reflexivity. Qed.
Lemma RF_nodup : NoDup RF.
Proof.
  unfold RF. apply nodup_app_intro.
  - apply nodup_flat; [apply seq_NoDup| |].
    + intros j _. apply nodup_flat; [apply PE_nodup|intros; apply nodup_rf|]. intros e e' z I I' K K'. apply in_rf in K. apply in_rf in K'. destruct K as (_ & ->), K' as (_ & E).
      exact (proj1 (ring_inj _ _ _ _ I I' E)).
    + intros j j' z _ _ K K'. apply in_flat_map in K. destruct K as (e & I & K). apply in_flat_map in K'. destruct K' as (e' & I' & K').
      apply in_rf in K. apply in_rf in K'. destruct K as (B & ->), K' as (_ & E). destruct (ring_inj _ _ _ _ I I' E) as (_ & [B'|B']); [congruence|exact B'].
  - apply nodup_inj; [|apply PE_nodup]. intros e e' I I' E. exact (proj1 (ring_inj _ _ _ _ I I' E)).
  - intros z I J. apply in_flat_map in I. destruct I as (j & IJ & I). apply in_flat_map in I. destruct I as (e & I & K). apply in_rf in K. destruct K as (B & ->).
    apply in_map_iff in J. destruct J as (e' & E & I'). symmetry in E. destruct (ring_inj _ _ _ _ I I' E) as (_ & [B'|B']); [congruence|]. apply in_seq in IJ. lia.
Qed.
Lemma RB_nodup : NoDup RB.
Proof.
  unfold RB. apply nodup_app_intro.
  - apply nodup_flat; [apply seq_NoDup| |].
    + intros j _. apply nodup_flat; [apply PE_nodup|intros; apply nodup_swap, nodup_rf|]. intros e e' z I I' K K'. apply in_rb in K. apply in_rb in K'. destruct K as (_ & ->), K' as (_ & E).
      exact (proj1 (ring_inj _ _ _ _ I I' (pair_swap _ _ _ _ E))).
    + intros j j' z _ _ K K'. apply in_flat_map in K. destruct K as (e & I & K). apply in_flat_map in K'. destruct K' as (e' & I' & K').
      apply in_rb in K. apply in_rb in K'. destruct K as (B & ->), K' as (_ & E). destruct (ring_inj _ _ _ _ I I' (pair_swap _ _ _ _ E)) as (_ & [B'|B']); [congruence|injection B' as B'; exact B'].
  - apply nodup_inj; [|apply PE_nodup]. intros e e' I I' E. exact (proj1 (ring_inj _ _ _ _ I I' (pair_swap _ _ _ _ E))).
  - intros z I J. apply in_flat_map in I. destruct I as (j & IJ & I). apply in_flat_map in I. destruct I as (e & I & K). apply in_rb in K. destruct K as (B & ->).
    apply in_map_iff in J. destruct J as (e' & E & I'). symmetry in E. destruct (ring_inj _ _ _ _ I I' (pair_swap _ _ _ _ E)) as (_ & [B'|B']); [congruence|]. lia.
Qed.
Lemma up_inj : forall i i' j j', i < len -> i' < len -> ax i = false -> V i j = V i' j' -> i = i' /\ j = j'.
Proof. intros i i' j j' L L' A E. apply V_inj in E; [|assumption..]. destruct E as (-> & [E|E]); [congruence|]. split; [reflexivity|exact E]. Qed.
Lemma UF_nodup : NoDup UF.
Proof.
  unfold UF. apply nodup_flat; [apply seq_NoDup| |].
  - intros j _. apply nodup_flat; [apply PE_nodup|intros; apply nodup_vf|]. intros e e' z I I' K K'. apply in_vf in K. apply in_vf in K'. destruct K as (A & ->), K' as (_ & E). injection E as E _.
    destruct (path_pts p2 paths POK _ I), (path_pts p2 paths POK _ I'). apply up_inj in E; [|assumption..]. apply (nodup_map_inv snd PE); [apply PE_snd|exact I|exact I'|tauto].
  - intros j j' z _ _ K K'. apply in_flat_map in K. destruct K as (e & I & K). apply in_flat_map in K'. destruct K' as (e' & I' & K').
    apply in_vf in K. apply in_vf in K'. destruct K as (A & ->), K' as (_ & E). injection E as E _.
    destruct (path_pts p2 paths POK _ I), (path_pts p2 paths POK _ I'). apply up_inj in E; [|assumption..]. tauto.
Qed.
Lemma UB_nodup : NoDup UB.
Proof.
  unfold UB. apply nodup_flat; [apply seq_NoDup| |].
  - intros j _. apply nodup_flat; [apply PE_nodup|intros; apply nodup_swap, nodup_vf|]. intros e e' z I I' K K'. apply in_vb in K. apply in_vb in K'. destruct K as (A & ->), K' as (_ & E). injection E as _ E.
    destruct (path_pts p2 paths POK _ I), (path_pts p2 paths POK _ I'). apply up_inj in E; [|assumption..]. apply (nodup_map_inv fst PE); [apply PE_fst|exact I|exact I'|tauto].
  - intros j j' z _ _ K K'. apply in_flat_map in K. destruct K as (e & I & K). apply in_flat_map in K'. destruct K' as (e' & I' & K').
    apply in_vb in K. apply in_vb in K'. destruct K as (A & ->), K' as (_ & E). injection E as _ E.
    destruct (path_pts p2 paths POK _ I), (path_pts p2 paths POK _ I'). apply up_inj in E; [|assumption..]. tauto.
Qed.
Lemma in_RF : forall z, In z RF -> exists e j, In e PE /\ z = (V (fst e) j, V (snd e) j).
Proof.
  intros z I. apply in_app_or in I. destruct I as [I|I].
  - apply in_flat_map in I. destruct I as (j & _ & I). apply in_flat_map in I. destruct I as (e & I & K). apply in_rf in K. exists e, j. tauto.
  - apply in_map_iff in I. destruct I as (e & <- & I). exists e, (s - 1). tauto.
Qed.
Lemma in_RB : forall z, In z RB -> exists e j, In e PE /\ z = (V (snd e) j, V (fst e) j).
Proof.
  intros z I. apply in_app_or in I. destruct I as [I|I].
  - apply in_flat_map in I. destruct I as (j & _ & I). apply in_flat_map in I. destruct I as (e & I & K). apply in_rb in K. exists e, (S j). tauto.
  - apply in_map_iff in I. destruct I as (e & <- & I). exists e, 0. tauto.
Qed.
Lemma in_UF : forall z, In z UF -> exists i j, i < len /\ ax i = false /\ z = (V i j, V i (S j)).
Proof.
  intros z I. apply in_flat_map in I. destruct I as (j & _ & I). apply in_flat_map in I. destruct I as (e & I & K). apply in_vf in K. exists (snd e), j.
  destruct (path_pts p2 paths POK _ I). tauto.
Qed.
Lemma in_UB : forall z, In z UB -> exists i j, i < len /\ ax i = false /\ z = (V i (S j), V i j).
Proof.
  intros z I. apply in_flat_map in I. destruct I as (j & _ & I). apply in_flat_map in I. destruct I as (e & I & K). apply in_vb in K. exists (fst e), j.
  destruct (path_pts p2 paths POK _ I). tauto.
Qed.
Lemma arc_nodup : NoDup (all_edges (arc_faces zero p2 paths s false)).
Proof.
  eapply Permutation_NoDup; [symmetry; apply arc_edges|]. apply nodup_app_intro; [apply nodup_app_intro; [apply RF_nodup|apply RB_nodup|]|apply nodup_app_intro; [apply UF_nodup|apply UB_nodup|]|].
  - intros z I J. apply in_RF in I. apply in_RB in J. destruct I as ([a b] & j & I & ->), J as ([a' b'] & j' & J & E). cbn [fst snd] in E. injection E as E1 E2.
    destruct (path_pts p2 paths POK _ I), (path_pts p2 paths POK _ J). cbn [fst snd] in *. apply V_inj in E1; [|assumption..]. apply V_inj in E2; [|assumption..].
    destruct E1 as (-> & _), E2 as (-> & _). exact (PE_asym _ _ I J).
  - intros z I J. apply in_UF in I. apply in_UB in J. destruct I as (i & j & L & A & ->), J as (i' & j' & L' & A' & E). injection E as E1 E2.
    apply up_inj in E1; [|assumption..]. apply up_inj in E2; [|assumption..]. lia.
  - assert (H : forall e i j k k', In e PE -> i < len -> V (fst e) j = V i k -> V (snd e) j = V i k' -> False).
    { intros [a b] i j k k' I L E1 E2. destruct (path_pts p2 paths POK _ I). cbn [fst snd] in *. apply V_inj in E1; [|assumption..]. apply V_inj in E2; [|assumption..].
      destruct E1 as (-> & _), E2 as (-> & _). exact (PE_irrefl _ I). }
    intros z I J. apply in_app_or in I. apply in_app_or in J.
    assert (K : exists i k k', i < len /\ z = (V i k, V i k')).
    { destruct J as [J|J]; [apply in_UF in J|apply in_UB in J]; destruct J as (i & j & L & _ & ->); repeat eexists; exact L. }
    destruct K as (i & k & k' & L & ->). destruct I as [I|I]; [apply in_RF in I|apply in_RB in I]; destruct I as (e & j & I & E); injection E as E1 E2.
    + exact (H e i j k k' I L (eq_sym E1) (eq_sym E2)).
    + exact (H e i j k' k I L (eq_sym E2) (eq_sym E1)).
Qed.
Lemma arc_closed : forall rv, closed (arc_faces zero p2 paths s rv).
Proof.
  intros rv. assert (C : closed (arc_faces zero p2 paths s false)).
  { split; [apply arc_nodup|]. intros e I. apply (count_occ_In edge_dec). rewrite <- arc_balanced. apply (count_occ_In edge_dec). exact I. }
  destruct rv; [rewrite arc_rev; apply closed_rev; exact C|exact C].
Qed.
Lemma arc_3 : forall rv f, In f (arc_faces zero p2 paths s rv) -> 3 <= length f.
Proof.
  assert (R : forall r f, length (rev_perhaps r f) = length f) by (intros [|] f; cbn; [apply rev_length|reflexivity]).
  intros rv f I. apply in_app_or in I. destruct I as [I|I].
  - apply in_flat_map in I. destruct I as (j & _ & I). apply in_flat_map in I. destruct I as (e & _ & I). unfold Rot_proofs.quad in I. destruct (_ <? 3) eqn:E; [destruct I|].
    destruct I as [<-|[]]. rewrite R. apply Nat.ltb_ge in E. exact E.
  - apply in_flat_map in I. destruct I as (pa & P & I). apply (proj2 SIM) in P. destruct I as [<-|[<-|[]]]; rewrite R, map_length; exact P.
Qed.
Lemma arc_range : forall rv i, In i (concat (arc_faces zero p2 paths s rv)) -> i < pt_cnt p2 (n0 zero p2) s.
Proof.
  assert (R : forall r f (i : nat), In i (rev_perhaps r f) -> In i f) by (intros [|] f i I; [apply in_rev; exact I|exact I]).
  intros rv i I. unfold pt_cnt. rewrite xi_n1. apply in_concat in I. destruct I as (f & I & J). apply in_app_or in I. destruct I as [I|I].
  - apply in_flat_map in I. destruct I as (j & Ij & I). apply in_flat_map in I. destruct I as (e & Ie & I). unfold Rot_proofs.quad in I. destruct (_ <? 3) eqn:E; [destruct I|].
    destruct I as [<-|[]]. apply R in J. apply face4_in in J. destruct (path_pts p2 paths POK _ Ie). apply in_seq in Ij.
    destruct J as [->|[->|[->| ->]]]; apply V_bound; try assumption; lia.
  - apply in_flat_map in I. destruct I as (pa & P & I). destruct I as [<-|[<-|[]]]; apply R in J; apply in_map_iff in J; destruct J as (k & <- & J);
      (apply V_bound; [apply POK, in_concat; exists pa; split; assumption|lia]).
Qed.
End Rot.
