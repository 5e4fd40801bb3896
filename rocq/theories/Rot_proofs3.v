(** Rotational extrusion: points and volume *)
From Coq Require Import List Bool Arith Lia ZifyBool Permutation QArith Lqa.
From Verif Require Import Mesh_spec Mesh_proofs Tower_model Tower_spec Tower_proofs Tower_proofs2 Rot_model Rot_spec Rot_proofs Rot_proofs2.
Import ListNotations.
Local Open Scope nat_scope.

Lemma put_ok : forall {A} (l : list A) k v, k < length l -> exists l', put l k v = Some l' /\ length l' = length l /\ nth_error l' k = Some v /\ forall k', k' <> k -> nth_error l' k' = nth_error l k'.
Proof.
  induction l as [|x l IH]; intros k v L; [cbn in L; lia|]. destruct k as [|k].
  - exists (v :: l). repeat split. intros [|k'] D; [congruence|reflexivity].
  - cbn in L. destruct (IH k v ltac:(lia)) as (l' & P & E & N & O). exists (x :: l'). cbn. rewrite P. cbn. repeat split; [congruence|exact N|]. intros [|k'] D; [reflexivity|]. cbn. apply O. congruence.
Qed.
Lemma foldM_seq : forall {B} (step : B -> nat -> option B) (Inv : nat -> B -> Prop) n st, Inv 0 st ->
  (forall i st, i < n -> Inv i st -> exists st', step st i = Some st' /\ Inv (S i) st') -> exists st', foldM step (seq 0 n) st = Some st' /\ Inv n st'.
Proof.
  intros B step Inv n st H0 HS.
  assert (G : forall k a st, a + k = n -> Inv a st -> exists st', foldM step (seq a k) st = Some st' /\ Inv n st').
  { induction k as [|k IH]; intros a st1 E I; cbn.
    - exists st1. split; [reflexivity|]. replace n with a by lia. exact I.
    - destruct (HS a st1 ltac:(lia) I) as (st2 & -> & I2). cbn. apply IH; [lia|exact I2]. }
  apply (G n 0 st); [lia|exact H0].
Qed.

Section Points.
Variables (zero : Q -> bool) (p2 : list (Q * Q)) (cs : list (Q * Q)) (s : nat).
Hypothesis (S2 : 2 <= s) (CS : s <= length cs).
Notation V := (V zero p2).
Notation ax := (ax zero p2).
Notation len := (length p2).
Notation N := (pt_cnt p2 (n0 zero p2) s).
Definition pt (i j : nat) : vec3 :=
  let q := nth i p2 (0, 0)%Q in let c := nth j cs (0, 0)%Q in
  if ax i then mk_vec3 0 0 (snd q) else mk_vec3 (fst c * fst q) (snd c * fst q) (snd q).
Definition placed (k : nat) (pts : list vec3) : Prop := length pts = N /\ forall i j, i < k -> j < s -> nth_error pts (V i j) = Some (pt i j).
Lemma V_N : forall i j, i < len -> j < s -> V i j < N.
Proof. intros. unfold pt_cnt. rewrite xi_n1. apply V_bound; assumption. Qed.
Lemma points_step : forall i pts, i < len -> placed i pts -> exists pts', rot_point p2 (idx zero p2) (n0 zero p2) cs s pts i = Some pts' /\ placed (S i) pts'.
Proof.
  intros i pts L (LP & P). unfold rot_point. rewrite nth_p2, nth_idx by exact L. cbn [bind]. rewrite idx_odd. destruct (ax i) eqn:A; cbn [negb].
  - rewrite rotext_idx_ok by exact L. cbn [bind]. destruct (put_ok pts (V i 0) (mk_vec3 0 0 (snd (nth i p2 (0, 0)%Q)))) as (pts' & -> & L' & Nk & No); [rewrite LP; apply V_N; [exact L|lia]|].
    exists pts'. split; [reflexivity|]. split; [lia|]. intros i' j' I' J'. destruct (Nat.eq_dec i' i) as [->|D].
    + rewrite (V_ax zero p2 i j' 0 A), Nk. unfold pt. rewrite A. reflexivity.
    + rewrite No; [apply P; lia|]. intros E. apply V_inj in E; lia.
  - destruct (foldM_seq (fun pts j => bind (rotext_idx (n0 zero p2) (xi_cnt p2 (n0 zero p2)) (idx zero p2) i j) (fun k => bind (nth_error cs j) (fun c =>
      put pts k (mk_vec3 (fst c * fst (nth i p2 (0, 0)%Q)) (snd c * fst (nth i p2 (0, 0)%Q)) (snd (nth i p2 (0, 0)%Q))))))
      (fun k l => placed i l /\ forall j, j < k -> nth_error l (V i j) = Some (pt i j)) s pts) as (pts' & -> & (LP' & P') & PI).
    + split; [split; assumption|]. intros; lia.
    + intros j st J ((LS & PS) & PI). rewrite rotext_idx_ok by exact L. cbn [bind]. rewrite (nth_error_nth' cs (0, 0)%Q) by lia. cbn [bind].
      destruct (put_ok st (V i j) (pt i j)) as (st' & Q & L' & Nk & No); [rewrite LS; apply V_N; assumption|]. unfold pt in Q. rewrite A in Q. cbn zeta in Q. rewrite Q.
      exists st'. split; [reflexivity|]. split; [split; [lia|]|].
      * intros i' j' I' J'. rewrite No; [apply PS; assumption|]. intros E. apply V_inj in E; lia.
      * intros j' J'. destruct (Nat.eq_dec j' j) as [->|D]; [exact Nk|]. rewrite No; [apply PI; lia|]. intros E. apply V_inj in E; [|assumption..]. destruct E as (_ & [E|E]); congruence.
    + exists pts'. split; [reflexivity|]. split; [exact LP'|]. intros i' j' I' J'. destruct (Nat.eq_dec i' i) as [->|D]; [apply PI; exact J'|apply P'; lia].
Qed.
Lemma points_ok : exists pts, foldM (rot_point p2 (idx zero p2) (n0 zero p2) cs s) (seq 0 len) (repeat (mk_vec3 0 0 0) N) = Some pts /\ placed len pts.
Proof.
  apply (foldM_seq _ placed).
  - split; [apply repeat_length|]. intros; lia.
  - intros. apply points_step; assumption.
Qed.

(** ** Volume *)
Variables (paths : list (list nat)).
Hypothesis (POK : paths_ok len paths) (SIM : simple_paths paths).
Variables (pts : list vec3).
Hypothesis (PL : placed len pts).
Notation P := (fun i => nth i pts (mk_vec3 0 0 0)).
Local Open Scope Q_scope.
Definition C (j : nat) : Q * Q := nth j cs (0, 0).
Definition F (i : nat) : Q * Q := flat_pt zero p2 i.
Lemma P_V : forall i j, (i < len)%nat -> (j < s)%nat -> P (V i j) = pt i j.
Proof. intros i j I J. apply nth_error_nth. apply (proj2 PL); assumption. Qed.
Lemma pt_x : forall i j, px (pt i j) == fst (C j) * fst (F i).
Proof. intros. unfold pt, F, flat_pt, radius, C. change (ax i) with (zero (fst (nth i p2 (0, 0)))). cbn [fst snd]. destruct (zero _); cbn; ring. Qed.
Lemma pt_y : forall i j, py (pt i j) == snd (C j) * fst (F i).
Proof. intros. unfold pt, F, flat_pt, radius, C. change (ax i) with (zero (fst (nth i p2 (0, 0)))). cbn [fst snd]. destruct (zero _); cbn; ring. Qed.
Lemma pt_z : forall i j, pz (pt i j) == snd (F i).
Proof. intros. unfold pt, F, flat_pt. destruct (ax i); cbn; reflexivity. Qed.
Lemma det3_pt : forall i1 j1 i2 j2 i3 j3, det3 (pt i1 j1) (pt i2 j2) (pt i3 j3) ==
  det3 (mk_vec3 (fst (C j1) * fst (F i1)) (snd (C j1) * fst (F i1)) (snd (F i1))) (mk_vec3 (fst (C j2) * fst (F i2)) (snd (C j2) * fst (F i2)) (snd (F i2)))
       (mk_vec3 (fst (C j3) * fst (F i3)) (snd (C j3) * fst (F i3)) (snd (F i3))).
Proof. intros. unfold det3. cbn [px py pz]. rewrite !pt_x, !pt_y, !pt_z. reflexivity. Qed.
Lemma cap_vol : forall pa j, (j < s)%nat -> (forall i, In i pa -> (i < len)%nat) -> face_vol P (map (fun i => V i j) pa) == 0.
Proof.
  intros pa j J L. unfold face_vol. rewrite qsum_map. rewrite (qsum_ext _ (fun _ => 0)).
  - rewrite qsum_const. unfold Qdiv. ring.
  - intros p I. rewrite edges_map, qsum_map. rewrite (qsum_ext _ (fun _ => 0)).
    + rewrite qsum_const. ring.
    + intros e Ie. apply edge_in in Ie. unfold both. cbn [fst snd]. rewrite !P_V by (try exact J; apply L; tauto). rewrite det3_pt. unfold det3. cbn. ring.
Qed.
Definition edge_moment (e : nat * nat) : Q := (fst (F (fst e)) + fst (F (snd e))) * cross (F (fst e)) (F (snd e)).
Lemma F_ax : forall i, ax i = true -> fst (F i) = 0.
Proof. intros i A. unfold F, flat_pt, radius. change (zero (fst (nth i p2 (0, 0)))) with (ax i). cbn [fst]. rewrite A. reflexivity. Qed.
Lemma quad_vol : forall j e, In e (all_edges paths) -> (S j < s)%nat -> qsum (face_vol P) (quad zero p2 false j e) == - cross (C j) (C (S j)) * edge_moment e.
Proof.
  intros j [a b] I J. destruct (path_pts p2 paths POK _ I) as (LA & LB). cbn [fst snd] in *. unfold quad, face4. cbn [fst snd]. rewrite !V_eqb by assumption.
  rewrite (Nat.eqb_sym b a), !Nat.eqb_refl. replace (j =? S j)%nat with false by (symmetry; apply Nat.eqb_neq; lia). replace (S j =? S j)%nat with true by (symmetry; apply Nat.eqb_refl).
  rewrite !orb_true_r, !orb_false_r. destruct (a =? b)%nat eqn:AB; [apply Nat.eqb_eq in AB; subst; exfalso; eapply PE_irrefl; [exact S2|exact SIM|exact I]|].
  assert (PA : P (V a j) = pt a j) by (apply P_V; [exact LA|lia]). assert (PB : P (V b j) = pt b j) by (apply P_V; [exact LB|lia]).
  assert (PA' : P (V a (S j)) = pt a (S j)) by (apply P_V; [exact LA|lia]). assert (PB' : P (V b (S j)) = pt b (S j)) by (apply P_V; [exact LB|lia]).
  cbv beta in PA, PB, PA', PB'. unfold edge_moment. cbn [fst snd].
  destruct (ax a) eqn:A, (ax b) eqn:B; cbn [negb andb app length Nat.ltb Nat.leb rev_perhaps].
  - rewrite qsum_nil, (F_ax a A), (F_ax b B). ring.
  - rewrite qsum_cons, qsum_nil. unfold face_vol. cbn [edges app combine length qsum fold_right fst snd]. rewrite PA, PB, PB', !det3_pt. unfold det3, cross. rewrite (F_ax a A). cbn [px py pz fst snd Z.of_nat Pos.of_succ_nat Pos.succ].
    change (inject_Z 3) with 3. field.
  - rewrite qsum_cons, qsum_nil. unfold face_vol. cbn [edges app combine length qsum fold_right fst snd]. rewrite PA, PB, PA', !det3_pt. unfold det3, cross. rewrite (F_ax b B). cbn [px py pz fst snd Z.of_nat Pos.of_succ_nat Pos.succ].
    change (inject_Z 3) with 3. field.
  - rewrite qsum_cons, qsum_nil. unfold face_vol. cbn [edges app combine length qsum fold_right fst snd]. rewrite PA, PB, PA', PB', !det3_pt. unfold det3, cross. cbn [px py pz fst snd Z.of_nat Pos.of_succ_nat Pos.succ].
    change (inject_Z 4) with 4. field.
Qed.
Lemma qsum_flat : forall {A B} (f : B -> Q) (g : A -> list B) l, qsum f (flat_map g l) == qsum (fun x => qsum f (g x)) l.
Proof. induction l as [|x l IH]; [reflexivity|]. cbn [flat_map]. rewrite qsum_app, qsum_cons, IH. reflexivity. Qed.
Lemma qsum_zero : forall {A} (f : A -> Q) l, (forall x, In x l -> f x == 0) -> qsum f l == 0.
Proof. intros A f l H. rewrite (qsum_ext _ (fun _ => 0) l H), qsum_const. ring. Qed.
Lemma arc_volume : volume pts (arc_faces zero p2 paths s false) == - turning cs 0 (s - 1) * moment zero p2 paths.
Proof.
  unfold volume, arc_faces. rewrite qsum_app, qsum_flat.
  rewrite (qsum_ext _ (fun j => (- moment zero p2 paths) * cross (C j) (C (S j))) (seq 0 (s - 1))).
  - rewrite qsum_scale. unfold turning. fold C. rewrite (qsum_flat (face_vol _) (caps zero p2 s false)). rewrite (qsum_zero _ paths).
    + unfold C. ring.
    + intros pa Ip. assert (L : forall i, In i pa -> (i < len)%nat) by (intros i K; apply POK, in_concat; exists pa; split; assumption).
      unfold caps. cbn [rev_perhaps negb]. rewrite !qsum_cons, qsum_nil, face_rev, !cap_vol by (try exact L; lia). ring.
  - intros j J. apply in_seq in J. rewrite qsum_flat. rewrite (qsum_ext _ (fun e => (- cross (C j) (C (S j))) * edge_moment e)).
    + rewrite qsum_scale. unfold moment, edge_moment, F. ring.
    + intros e I. apply quad_vol; [exact I|lia].
Qed.
End Points.

(** ** One arc *)
Local Open Scope Q_scope.
Lemma arc_good : forall zero p2 paths m cs s neg, paths_ok (length p2) paths -> (2 <= s <= length cs)%nat ->
  exists r, rotext_arc p2 paths (idx zero p2) (n0 zero p2) m cs s neg = Some r /\ good paths r /\
  (simple_paths paths -> volume (fst r) (snd r) == (if neg then 1 else - (1)) * qabs (det m) * turning cs 0 (s - 1) * moment zero p2 paths).
Proof.
  intros zero p2 paths m cs s neg POK (S2 & CS). unfold rotext_arc. replace (2 <=? s)%nat with true by (symmetry; apply Nat.leb_le; exact S2). cbn [check].
  destruct (points_ok zero p2 cs s S2 CS) as (pts & -> & PL). cbn [bind].
  rewrite connect_ok by assumption. cbn [bind]. rewrite ends_ok by assumption. cbn [bind]. set (rv := xorb _ _).
  change (flat_map (fun j => flat_map (quad zero p2 rv j) (all_edges paths)) (seq 0 (s - 1)) ++ flat_map (caps zero p2 s rv) paths) with (arc_faces zero p2 paths s rv).
  eexists. split; [reflexivity|]. cbn [fst snd].
  split; [split; [apply arc_balanced; assumption|split; [|]]|].
  - cbn [fst snd]. rewrite map_length, (proj1 PL). apply arc_range; assumption.
  - cbn [fst snd]. intros SIM. split; [apply arc_closed; assumption|apply arc_3; assumption].
  - intros SIM. rewrite volume_map.
    + assert (A : volume pts (arc_faces zero p2 paths s rv) == (if rv then 1 else -(1)) * turning cs 0 (s - 1) * moment zero p2 paths).
      { destruct rv.
        - rewrite arc_rev. unfold volume. rewrite volume_rev. fold (volume pts (arc_faces zero p2 paths s false)). rewrite (arc_volume zero p2 cs s S2 CS paths POK SIM pts PL). ring.
        - rewrite (arc_volume zero p2 cs s S2 CS paths POK SIM pts PL). ring. }
      rewrite A. unfold rv, qabs. destruct (Qle_bool 0 (det m)), neg; cbn; ring.
    + rewrite (proj1 PL). apply arc_range; assumption.
    + apply arc_closed; assumption.
    + apply arc_3; assumption.
Qed.
Lemma turning_skipn : forall cs k n, turning (skipn k cs) 0 n == turning cs k n.
Proof.
  intros cs k n. unfold turning. replace (seq k n) with (map (fun j => j + k)%nat (seq 0 n)).
  - rewrite qsum_map. apply qsum_ext. intros j _. change (S (j + k)) with (S j + k)%nat.
    assert (E : forall i, nth i (skipn k cs) (0, 0) = nth (i + k) cs (0, 0)).
    { clear. induction k as [|k IH] in cs |- *; intros i; [rewrite Nat.add_0_r; reflexivity|]. destruct cs as [|c cs]; [destruct i; destruct (_ + _)%nat; reflexivity|].
      cbn [skipn]. rewrite IH, Nat.add_succ_r. reflexivity. }
    rewrite !E. reflexivity.
  - induction n as [|n IH]; [reflexivity|]. rewrite !seq_S, map_app, IH. cbn. rewrite (Nat.add_comm n k). reflexivity.
Qed.
Lemma turning_split : forall cs a b, turning cs 0 (a + b) == turning cs 0 a + turning cs a b.
Proof. intros. unfold turning. rewrite seq_app, qsum_app. reflexivity. Qed.
