(** Theorems about the pointer structure of red-black trees (claim C57): the code
    of dict.c on nodes with parent and child pointers does what the operations
    on trees do. *)
From Coq Require Import ZArith List Bool Arith Lia Permutation.
From Verif Require Import Dict_model Dict_spec Dict_proofs Dict_proofs2 Dict_proofs3 Dict_props.
From Verif Require Import Ptr_model Ptr_spec Ptr_proofs Ptr_proofs2 Ptr_proofs3 Ptr_proofs4 Ptr_proofs5
  Ptr_proofs6 Ptr_proofs7 Ptr_proofs8 Ptr_proofs9 Ptr_proofs10.
Import ListNotations.

Lemma changes_cnt h h' T : (forall z, cnt z T = 0 -> h' z = h z) -> changes h h' (inorder T).
Proof. intros H y Hy. apply H. rewrite <- cnt_in in Hy. lia. Qed.

Lemma at_cnt T z x : at_node T z x -> exists t c, z = (t, c) /\ plug t c = T /\ root_of t = Some x.
Proof.
  destruct z as (t, c). intros (P & l & s & r & E1). cbn in *. exists t, c. subst t. auto.
Qed.

Lemma notin_cnt x T : ~ In x (inorder T) -> cnt x T = 0.
Proof. rewrite <- cnt_in. lia. Qed.

Lemma disj_cnt l r : NoDup (inorder l ++ inorder r) -> forall z, cnt z l + cnt z r <= 1.
Proof.
  intros H z. apply nd_app in H. destruct H as (H1 & H2 & H3).
  assert (Q1 := proj1 (cnt_nodup l) H1 z). assert (Q2 := proj1 (cnt_nodup r) H2 z). specialize (H3 z).
  rewrite <- !cnt_in in H3. lia.
Qed.

(** The memory contains what was written. *)
Definition ex7 : tree := tree_of [4; 2; 6; 1; 3; 5; 7].
Definition ex7h : heap := store None ex7 blank.
Example ex7_tree : ex7 = N (N (N E 1 1 E) 2 2 (N E 3 1 E)) 4 4 (N (N E 5 1 E) 6 2 (N E 7 1 E)) /\
  has_tree ex7h ex7.
Proof.
  split; [reflexivity|]. split.
  - vm_compute. repeat split.
  - vm_compute. repeat (constructor; [cbn; intuition discriminate|]). constructor.
Qed.

(** *** Exchange of two nodes

    dict.c:988-1028: two nodes of the same or of different trees change places
    (including the case that one is the child of the other, or that both have
    the same parent). *)
Theorem C57_swap : forall h ts a b, Forall (rep h None) ts -> NoDup (flat_map inorder ts) ->
  In a (flat_map inorder ts) -> In b (flat_map inorder ts) ->
  exists h', swap_p a b h = Some h' /\
    Forall (rep h' None) (map (rename (exchange a b)) ts) /\ changes h h' (flat_map inorder ts).
Proof. exact swap_forest. Qed.

Theorem C57_swap_update_root : forall h T a b, has_tree h T -> In a (inorder T) -> In b (inorder T) ->
  exists h', swap_update_root a b (root_of T) h = Some (h', root_of (rename (exchange a b) T)) /\
    has_tree h' (rename (exchange a b) T) /\ changes h h' (inorder T).
Proof.
  intros h T a b (HR & HN) Ha Hb.
  destruct (swap_forest h [T] a b) as (h' & E1 & F & C); cbn [flat_map]; rewrite ?app_nil_r; auto.
  exists h'. unfold swap_update_root. rewrite E1. cbn [bind].
  rewrite exchange_swap_root, rename_root. split; [reflexivity|].
  cbn [flat_map] in C. rewrite app_nil_r in C. split; [|exact C].
  cbn [map] in F. apply Forall_inv in F. split; [exact F|].
  rewrite rename_inorder. apply FinFun.Injective_map_NoDup; [|exact HN].
  intros u v. unfold exchange.
  destruct (Nat.eqb_spec u a), (Nat.eqb_spec v a), (Nat.eqb_spec u b), (Nat.eqb_spec v b); congruence.
Qed.

Theorem C57_swap_update_root2 : forall h T1 T2 a b, has_tree h T1 -> has_tree h T2 ->
  NoDup (inorder T1 ++ inorder T2) -> In a (inorder T1) -> In b (inorder T2) ->
  exists h', swap_update_root2 a b (root_of T1) (root_of T2) h =
      Some (h', root_of (rename (exchange a b) T1), root_of (rename (exchange a b) T2)) /\
    has_tree h' (rename (exchange a b) T1) /\ has_tree h' (rename (exchange a b) T2) /\
    inorder (rename (exchange a b) T1) = map (exchange a b) (inorder T1) /\
    inorder (rename (exchange a b) T2) = map (exchange a b) (inorder T2).
Proof.
  intros h T1 T2 a b (HR1 & HN1) (HR2 & HN2) HN Ha Hb.
  destruct (swap_forest h [T1; T2] a b) as (h' & E1 & F & C); cbn [flat_map]; rewrite ?app_nil_r; auto.
  { apply in_or_app. auto. }
  { apply in_or_app. auto. }
  exists h'. unfold swap_update_root2. rewrite E1. cbn [bind].
  rewrite !exchange_swap_root, !rename_root. split; [reflexivity|].
  cbn [map] in F. assert (F1 := Forall_inv F). assert (F2 := Forall_inv (Forall_inv_tail F)).
  assert (Inj : FinFun.Injective (exchange a b)).
  { intros u v. unfold exchange.
    destruct (Nat.eqb_spec u a), (Nat.eqb_spec v a), (Nat.eqb_spec u b), (Nat.eqb_spec v b); congruence. }
  repeat split; try assumption; rewrite rename_inorder; try reflexivity;
    now apply FinFun.Injective_map_NoDup.
Qed.

(** The root and its child; two leaves of the same parent. *)
Example C57_swap_ex :
  match swap_update_root 4 6 (root_of ex7) ex7h with
  | Some (h, r) => load 9 h r = N (N (N E 1 1 E) 2 2 (N E 3 1 E)) 6 4 (N (N E 5 1 E) 4 2 (N E 7 1 E)) /\
      map (fun x => par (h x)) [1; 2; 3; 4; 5; 6; 7] = [Some 2; Some 6; Some 2; Some 6; Some 4; None; Some 4]
  | None => False
  end /\
  match swap_p 1 3 ex7h with
  | Some h => inorder (load 9 h (Some 4)) = [3; 2; 1; 4; 5; 6; 7]
  | None => False
  end.
Proof. vm_compute. auto. Qed.

(** *** Rotation, dict.c:277-323, with the pointer to the root *)
Theorem C57_rotate : forall h a y t b x s d c (dir : bool),
  let T := if dir then N (N a y t b) x s d else N d x s (N b y t a) in
  let T' := if dir then N a y t (N b x s d) else N (N d x s b) y t a in
  has_tree h (plug T c) ->
  exists h', rotate_p dir x (root_of (plug T c)) h = Some (h', root_of (plug T' c)) /\
    has_tree h' (plug T' c) /\ changes h h' (inorder (plug T c)).
Proof.
  intros h a y t b x s d c dir T T' H. apply has_tree_has in H.
  destruct (rotate_stp_root h dir T c x T' H) as (h' & E1 & H1 & O1 & _).
  - unfold T. destruct dir; reflexivity.
  - unfold T, T'. destruct dir; reflexivity.
  - exists h'. split; [exact E1|]. split; [now apply has_tree_has|now apply changes_cnt].
Qed.

Example C57_rotate_ex :
  match rotate_p false 2 (root_of ex7) ex7h with
  | Some (h, r) => load 9 h r = N (N (N (N E 1 1 E) 2 2 E) 3 1 E) 4 4 (N (N E 5 1 E) 6 2 (N E 7 1 E)) /\
      map (fun x => par (h x)) [1; 2; 3; 4] = [Some 2; Some 3; Some 4; None]
  | None => False
  end.
Proof. vm_compute. auto. Qed.

(** *** Walking, dict.c:349-409 *)
Theorem C57_start : forall h T dir fuel, has_tree h T -> T <> E -> count T < fuel ->
  exists r, root_of T = Some r /\
  start_p fuel h r dir = if dir then last_ (inorder T) else first (inorder T).
Proof.
  intros h T dir fuel H Hn Hf. apply has_tree_has in H.
  destruct (start_spec T [] dir Hn) as (t & c & S1 & S2 & S3 & S4 & c2 & S5 & S6 & S7).
  destruct (root_of T) as [r|] eqn:Er; [|destruct T; [congruence|discriminate]].
  exists r. split; [reflexivity|].
  destruct (start_p_ok h T [] dir t c r fuel H Er S1) as (P1 & _).
  { assert (Q := depth_size T). unfold size, count in *. lia. }
  rewrite P1. rewrite app_nil_r in S5. subst c2. rewrite <- S7, inorder_plug.
  destruct t as [|l x s r0]; [congruence|]. cbn [root_of].
  assert (B : forall c, Forall (fun f => fside f = false) c -> before c = []).
  { induction 1 as [|f k Hf' _ IH]; cbn; [reflexivity|]. rewrite IH, Hf'. reflexivity. }
  assert (A : forall c, Forall (fun f => fside f = true) c -> after c = []).
  { induction 1 as [|f k Hf' _ IH]; cbn; [reflexivity|]. rewrite IH, Hf'. reflexivity. }
  destruct dir; cbn [child] in S4; subst.
  - rewrite (A c S6). cbn. rewrite app_nil_r. unfold last_. rewrite !rev_app_distr. reflexivity.
  - rewrite (B c S6). reflexivity.
Qed.

Theorem C57_step : forall h T x dir fuel l1 l2, has_tree h T -> inorder T = l1 ++ x :: l2 ->
  count T < fuel ->
  step_p fuel h x dir = Some (if dir then last_ l1 else first l2).
Proof.
  intros h T x dir fuel l1 l2 H Hi Hf.
  assert (HN : NoDup (inorder T)) by apply H. apply has_tree_has in H.
  destruct (node_position T x) as (z & Hz); [rewrite Hi; apply in_or_app; right; now left|].
  rewrite <- (step_correct T z x dir HN Hz l1 l2 Hi).
  destruct (at_cnt _ _ _ Hz) as (t & c & -> & P & R).
  assert (Hs := step_p_ok h t c dir x fuel).
  rewrite P in Hs. specialize (Hs H R).
  destruct (step (t, c) dir) as [(t', c')|].
  - destruct Hs as (Hs & _ & Hn).
    { assert (Q := depth_size T). unfold size, count in *. lia. }
    rewrite Hs. destruct t'; [congruence|reflexivity].
  - apply Hs. assert (Q := depth_size T). unfold size, count in *. lia.
Qed.

(** dict.c:371-380 *)
Theorem C57_root : forall h T x fuel, has_tree h T -> In x (inorder T) -> count T < fuel ->
  root_p fuel h x = root_of T.
Proof. intros h T x fuel H Hx Hf. apply root_p_ok; [now apply has_tree_has|now apply cnt_in|exact Hf]. Qed.

Example C57_walk_ex :
  start_p 9 ex7h 4 false = Some 1 /\ start_p 9 ex7h 4 true = Some 7 /\ root_p 9 ex7h 5 = Some 4 /\
  map (fun x => step_p 9 ex7h x false) [1; 2; 3; 4; 5; 6; 7] =
    map Some [Some 2; Some 3; Some 4; Some 5; Some 6; Some 7; None].
Proof. vm_compute. auto. Qed.

(** *** Insertion, dict.c:585-647

    Next to a node, or at an end of the tree.  The node is not in a tree (its
    pointers are NULL) and black. *)
Definition unlinked_node (h : heap) (x : nat) : Prop :=
  h x = mkNode None None None (st (h x)) /\ Nat.odd (st (h x)) = false.

Theorem C57_insert : forall h T x y i fuel l1 l2, has_tree h T -> balanced T ->
  ~ In x (inorder T) -> unlinked_node h x -> inorder T = l1 ++ y :: l2 -> count T < fuel ->
  exists h' T', insert_ref_p fuel x (Some y) i (root_of T) h = Some (h', root_of T') /\
    has_tree h' T' /\ balanced T' /\
    inorder T' = (if i then l1 ++ y :: x :: l2 else l1 ++ x :: y :: l2) /\
    changes h h' (inorder T').
Proof.
  intros h T x y i fuel l1 l2 H Hb Hx (Hu & Ho) Hi Hf.
  assert (HN : NoDup (inorder T)) by apply H.
  destruct (node_position T y) as (z & Hz); [rewrite Hi; apply in_or_app; right; now left|].
  destruct (insert_ref_pos x T z y i Hb Hz) as (T' & E1 & B1 & I1).
  assert (Sp := zip_split _ _ _ Hz).
  assert (Lt : lt_nodes z = l1 /\ gt_nodes z = l2).
  { apply (nodup_split_eq y); [now rewrite <- Sp|now rewrite <- Sp]. }
  destruct Lt as (Lt & Gt). rewrite Lt, Gt in I1.
  destruct (insert_ref_ok fuel h T x (Some z) i T') as (h' & E2 & H2 & O2 & C2).
  - now apply has_tree_has.
  - now apply notin_cnt.
  - exact Hu.
  - exact Ho.
  - intros t c [= ->]. destruct (at_cnt _ _ _ Hz) as (t0 & c0 & [= -> ->] & P & R).
    split; [exact P|]. intros ->. discriminate.
  - exact E1.
  - assert (Q := depth_size T). unfold size, count in *. lia.
  - exists h', T'. destruct (at_cnt _ _ _ Hz) as (t0 & c0 & -> & P & R).
    assert (Zi : zid (Some (t0, c0)) = Some y) by (destruct t0; [discriminate|exact R]).
    rewrite Zi in E2. split; [exact E2|]. split; [now apply has_tree_has|].
    split; [exact B1|]. split; [exact I1|].
    intros u Hu'. rewrite <- cnt_in in Hu'. rewrite C2 in Hu'. apply O2; [lia|].
    intros ->. rewrite eqn_refl in Hu'. lia.
Qed.

Theorem C57_insert_end : forall h T x i fuel, has_tree h T -> balanced T ->
  ~ In x (inorder T) -> unlinked_node h x -> count T < fuel ->
  exists h' T', insert_ref_p fuel x None i (root_of T) h = Some (h', root_of T') /\
    has_tree h' T' /\ balanced T' /\
    inorder T' = (if i then x :: inorder T else inorder T ++ [x]) /\
    changes h h' (inorder T').
Proof.
  intros h T x i fuel H Hb Hx (Hu & Ho) Hf.
  destruct (insert_null_correct x T i Hb) as (T' & E1 & B1 & I1).
  destruct (insert_ref_ok fuel h T x None i T') as (h' & E2 & H2 & O2 & C2).
  - now apply has_tree_has.
  - now apply notin_cnt.
  - exact Hu.
  - exact Ho.
  - discriminate.
  - exact E1.
  - assert (Q := depth_size T). unfold size, count in *. lia.
  - exists h', T'. split; [exact E2|]. split; [now apply has_tree_has|].
    split; [exact B1|]. split; [exact I1|].
    intros u Hu'. rewrite <- cnt_in in Hu'. rewrite C2 in Hu'. apply O2; [lia|].
    intros ->. rewrite eqn_refl in Hu'. lia.
Qed.

(** Node 8 after node 5, whose neighbour 6 has a left child: rotations. *)
Example C57_insert_ex :
  match insert_ref_p 9 8 (Some 5) true (root_of ex7) ex7h with
  | Some (h, r) => inorder (load 9 h r) = [1; 2; 3; 4; 5; 8; 6; 7] /\
      load 9 h r = N (N (N E 1 1 E) 2 2 (N E 3 1 E)) 4 4 (N (N E 5 2 (N E 8 1 E)) 6 3 (N E 7 2 E)) /\
      map (fun x => par (h x)) [5; 6; 8] = [Some 6; Some 4; Some 5]
  | None => False
  end /\
  match insert_ref_p 9 8 None false (root_of ex7) ex7h with
  | Some (h, r) => inorder (load 9 h r) = [1; 2; 3; 4; 5; 6; 7; 8]
  | None => False
  end.
Proof. vm_compute. auto. Qed.

(** *** Removal, dict.c:657-761 and 763-949; dict.h:1004-1016

    The node is unlinked: its pointers are NULL. *)
Theorem C57_remove : forall h T x fuel l1 l2, has_tree h T -> balanced T ->
  inorder T = l1 ++ x :: l2 -> 2 * count T + 4 < fuel ->
  exists h' T', remove_aug_p fuel x (root_of T) h = Some (h', root_of T') /\
    has_tree h' T' /\ balanced T' /\ inorder T' = l1 ++ l2 /\
    changes h h' (inorder T) /\ unlinked_node h' x.
Proof.
  intros h T x fuel l1 l2 H Hb Hi Hf.
  assert (HN : NoDup (inorder T)) by apply H.
  destruct (node_position T x) as (z & Hz); [rewrite Hi; apply in_or_app; right; now left|].
  destruct (remove_correct T z x Hb HN Hz) as (T' & E1 & B1 & I1).
  destruct (at_cnt _ _ _ Hz) as (t & c & -> & P & R). apply has_tree_has in H. rewrite <- P in H.
  destruct (remove_aug_ok fuel h t c x T' H R E1) as (h' & E2 & H2 & O2 & C2 & X2).
  { rewrite P. exact Hf. }
  rewrite P in *. exists h', T'. split; [exact E2|]. split; [now apply has_tree_has|].
  split; [exact B1|]. split; [now apply I1|]. split; [now apply changes_cnt|].
  split; rewrite X2; reflexivity.
Qed.

Theorem C57_extract : forall h T (i : bool) fuel, has_tree h T -> balanced T -> T <> E ->
  2 * count T + 4 < fuel ->
  exists x h' T', extract_start_p fuel (root_of T) i h = Some (Some x, h', root_of T') /\
    has_tree h' T' /\ balanced T' /\
    inorder T = (if i then inorder T' ++ [x] else x :: inorder T') /\
    changes h h' (inorder T) /\ unlinked_node h' x.
Proof.
  intros h T i fuel H Hb Hn Hf.
  destruct (extract_correct T i Hb Hn) as (x & T' & rest & E1 & B1 & <- & I1).
  apply has_tree_has in H.
  destruct (Ptr_proofs9.extract_start_ok fuel h T i (Some x) T' H E1 Hf) as (h' & E2 & H2 & O2 & C2 & X2).
  exists x, h', T'. split; [exact E2|]. split; [now apply has_tree_has|].
  split; [exact B1|]. split; [exact I1|]. split; [now apply changes_cnt|].
  split; rewrite X2; reflexivity.
Qed.

(** The root, with two children: 5 takes its place. *)
Example C57_remove_ex :
  match remove_aug_p 20 4 (root_of ex7) ex7h with
  | Some (h, r) => load 9 h r = N (N (N E 1 1 E) 2 2 (N E 3 1 E)) 5 4 (N E 6 2 (N E 7 1 E)) /\
      map (fun x => par (h x)) [2; 5; 6] = [Some 5; None; Some 5] /\ h 4 = mkNode None None None 0 /\
      match remove_aug_p 20 7 r h with
      | Some (h, r) =>
        match remove_aug_p 20 6 r h with
        | Some (h, r) => load 9 h r = N (N E 1 2 E) 2 4 (N (N E 3 1 E) 5 2 E) /\
            map (fun x => par (h x)) [1; 2; 3; 5] = [Some 2; None; Some 5; Some 2]
        | None => False
        end
      | None => False
      end
  | None => False
  end.
Proof. vm_compute. auto. Qed.

(** *** Join and split, dict.c:1120-1333 *)
Theorem C57_join3 : forall h l m r fuel, has_tree h l -> has_tree h r -> balanced l -> balanced r ->
  NoDup (inorder l ++ m :: inorder r) -> h m = mkNode None None None (st (h m)) ->
  count l + count r < fuel ->
  exists h' T, join3_p fuel (root_of l) m (root_of r) h = Some (h', root_of T) /\
    has_tree h' T /\ balanced T /\ inorder T = inorder l ++ m :: inorder r /\
    changes h h' (inorder T).
Proof.
  intros h l m r fuel Hl Hr Bl Br HN Hm Hf.
  destruct (join3_correct l m r Bl Br) as (T & E1 & B1 & I1).
  apply has_tree_has in Hl, Hr.
  assert (Cz : forall z, cnt z l + cnt z r + eqn m z <= 1).
  { intros z. change (NoDup (inorder (N l m 0 r))) in HN.
    assert (Q := proj1 (cnt_nodup _) HN z). cbn in Q. lia. }
  destruct (Ptr_proofs10.join3_ok fuel l m r h T Hl Hr Cz Hm E1 Hf) as (h' & E2 & J1 & J2 & J3).
  exists h', T. split; [exact E2|]. split; [now apply has_tree_has|]. split; [exact B1|]. split; [exact I1|].
  intros u Hu. rewrite <- cnt_in, J3 in Hu. apply J2; try lia. intros ->. rewrite eqn_refl in Hu. lia.
Qed.

Theorem C57_join2 : forall h l r fuel, has_tree h l -> has_tree h r -> balanced l -> balanced r ->
  NoDup (inorder l ++ inorder r) -> 2 * (count l + count r) + 4 < fuel ->
  exists h' T, join2_p fuel (root_of l) (root_of r) h = Some (h', root_of T) /\
    has_tree h' T /\ balanced T /\ inorder T = inorder l ++ inorder r /\
    changes h h' (inorder T).
Proof.
  intros h l r fuel Hl Hr Bl Br HN Hf.
  destruct (join2_correct l r Bl Br) as (T & E1 & B1 & I1).
  apply has_tree_has in Hl, Hr.
  destruct (Ptr_proofs10.join2_ok fuel l r h T Hl Hr (disj_cnt _ _ HN) E1 Hf) as (h' & E2 & J1 & J2 & J3).
  exists h', T. split; [exact E2|]. split; [now apply has_tree_has|]. split; [exact B1|]. split; [exact I1|].
  intros u Hu. rewrite <- cnt_in, J3 in Hu. apply J2; lia.
Qed.

Theorem C57_split : forall cmp back h T fuel, has_tree h T -> balanced T -> in_order cmp (inorder T) ->
  count T + 1 < fuel ->
  exists h' l r, split_p fuel cmp back (root_of T) h = Some (h', root_of l, root_of r) /\
    has_tree h' l /\ has_tree h' r /\ balanced l /\ balanced r /\
    inorder T = inorder l ++ inorder r /\
    Forall (fun x => if back then 0 < cmp x else 0 <= cmp x)%Z (inorder l) /\
    Forall (fun x => if back then cmp x <= 0 else cmp x < 0)%Z (inorder r) /\
    changes h h' (inorder T).
Proof.
  intros cmp back h T fuel H Hb Ho Hf.
  destruct (split_correct cmp back T Hb Ho) as (l & r & E1 & B1 & B2 & I1 & F1 & F2).
  apply has_tree_has in H.
  destruct (Ptr_proofs10.split_ok cmp back T fuel h l r H E1 Hf) as (h' & E2 & H1 & H2 & O1 & _).
  exists h', l, r. split; [exact E2|]. split; [now apply has_tree_has|]. split; [now apply has_tree_has|].
  repeat (split; [assumption|]). now apply changes_cnt.
Qed.

Example C57_join_split_ex :
  match split_p 20 (fun n => Z.of_nat 5 - Z.of_nat n)%Z true (root_of ex7) ex7h with
  | Some (h, l, r) => inorder (load 9 h l) = [1; 2; 3; 4] /\ inorder (load 9 h r) = [5; 6; 7] /\
      match join3_p 20 r 9 l h with
      | Some (h, t) => inorder (load 9 h t) = [5; 6; 7; 9; 1; 2; 3; 4] /\ root_p 9 h 3 = t
      | None => False
      end /\
      match join2_p 20 l r h with
      | Some (h, t) => inorder (load 9 h t) = [1; 2; 3; 4; 5; 6; 7]
      | None => False
      end
  | None => False
  end.
Proof. vm_compute. auto. Qed.

Print Assumptions C57_swap.
Print Assumptions C57_swap_update_root.
Print Assumptions C57_swap_update_root2.
Print Assumptions C57_rotate.
Print Assumptions C57_start.
Print Assumptions C57_step.
Print Assumptions C57_root.
Print Assumptions C57_insert.
Print Assumptions C57_insert_end.
Print Assumptions C57_remove.
Print Assumptions C57_extract.
Print Assumptions C57_join3.
Print Assumptions C57_join2.
Print Assumptions C57_split.
