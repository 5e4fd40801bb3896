(** Properties of the dictionary (C15-C18). *)
From Coq Require Import List Bool Arith ZArith Lia ZifyBool.
From Verif Require Import Dict_model Dict_spec Dict_proofs Dict_proofs2 Dict_proofs3.
Import ListNotations.

(** Example trees: insert the given nodes in this order, by key = number. *)
Definition ins (d : option cdict) (x : nat) : option cdict :=
  match d with
  | Some d => match insert_update_by x (cmp_key Z.of_nat (Z.of_nat x)) 1 d with
              | Some (_, d') => Some d' | None => None end
  | None => None
  end.
Definition build (l : list nat) : option cdict := fold_left ins l (Some (mkC E None None)).
Definition tree_of (l : list nat) : tree :=
  match build l with Some d => c_root d | None => E end.

(** ** C15 Insertion *)

(** Any tree made with the operations satisfies the red-black invariant,
    including the stored heights... *)
Theorem reachable_balanced : forall t, reach t -> balanced t.
Proof. exact reach_bal. Qed.

Example reachable_balanced_ex :
  let t := tree_of [5; 3; 8; 1; 4; 7; 9; 2; 6] in
  get_black_height t = 2 /\ depth t = 4 /\ inorder t = [1; 2; 3; 4; 5; 6; 7; 8; 9].
Proof. vm_compute. auto. Qed.

(** ... and has logarithmic height. *)
Theorem balanced_height : forall t, balanced t -> depth t <= 2 * Nat.log2 (count t + 1) + 1.
Proof. exact depth_log. Qed.

Example balanced_height_ex :
  depth (tree_of (seq 0 60)) = 9 /\ count (tree_of (seq 0 60)) = 60.
Proof. vm_compute. auto. Qed.

(** Insertion by key never fails (no assertion, no NULL dereference); it keeps
    the invariant and the cached extrema; the new node goes to the place given
    by the comparison: after all smaller nodes (and the equal ones, if
    dup > 0), before all greater ones (and the equal ones, if dup < 0).
    Nothing is inserted only if duplicates are rejected (dup = 0, or 2 modulo
    4) and an equal node exists, which is then returned. *)
Theorem insert_by_correct : forall cmp dup node d,
  balanced (c_root d) -> in_order cmp (inorder (c_root d)) -> cached_ok d ->
  exists res d', insert_update_by node cmp dup d = Some (res, d') /\
    balanced (c_root d') /\ cached_ok d' /\
    match res with
    | Some x => d' = d /\ In x (inorder (c_root d)) /\ cmp x = 0%Z /\ (dup = 0%Z \/ dup_e dup = true)
    | None =>
      (dup = 0%Z \/ dup_e dup = true -> Forall (fun x => cmp x <> 0%Z) (inorder (c_root d))) /\
      exists l1 l2, inorder (c_root d) = l1 ++ l2 /\ inorder (c_root d') = l1 ++ node :: l2 /\
        Forall (fun x => 0 < cmp x \/ cmp x = 0 /\ 0 < dup)%Z l1 /\
        Forall (fun x => cmp x < 0 \/ cmp x = 0 /\ dup < 0)%Z l2
    end.
Proof. exact insert_update_by_ok. Qed.

(** Keys x/10: node 27 is inserted before (dup = -1) or after (dup = 1) the
    equal nodes 20, 21; it is rejected with dup = 0. *)
Example insert_by_correct_ex :
  let key := fun n => Z.of_nat (n / 10) in
  let d := match build [10; 20; 21; 30; 31; 40] with Some d => d | None => mkC E None None end in
  let run := fun dup => match insert_update_by 27 (cmp_key key 2) dup d with
     | Some (res, d') => (res, inorder (c_root d'), c_min d', c_max d') | None => (None, [], None, None) end in
  run (-1)%Z = (None, [10; 27; 20; 21; 30; 31; 40], Some 10, Some 40) /\
  run 1%Z = (None, [10; 20; 21; 27; 30; 31; 40], Some 10, Some 40) /\
  run 0%Z = (Some 20, [10; 20; 21; 30; 31; 40], Some 10, Some 40).
Proof. vm_compute. auto. Qed.

(** The same with keys in a total order: a sorted dictionary stays sorted. *)
Theorem insert_sorted : forall key dup node d,
  balanced (c_root d) -> sorted key (inorder (c_root d)) -> cached_ok d ->
  exists res d', insert_update_by node (cmp_key key (key node)) dup d = Some (res, d') /\
    balanced (c_root d') /\ sorted key (inorder (c_root d')) /\ cached_ok d' /\
    (res = None -> exists l1 l2, inorder (c_root d) = l1 ++ l2 /\ inorder (c_root d') = l1 ++ node :: l2) /\
    (forall x, res = Some x -> d' = d /\ In x (inorder (c_root d)) /\ key x = key node).
Proof.
  intros key dup node d Hb Hs Hc.
  destruct (insert_update_by_ok (cmp_key key (key node)) dup node d Hb (sorted_in_order key _ _ Hs) Hc)
    as (res & d' & E1 & E2 & E3 & E4).
  exists res, d'. split; [exact E1|]. split; [exact E2|]. destruct res as [x|].
  - destruct E4 as (-> & H1 & H2 & _). split; [exact Hs|]. split; [exact Hc|]. split; [discriminate|].
    intros y [= <-]. unfold cmp_key in H2. repeat split; auto. lia.
  - destruct E4 as (_ & l1 & l2 & H1 & H2 & H3 & H4). split; [|split; [exact E3|]].
    + rewrite H2. rewrite H1 in Hs. apply sorted_insert; [exact Hs| |].
      * eapply Forall_impl; [|exact H3]. unfold cmp_key. intros y Hy; cbn beta in Hy. lia.
      * eapply Forall_impl; [|exact H4]. unfold cmp_key. intros y Hy; cbn beta in Hy. lia.
    + split; [eauto|discriminate].
Qed.

Example insert_sorted_ex :
  match build [50; 20; 70; 10; 30; 60; 80; 25; 27; 26; 99; 5] with
  | Some d => inorder (c_root d) = [5; 10; 20; 25; 26; 27; 30; 50; 60; 70; 80; 99] /\
              c_min d = Some 5 /\ c_max d = Some 99
  | None => False end.
Proof. vm_compute. auto. Qed.

(** Insertion next to a given node. *)
Theorem insert_at_correct : forall node z x dir d,
  balanced (c_root d) -> NoDup (inorder (c_root d)) -> cached_ok d -> at_node (c_root d) z x ->
  exists d', insert_update_at node (Some z) dir d = Some d' /\ balanced (c_root d') /\ cached_ok d' /\
    exists l1 l2, inorder (c_root d) = l1 ++ x :: l2 /\
      inorder (c_root d') = if dir then l1 ++ x :: node :: l2 else l1 ++ node :: x :: l2.
Proof. exact insert_update_at_ok. Qed.

(** In this tree, node 4 (the root, with two children). *)
Example insert_at_correct_ex :
  match build [1; 2; 3; 4; 5; 6; 7; 8] with
  | Some d =>
    match c_root d with
    | N l x s r =>
      (x, match insert_update_at 100 (Some (c_root d, [])) true d with Some d' => inorder (c_root d') | None => [] end,
       match insert_update_at 100 (Some (c_root d, [])) false d with Some d' => inorder (c_root d') | None => [] end)
    | E => (0, [], []) end
  | None => (0, [], []) end =
  (4, [1; 2; 3; 4; 100; 5; 6; 7; 8], [1; 2; 3; 100; 4; 5; 6; 7; 8]).
Proof. vm_compute. reflexivity. Qed.

(** Insertion with a NULL position adds a new maximum (dir = 0) or minimum
    (dir = 1)... *)
Theorem insert_null_correct : forall node t i, balanced t ->
  exists t', insert_ref node None i t = Some t' /\ balanced t' /\
    inorder t' = if i then node :: inorder t else inorder t ++ [node].
Proof. exact insert_ref_null. Qed.

Example insert_null_correct_ex :
  match insert_ref 100 None false (tree_of [2; 1; 3; 4]), insert_ref 100 None true (tree_of [2; 1; 3; 4]) with
  | Some a, Some b => (inorder a, inorder b) | _, _ => ([], []) end = ([1; 2; 3; 4; 100], [100; 1; 2; 3; 4]).
Proof. vm_compute. reflexivity. Qed.

(** ... but the cached extrema are then not updated unless the dictionary was
    empty: the condition in dict.h:1431-1436 compares the cached extremum with
    NULL and with the position only.  The full statement of C15 (cached
    extrema correct) is refuted for [cp_dict_insert_update_at] with pos = NULL. *)
Theorem insert_update_at_null_refuted :
  ~ (forall node dir d, balanced (c_root d) -> cached_ok d ->
       forall d', insert_update_at node None dir d = Some d' -> cached_ok d').
Proof.
  intros H.
  assert (balanced (tree_of [1; 2])) as Hb.
  { exists false, 1. vm_compute. apply (rb_B 0 false true E 1 (N E 2 1 E)); [constructor|].
    apply (rb_R 0 E 2 E); constructor. }
  specialize (H 3 false (mkC (tree_of [1; 2]) (Some 1) (Some 2)) Hb).
  assert (cached_ok (mkC (tree_of [1; 2]) (Some 1) (Some 2))) as Hc by (split; reflexivity).
  specialize (H Hc _ eq_refl). destruct H as [_ H]. vm_compute in H. discriminate.
Qed.

Example insert_update_at_null_refuted_ex :
  match build [1; 2] with
  | Some d => match insert_update_at 3 None false d with
              | Some d' => (inorder (c_root d'), c_max d') | None => ([], None) end
  | None => ([], None) end = ([1; 2; 3], Some 2).
Proof. vm_compute. reflexivity. Qed.

(** ** C16 Removal *)

(** Each node has a position (so the next theorem is about any node). *)
Theorem node_position : forall t x, In x (inorder t) -> exists z, at_node t z x.
Proof. intros t x H. exact (position_exists t [] x H). Qed.

Example node_position_ex :
  match tree_of [2; 1; 3] with
  | N l x s r => zid (Some (r, [mkF true x s l])) = Some 3 /\ plug r [mkF true x s l] = tree_of [2; 1; 3]
  | E => False end.
Proof. vm_compute. auto. Qed.

(** Removing any node never fails, keeps the invariant, and removes exactly
    this node from the sequence. *)
Theorem remove_correct : forall t z x, balanced t -> NoDup (inorder t) -> at_node t z x ->
  exists t', remove z = Some t' /\ balanced t' /\
    forall l1 l2, inorder t = l1 ++ x :: l2 -> inorder t' = l1 ++ l2.
Proof.
  intros t z x Hb Hn Hz. destruct (remove_ok t z x Hb Hz) as (t' & E1 & E2 & E3).
  exists t'. split; [exact E1|]. split; [exact E2|]. intros l1 l2 H.
  pose proof (zip_split _ _ _ Hz) as Sp. rewrite Sp in H, Hn.
  destruct (nodup_split_eq x _ _ _ _ Hn H) as [<- <-]. exact E3.
Qed.

(** All nodes of a tree of 12, each removed: no failure. *)
Definition positions (t : tree) : list (tree * list frame) :=
  (fix go (n : nat) (z : option (tree * list frame)) :=
     match n, z with S n', Some z' => z' :: go n' (step z' false) | _, _ => [] end)
  (S (count t)) (start t [] false).
Example remove_correct_ex :
  let t := tree_of (seq 1 12) in
  map (fun z => match remove z with Some t' => inorder t' | None => [] end) (positions t) =
  map (fun x => filter (fun y => negb (x =? y)) (seq 1 12)) (seq 1 12).
Proof. vm_compute. reflexivity. Qed.

(** Extracting the first (i = 0) or last (i = 1) node. *)
Theorem extract_correct : forall t i, balanced t -> t <> E ->
  exists x t' rest, extract_start t i = Some (Some x, t') /\ balanced t' /\ inorder t' = rest /\
    inorder t = if i then rest ++ [x] else x :: rest.
Proof. exact extract_start_ok. Qed.

Example extract_correct_ex :
  match extract_start (tree_of (seq 1 7)) false, extract_start (tree_of (seq 1 7)) true with
  | Some (x, a), Some (y, b) => (x, inorder a, y, inorder b) | _, _ => (None, [], None, []) end =
  (Some 1, [2; 3; 4; 5; 6; 7], Some 7, [1; 2; 3; 4; 5; 6]).
Proof. vm_compute. reflexivity. Qed.

(** Extraction with a cached extremum updates it correctly. *)
Theorem extract_update_correct : forall t z x (i : bool), balanced t -> at_node t z x ->
  (exists l, inorder t = if i then l ++ [x] else x :: l) -> NoDup (inorder t) ->
  exists t' e, extract_update_start (Some z) i t = Some (Some x, t', e) /\ balanced t' /\
    (if i then inorder t = inorder t' ++ [x] /\ e = last_ (inorder t')
     else inorder t = x :: inorder t' /\ e = first (inorder t')).
Proof.
  intros t z x i Hb Hz [l Hl] Hn. apply extract_update_ok; [exact Hb|exact Hz|].
  pose proof (zip_split _ _ _ Hz) as Sp. rewrite Sp in Hl, Hn. destruct i.
  - destruct (nodup_split_eq x _ _ _ _ Hn Hl) as [_ H]. exact H.
  - destruct (nodup_split_eq x _ _ [] l Hn Hl) as [H _]. exact H.
Qed.

Example extract_update_correct_ex :
  match extract_update_start (start (tree_of (seq 1 7)) [] false) false (tree_of (seq 1 7)) with
  | Some (x, a, e) => (x, inorder a, e) | None => (None, [], None) end =
  (Some 1, [2; 3; 4; 5; 6; 7], Some 2).
Proof. vm_compute. reflexivity. Qed.

(** ** C17 Join and split *)

Theorem join3_correct : forall l m r, balanced l -> balanced r ->
  exists t, join3 l m r = Some t /\ balanced t /\ inorder t = inorder l ++ m :: inorder r.
Proof. exact join3_ok. Qed.

(** Very different heights. *)
Example join3_correct_ex :
  match join3 (tree_of (seq 0 40)) 40 (tree_of [41]), join3 (tree_of [0]) 1 (tree_of (seq 2 40)) with
  | Some a, Some b => (inorder a, inorder b) | _, _ => ([], []) end = (seq 0 42, seq 0 42).
Proof. vm_compute. reflexivity. Qed.

Theorem join2_correct : forall l r, balanced l -> balanced r ->
  exists t, join2 l r = Some t /\ balanced t /\ inorder t = inorder l ++ inorder r.
Proof. exact join2_ok. Qed.

Example join2_correct_ex :
  match join2 (tree_of (seq 0 5)) (tree_of (seq 5 20)) with Some t => inorder t | None => [] end = seq 0 25.
Proof. vm_compute. reflexivity. Qed.

(** Nodes that compare less go left; equal ones go right iff [back]. *)
Theorem split_correct : forall cmp back n, balanced n -> in_order cmp (inorder n) ->
  exists l r, split cmp back n = Some (l, r) /\ balanced l /\ balanced r /\
    inorder n = inorder l ++ inorder r /\
    Forall (fun x => if back then 0 < cmp x else 0 <= cmp x)%Z (inorder l) /\
    Forall (fun x => if back then cmp x <= 0 else cmp x < 0)%Z (inorder r).
Proof.
  intros cmp back n Hb Ho. destruct (split_ok cmp back n Hb Ho) as (l & r & E1 & E2 & E3 & E4 & E5 & E6).
  exists l, r. repeat split; auto; (eapply Forall_impl; [|eassumption]);
    intros y Hy; cbn beta in Hy; destruct back; cbn [Z.b2z] in Hy; lia.
Qed.

Example split_correct_ex :
  match split (cmp_key Z.of_nat 7) false (tree_of (seq 0 20)), split (cmp_key Z.of_nat 7) true (tree_of (seq 0 20)) with
  | Some (a, b), Some (c, d) => (inorder a, inorder b, inorder c, inorder d) | _, _ => ([], [], [], []) end =
  (seq 0 8, seq 8 12, seq 0 7, seq 7 13).
Proof. vm_compute. reflexivity. Qed.

(** ** C18 Search and traversal *)

(** A node is returned iff an equal one exists (if duplicates are rejected or
    dup is 2 modulo 4), with dup = 2 the last equal one, with dup = -2 the
    first one. *)
Theorem find_correct : forall cmp dup t, in_order cmp (inorder t) ->
  match r_node (find cmp dup t) with
  | Some z => exists x, at_node t z x /\ cmp x = 0%Z /\
      ((0 < dup)%Z -> exists l1 l2, inorder t = l1 ++ x :: l2 /\ Forall (fun y => (cmp y < 0)%Z) l2) /\
      ((dup < 0)%Z -> exists l1 l2, inorder t = l1 ++ x :: l2 /\ Forall (fun y => (0 < cmp y)%Z) l1)
  | None => dup = 0%Z \/ dup = 2%Z \/ dup = (-2)%Z -> Forall (fun x => cmp x <> 0%Z) (inorder t)
  end.
Proof.
  intros cmp dup t Ho. destruct (find_ok cmp dup t Ho) as [Hn _]. unfold node_ok in Hn.
  destruct (r_node (find cmp dup t)) as [z|].
  - destruct Hn as (x & Hx & H0 & H1 & H2). exists x. split; [exact Hx|]. split; [exact H0|].
    pose proof (zip_split _ _ _ Hx). split; intros Hd; exists (lt_nodes z), (gt_nodes z); auto.
  - intros H. apply Hn. destruct H as [->|[->| ->]]; auto.
Qed.

Example find_correct_ex :
  let key := fun n => Z.of_nat (n / 10) in
  let t := tree_of [10; 20; 21; 22; 23; 24; 30; 31; 40] in
  let run := fun k dup => zid (r_node (find (cmp_key key k) dup t)) in
  run 2%Z (-2)%Z = Some 20 /\ run 2%Z 2%Z = Some 24 /\ run 5%Z 0%Z = None /\ run 4%Z 0%Z = Some 40 /\
  run 1%Z 1%Z = None.
Proof. vm_compute. auto. Qed.

(** The documentation of cp_dict_find_ref (dict.h:104-106) says that the
    reference is (NULL, 1) if the found node is the root.  It is (root, 1). *)
Theorem find_root_reference_refuted :
  ~ (forall cmp t l x s r, t = N l x s r -> cmp x = 0%Z -> r_parent (find cmp 0 t) = None).
Proof.
  intros H. specialize (H (fun _ => 0%Z) _ E 1 1 E eq_refl eq_refl). vm_compute in H. discriminate.
Qed.

Example find_root_reference_refuted_ex :
  zid (r_parent (find (cmp_key Z.of_nat 2) 0 (tree_of [2; 1; 3]))) = Some 2.
Proof. vm_compute. reflexivity. Qed.

(** Traversal from the first node by next (dir = 0) or from the last by prev
    (dir = 1) visits all nodes, each once, in order, and then ends. *)
Theorem traversal_correct : forall t dir,
  walk (S (count t)) (start t [] dir) dir = if dir then rev (inorder t) else inorder t.
Proof. exact walk_all. Qed.

Example traversal_correct_ex :
  let t := tree_of (seq 0 12) in
  walk 13 (start t [] false) false = seq 0 12 /\ walk 13 (start t [] true) true = rev (seq 0 12).
Proof. vm_compute. auto. Qed.

(** A step goes to the neighbour in the sequence. *)
Theorem step_correct : forall t z x dir, NoDup (inorder t) -> at_node t z x ->
  forall l1 l2, inorder t = l1 ++ x :: l2 ->
  zid (step z dir) = if dir then last_ l1 else first l2.
Proof.
  intros t z x dir Hn Hz l1 l2 H. pose proof (zip_split _ _ _ Hz) as Sp.
  rewrite Sp in H, Hn. destruct (nodup_split_eq x _ _ _ _ Hn H) as [<- <-].
  pose proof (step_spec t z x dir Hz) as Hs. destruct (step z dir) as [z'|].
  - destruct Hs as (y & [_ (l & s & r & E)] & Hs). destruct z' as [m c]. cbn [fst] in E. subst m.
    destruct dir; destruct Hs as [Hs _]; rewrite Hs; [rewrite last_app|]; reflexivity.
  - destruct dir; rewrite Hs; reflexivity.
Qed.

Example step_correct_ex :
  match tree_of [2; 1; 3] with
  | N l x s r => (zid (step (r, [mkF true x s l]) true), zid (step (r, [mkF true x s l]) false)) = (Some 2, None)
  | E => False end.
Proof. vm_compute. reflexivity. Qed.

Print Assumptions reachable_balanced.
Print Assumptions balanced_height.
Print Assumptions insert_by_correct.
Print Assumptions insert_sorted.
Print Assumptions insert_at_correct.
Print Assumptions insert_null_correct.
Print Assumptions insert_update_at_null_refuted.
Print Assumptions node_position.
Print Assumptions remove_correct.
Print Assumptions extract_correct.
Print Assumptions extract_update_correct.
Print Assumptions join3_correct.
Print Assumptions join2_correct.
Print Assumptions split_correct.
Print Assumptions find_correct.
Print Assumptions find_root_reference_refuted.
Print Assumptions traversal_correct.
Print Assumptions step_correct.
