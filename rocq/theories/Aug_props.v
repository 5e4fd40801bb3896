(** Properties of the sums that bundles keep in their trees (C56). *)
From Coq Require Import List Bool Arith NArith ZArith Lia Permutation.
From Verif Require Import Dict_model Dict_spec Dict_proofs Dict_proofs2 Dict_proofs3 Dict_props
  Aug_model Aug_spec Aug_proofs Aug_proofs2 Aug_proofs3 Aug_proofs4.
Import ListNotations.

(** In every execution, every tree of every bundle holds, at each node, the
    exclusive or of the member masks of exactly the edges below it; no edge is
    in two places. *)
Theorem C56_sums : forall M S0 ts S, brun M ([], S0) (ts, S) ->
  NoDup (edges ts) /\ Forall (summed M S) ts.
Proof.
  intros M S0 ts S H. apply brun_inv in H; [|apply inv_start]. destruct H as [U Ho]. cbn [fst snd] in *.
  split.
  - apply (NoDup_count_occ Nat.eq_dec). exact U.
  - eapply Forall_impl; [|exact Ho]. intros t. apply ok_summed.
Qed.

(** So the mask that a new output edge gets (op-sweep-internal.h:1088) is the
    exclusive or over the whole bundle. *)
Theorem C56_root : forall M S0 ts S t, brun M ([], S0) (ts, S) -> In t ts ->
  get S t = xor_of M (inorder t).
Proof.
  intros M S0 ts S t H Ht. apply C56_sums in H as [_ H]. rewrite Forall_forall in H.
  apply summed_get with (M := M). apply H. exact Ht.
Qed.

(** The single operations: none fails on balanced trees, each does to the
    sequence of edges what it should, each keeps the sums, and each leaves the
    sums of all other edges alone. *)
Definition kept (S S' : sums) (l : list nat) : Prop := forall k, ~ In k l -> S' k = S k.

Lemma kept_cnt S S' t : (forall k, cnt k t = 0 -> S' k = S k) -> kept S S' (inorder t).
Proof. intros H k Hk. apply H. unfold cnt. apply count_occ_not_In. exact Hk. Qed.

Theorem C56_split : forall M cmp back n S, balanced n -> in_order cmp (inorder n) ->
  NoDup (inorder n) -> summed M S n ->
  exists l r S', split_a M cmp back n S = Some (l, r, S') /\
    balanced l /\ balanced r /\ summed M S' l /\ summed M S' r /\ kept S S' (inorder n) /\
    inorder n = inorder l ++ inorder r /\
    Forall (fun x => if back then 0 < cmp x else 0 <= cmp x)%Z (inorder l) /\
    Forall (fun x => if back then cmp x <= 0 else cmp x < 0)%Z (inorder r).
Proof.
  intros M cmp back n S Hb Hi Hn Hs.
  destruct (split_correct cmp back n Hb Hi) as (l & r & E1 & E2 & E3 & E4 & E5 & E6).
  pose proof (split_er M cmp back n S) as He. rewrite E1 in He.
  destruct (split_a M cmp back n S) as [[[l' r'] S']|] eqn:Ea; [|discriminate].
  cbn in He. injection He as -> ->. exists l, r, S'.
  apply split_a_ok in Ea as (A & B & C & D); [|apply summed_ok; exact Hs|apply uniq_NoDup; exact Hn].
  split; [reflexivity|]. split; [exact E2|]. split; [exact E3|].
  split; [apply ok_summed; exact A|]. split; [apply ok_summed; exact B|].
  split; [apply kept_cnt; exact C|]. auto.
Qed.

Theorem C56_join : forall M l r S, balanced l -> balanced r -> NoDup (inorder l ++ inorder r) ->
  summed M S l -> summed M S r ->
  exists t S', join2_a M l r S = Some (t, S') /\ balanced t /\ summed M S' t /\
    kept S S' (inorder t) /\ inorder t = inorder l ++ inorder r.
Proof.
  intros M l r S Hl Hr Hn Sl Sr.
  destruct (join2_correct l r Hl Hr) as (t & E1 & E2 & E3).
  pose proof (join2_er M l r S) as He. rewrite E1 in He.
  destruct (join2_a M l r S) as [[t' S']|] eqn:Ea; [|discriminate].
  cbn in He. injection He as ->. exists t, S'.
  apply join2_a_ok in Ea as (A & B & C); [|apply summed_ok; exact Sl|apply summed_ok; exact Sr|].
  - split; [reflexivity|]. split; [exact E2|]. split; [apply ok_summed; exact A|].
    split; [apply kept_cnt; exact B|exact E3].
  - intros k. rewrite (NoDup_count_occ Nat.eq_dec) in Hn. specialize (Hn k).
    rewrite count_occ_app in Hn. exact Hn.
Qed.

Theorem C56_insert : forall M cmp e t S, balanced t -> in_order cmp (inorder t) ->
  NoDup (e :: inorder t) -> (forall x, In x (inorder t) -> cmp x <> 0%Z) ->
  summed M S t -> (t = E -> S e = M e) ->
  exists t' S', edge_insert M cmp e t S = Some (t', S') /\ balanced t' /\ summed M S' t' /\
    kept S S' (inorder t') /\
    exists l1 l2, inorder t = l1 ++ l2 /\ inorder t' = l1 ++ e :: l2 /\
      Forall (fun x => 0 < cmp x)%Z l1 /\ Forall (fun x => cmp x < 0)%Z l2.
Proof.
  intros M cmp e t S Hb Hi Hn Hc Hs H0.
  destruct (insert_by_correct cmp 0 e (mkC t (first (inorder t)) (last_ (inorder t))) Hb Hi) as
    (res & d' & E1 & E2 & _ & E3); [split; reflexivity|].
  cbn [c_root c_min c_max] in *. unfold insert_update_by in E1. cbn [c_root] in E1.
  unfold edge_insert.
  destruct (r_node (find cmp 0 t)) as [z|] eqn:En.
  { injection E1 as <- <-. exfalso. destruct z as [[|zl zx zs zr] zc]; cbn [zid] in E3.
    - destruct E3 as (_ & F). 
      (* a returned position is a node *)
      assert (forall n c p i pa ee r, find_ref cmp 0 n c p i pa ee = r ->
        r_node r = None \/ exists l x s rr c', r_node r = Some (N l x s rr, c')) as Fn.
      { induction n as [|l IHl x s rr IHr]; intros c p i pa ee r Hr; cbn [find_ref] in Hr.
        - subst r. left. reflexivity.
        - destruct (cmp x =? 0)%Z eqn:Ex; cbn [Z.eqb] in Hr.
          + subst r. right. cbn [r_node]. unfold dup_e. cbn. eauto 10.
          + rewrite Ex in Hr. destruct (0 <? cmp x)%Z; [apply IHr in Hr|apply IHl in Hr]; exact Hr. }
      destruct (Fn _ _ _ _ _ _ _ (eq_refl (find cmp 0 t))) as [Hf|(l & x & s & rr & c' & Hf)]; congruence.
    - destruct E3 as (_ & Hin & Hz & _). exact (Hc _ Hin Hz). }
  apply bind_inv in E1 as (t' & Et & E1). injection E1 as <- <-. cbn [c_root] in *.
  pose proof (insert_ref_er M e (r_parent (find cmp 0 t)) (r_child (find cmp 0 t)) t S) as He.
  rewrite Et in He.
  destruct (insert_ref_a M e _ _ t S) as [[t2 S']|] eqn:Ea; [|discriminate].
  cbn in He. injection He as ->. exists t', S'. split; [reflexivity|]. split; [exact E2|].
  assert (edge_insert M cmp e t S = Some (t', S')) as Eb by (unfold edge_insert; rewrite En; exact Ea).
  apply edge_insert_ok in Eb as (A & B & C); [|apply summed_ok; exact Hs| |exact H0].
  - split; [apply ok_summed; exact A|]. split; [apply kept_cnt; exact B|].
    destruct E3 as (_ & l1 & l2 & F1 & F2 & F3 & F4). exists l1, l2.
    split; [exact F1|]. split; [exact F2|].
    split; (eapply Forall_impl; [|eassumption]); cbn beta; intros; lia.
  - intros k. rewrite (NoDup_count_occ Nat.eq_dec) in Hn. specialize (Hn k). cbn [count_occ] in Hn.
    unfold one, cnt. destruct (Nat.eq_dec e k); lia.
Qed.

Lemma locate_some a : forall t c, In a (inorder t) -> exists z, locate a t c = Some z.
Proof.
  induction t as [|l IHl x s r IHr]; intros c H; [easy|]. cbn [inorder] in H. cbn [locate].
  destruct (x =? a) eqn:Ex; [eauto|]. apply Nat.eqb_neq in Ex.
  apply in_app_or in H as [H|[H|H]].
  - destruct (IHl (mkF false x s r :: c) H) as [z ->]. eauto.
  - congruence.
  - destruct (locate a l _); [eauto|]. apply IHr. exact H.
Qed.

Theorem C56_remove : forall M e t S, balanced t -> NoDup (inorder t) -> In e (inorder t) -> summed M S t ->
  exists t' S', edge_remove M e t S = Some (t', S') /\ balanced t' /\ summed M S' t' /\
    kept S S' (inorder t) /\ forall l1 l2, inorder t = l1 ++ e :: l2 -> inorder t' = l1 ++ l2.
Proof.
  intros M e t S Hb Hn Hin Hs.
  destruct (locate_some e t [] Hin) as [[u c] Hz].
  destruct (locate_spec e _ _ _ Hz) as (P & (l & s & r & Eu) & _). cbn [fst snd plug] in *. subst u.
  destruct (remove_correct t (N l e s r, c) e Hb Hn) as (t' & E1 & E2 & E3).
  { split; [exact P|]. cbn. eauto. }
  pose proof (remove_er M (N l e s r, c) S) as He. rewrite E1 in He.
  destruct (remove_a M (N l e s r, c) S) as [[t2 S']|] eqn:Ea; [|discriminate].
  cbn in He. injection He as ->. exists t', S'. unfold edge_remove. rewrite Hz. cbn [bind].
  split; [exact Ea|]. split; [exact E2|].
  apply remove_a_ok in Ea as (A & B & _); rewrite P in *;
    [|apply summed_ok; exact Hs|apply uniq_NoDup; exact Hn].
  split; [apply ok_summed; exact A|]. split; [apply kept_cnt; exact B|exact E3].
Qed.

Lemma swap_rb a b c h t : rb c h t -> rb c h (swap_nodes a b t).
Proof. induction 1; cbn [swap_nodes]; econstructor; eauto. Qed.

Theorem C56_swap : forall M a b t S, balanced t -> NoDup (inorder t) -> a <> b ->
  In a (inorder t) -> In b (inorder t) -> summed M S t ->
  exists t' S', edge_swap M a b t S = Some (t', S') /\ balanced t' /\ summed M S' t' /\
    kept S S' (inorder t) /\ inorder t' = map (sw a b) (inorder t).
Proof.
  intros M a b t S [c [h Hb]] Hn Hab Ha Hbn Hs.
  assert (In a (inorder (swap_nodes a b t)) /\ In b (inorder (swap_nodes a b t))) as [Ia Ib].
  { rewrite swap_inorder. split; apply in_map_iff; [exists b|exists a]; split; auto; unfold sw;
      rewrite ?Nat.eqb_refl; [|reflexivity].
    destruct (b =? a) eqn:E; [apply Nat.eqb_eq in E; congruence|reflexivity]. }
  destruct (locate_some a _ [] Ia) as [za Hza]. destruct (locate_some b _ [] Ib) as [zb Hzb].
  destruct (edge_swap M a b t S) as [[t' S']|] eqn:Ee.
  2:{ exfalso. unfold edge_swap in Ee. apply Nat.eqb_neq in Hab. rewrite Hab in Ee.
      cbn [negb check] in Ee. rewrite Hza, Hzb in Ee. discriminate. }
  exists t', S'. split; [reflexivity|].
  apply edge_swap_ok in Ee as (A & B & C & D & _); [|apply summed_ok; exact Hs|apply uniq_NoDup; exact Hn].
  subst t'. split; [exists c, h; apply swap_rb; exact Hb|]. split; [apply ok_summed; exact A|].
  split; [apply kept_cnt; exact B|apply swap_inorder].
Qed.

(** ** Examples *)

(** Edges with mask 2^n: the sum at a node is the set of nodes below it. *)
Definition bit (n : nat) : BinNums.N := N.shiftl 1 (N.of_nat n).
Definition by_number (e : nat) : nat -> Z := cmp_key Z.of_nat (Z.of_nat e).
Definition ins_a (o : option (tree * sums)) (e : nat) : option (tree * sums) :=
  match o with Some (t, T) => edge_insert bit (by_number e) e t T | None => None end.
Definition grow (l : list nat) : option (tree * sums) :=
  fold_left ins_a l (Some (E, bit)).
(** inorder: node and its sum *)
Definition show (o : option (tree * sums)) : list (BinNums.N * BinNums.N) :=
  match o with Some (t, T) => map (fun x => (N.of_nat x, T x)) (inorder t) | None => [] end.
Definition top_sum (o : option (tree * sums)) : BinNums.N :=
  match o with Some (t, T) => get T t | None => 0%N end.

Definition ex_tree : option (tree * sums) := grow [5; 3; 8; 1; 4; 7; 9; 2; 6; 0].
Definition ex_removed : option (tree * sums) :=
  match ex_tree with Some (t, T) => edge_remove bit 5 t T | None => None end.
Definition ex_swapped : option (tree * sums) :=
  match ex_tree with Some (t, T) => edge_swap bit 2 8 t T | None => None end.
Definition ex_split : option (tree * tree * sums) :=
  match ex_tree with Some (t, T) => split_a bit (by_number 6) false t T | None => None end.
Definition ex_join : option (tree * sums) :=
  match ex_split with Some (l, r, T) => join2_a bit r l T | None => None end.

Example C56_insert_ex : show ex_tree =
  [(0, 1); (1, 7); (2, 4); (3, 31); (4, 16); (5, 1023); (6, 64); (7, 192); (8, 960); (9, 512)]%N.
Proof. vm_compute. reflexivity. Qed.

(** The root, with two children, is replaced by its successor. *)
Example C56_remove_ex : show ex_removed =
  [(0, 1); (1, 7); (2, 4); (3, 31); (4, 16); (6, 991); (7, 128); (8, 896); (9, 512)]%N.
Proof. vm_compute. reflexivity. Qed.

Example C56_swap_ex : show ex_swapped =
  [(0, 1); (1, 259); (8, 256); (3, 283); (4, 16); (5, 1023); (6, 64); (7, 192); (2, 708); (9, 512)]%N.
Proof. vm_compute. reflexivity. Qed.

Example C56_split_ex :
  match ex_split with
  | Some (l, r, T) => show (Some (l, T)) = [(0, 1); (1, 7); (2, 4); (3, 31); (4, 16); (5, 127); (6, 64)]%N /\
      show (Some (r, T)) = [(7, 128); (8, 896); (9, 512)]%N
  | None => False
  end.
Proof. vm_compute. auto. Qed.

Example C56_join_ex : show ex_join =
  [(7, 128); (8, 896); (9, 512); (0, 1023); (1, 6); (2, 4); (3, 30); (4, 16); (5, 126); (6, 64)]%N.
Proof. vm_compute. reflexivity. Qed.

(** An execution: make a bundle, insert three edges, swap two, split. *)
Example C56_run_ex : exists ts S, brun bit ([], bit) (ts, S) /\ edges ts = [3; 1; 2] /\
  length ts = 2 /\ map (get S) ts = [8; 6]%N.
Proof.
  destruct (edge_insert bit (by_number 2) 2 E bit) as [[t1 S1]|] eqn:E1; [|vm_compute in E1; discriminate].
  destruct (edge_insert bit (by_number 1) 1 t1 S1) as [[t2 S2]|] eqn:E2;
    [|vm_compute in E1; injection E1 as <- <-; vm_compute in E2; discriminate].
  vm_compute in E1. injection E1 as <- <-.
  destruct (edge_insert bit (by_number 3) 3 t2 S2) as [[t3 S3]|] eqn:E3;
    [|vm_compute in E2; injection E2 as <- <-; vm_compute in E3; discriminate].
  assert (t2 = N (N E 1 1 E) 2 2 E \/ t2 = N (N E 1 1 E) 2 1 E) as Ht2
    by (vm_compute in E2; injection E2 as <- _; auto).
  destruct (edge_swap bit 1 3 t3 S3) as [[t4 S4]|] eqn:E4;
    [|vm_compute in E2; injection E2 as <- <-; vm_compute in E3; injection E3 as <- <-;
      vm_compute in E4; discriminate].
  destruct (edge_swap bit 1 2 t4 S4) as [[t5 S5]|] eqn:E5;
    [|vm_compute in E2; injection E2 as <- <-; vm_compute in E3; injection E3 as <- <-;
      vm_compute in E4; injection E4 as <- <-; vm_compute in E5; discriminate].
  destruct (split_a bit (fun n => if n =? 3 then 1%Z else (-1)%Z) true t5 S5) as [[[l r] S6]|] eqn:E6;
    [|vm_compute in E2; injection E2 as <- <-; vm_compute in E3; injection E3 as <- <-;
      vm_compute in E4; injection E4 as <- <-; vm_compute in E5; injection E5 as <- <-;
      vm_compute in E6; discriminate].
  exists [l; r], S6. split.
  - eapply r_step; [|eapply b_split; exact E6].
    eapply r_step; [|eapply b_swap; exact E5].
    eapply r_step; [|eapply b_swap; exact E4].
    eapply r_step; [|eapply b_insert; [| |exact E3]].
    + eapply r_step; [|eapply b_insert; [| |exact E2]].
      * eapply r_step; [|eapply b_insert with (e := 2) (t := E) (S := bit) (cmp := by_number 2); [| |]].
        -- eapply r_step; [apply r_refl|apply b_new].
        -- intros [].
        -- reflexivity.
        -- vm_compute. reflexivity.
      * vm_compute. intros [H|[]]. discriminate.
      * discriminate.
    + destruct Ht2 as [-> | ->]; cbn; intros [H|[H|[]]]; discriminate.
    + destruct Ht2 as [-> | ->]; discriminate.
  - vm_compute in E2. injection E2 as <- <-. vm_compute in E3. injection E3 as <- <-.
    vm_compute in E4. injection E4 as <- <-. vm_compute in E5. injection E5 as <- <-.
    vm_compute in E6. injection E6 as <- <- <-. vm_compute. auto.
Qed.

(** The callback ADD, documented as being called for each added leaf (dict.h:478-484,
    531-532), is not called for the first node of a tree.  A node that is
    removed keeps its sum; put into an empty tree, it is a root with the sum of
    its former subtree.  (The sweep inserts each edge at most once per pass
    and resets the sums before, op-sweep.c:1210.) *)
Theorem C56_first_node_refuted :
  ~ forall M cmp e t S t' S', summed M S t -> ~ In e (inorder t) ->
      edge_insert M cmp e t S = Some (t', S') -> summed M S' t'.
Proof.
  intros H. specialize (H bit (by_number 1) 1 E (fun _ => 6%N) _ _ I (fun x => x) eq_refl).
  destruct H as [H _]. vm_compute in H. discriminate.
Qed.

(** ... and this can be reached by a removal: tree [1; 2], remove the root 1,
    insert it into an empty tree. *)
Definition stale : option (tree * sums) :=
  match grow [1; 2] with
  | Some (t, T) =>
    match edge_remove bit 1 t T with
    | Some (_, T') => edge_insert bit (by_number 1) 1 E T'
    | None => None
    end
  | None => None
  end.
Example C56_stale_ex : show stale = [(1, 6)]%N /\ bit 1 = 2%N.
Proof. vm_compute. auto. Qed.

Print Assumptions C56_sums.
Print Assumptions C56_root.
Print Assumptions C56_split.
Print Assumptions C56_join.
Print Assumptions C56_insert.
Print Assumptions C56_remove.
Print Assumptions C56_swap.
Print Assumptions C56_first_node_refuted.
