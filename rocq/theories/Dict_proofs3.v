(** Search and insertion by key; cached extrema. *)
From Coq Require Import List Bool Arith ZArith Lia ZifyBool.
From Verif Require Import Dict_model Dict_spec Dict_proofs Dict_proofs2.
Import ListNotations.

Section FIND.
Variable cmp : nat -> Z.
Variable dup : Z.

Definition eff (x : nat) : Z := if (cmp x =? 0)%Z then dup else cmp x.

Definition bits (c : list frame) : nat :=
  (if existsb (fun f => negb (fside f)) c then 1 else 0) + (if existsb fside c then 2 else 0).

Lemma after_nil c : after c = [] <-> existsb (fun f => negb (fside f)) c = false.
Proof.
  induction c as [|f c IH]; cbn [after existsb]; [tauto|].
  destruct (fside f); cbn [negb orb app]; [exact IH|]. split; discriminate.
Qed.
Lemma before_nil c : before c = [] <-> existsb fside c = false.
Proof.
  induction c as [|f c IH]; cbn [before existsb]; [tauto|].
  destruct (fside f); cbn [orb]; [|rewrite app_nil_r; exact IH].
  split; [|discriminate]. intros H. apply app_eq_nil in H as [_ H].
  destruct (inorder (fsib f)); discriminate.
Qed.

(** Insertion position: between l1 and l2. *)
Definition pos_ok (t : tree) (p : option zip) (i : bool) (l1 l2 : list nat) : Prop :=
  match p with
  | None => t = E /\ l1 = [] /\ l2 = []
  | Some z => exists x, at_node t z x /\
      if i then l1 = lt_nodes z ++ [x] /\ l2 = gt_nodes z
      else l1 = lt_nodes z /\ l2 = x :: gt_nodes z
  end.

Definition node_ok (t : tree) (r : found) : Prop :=
  match r_node r with
  | Some z => exists x, at_node t z x /\ cmp x = 0%Z /\
      ((0 < dup)%Z -> Forall (fun y => (cmp y < 0)%Z) (gt_nodes z)) /\
      ((dup < 0)%Z -> Forall (fun y => (0 < cmp y)%Z) (lt_nodes z))
  | None => dup = 0%Z \/ dup_e dup = true -> Forall (fun x => cmp x <> 0%Z) (inorder t)
  end.

Definition ref_ok (t : tree) (r : found) : Prop :=
  dup <> 0%Z \/ r_node r = None ->
  exists l1 l2, inorder t = l1 ++ l2 /\
    Forall (fun x => (0 < eff x)%Z) l1 /\ Forall (fun x => (eff x < 0)%Z) l2 /\
    pos_ok t (r_parent r) (r_child r) l1 l2 /\
    (Nat.land (r_path r) 5 = 0 <-> l2 = []) /\ (Nat.land (r_path r) 6 = 0 <-> l1 = []).

Lemma bits5 c : Nat.land (bits c) 5 = 0 <-> after c = [].
Proof. rewrite after_nil. unfold bits. destruct (existsb _ c), (existsb fside c); cbn; split; auto; discriminate. Qed.
Lemma bits6 c : Nat.land (bits c) 6 = 0 <-> before c = [].
Proof. rewrite before_nil. unfold bits. destruct (existsb (fun f => negb _) c), (existsb fside c); cbn; split; auto; discriminate. Qed.
Lemma bits_r x s l c : Nat.lor (bits c) 2 = bits (mkF true x s l :: c).
Proof. unfold bits. cbn [existsb fside negb orb]. destruct (existsb (fun f => negb _) c), (existsb fside c); reflexivity. Qed.
Lemma bits_l x s l c : Nat.lor (bits c) 1 = bits (mkF false x s l :: c).
Proof. unfold bits. cbn [existsb fside negb orb]. destruct (existsb (fun f => negb _) c), (existsb fside c); reflexivity. Qed.

(** Invariant of the search: what is known about the path, p and e. *)
Definition p_ok (n : tree) (c : list frame) (p : option zip) (i : bool) : Prop :=
  match c with
  | [] => match n with E => p = None | _ => True end
  | f :: c' => p = Some (fill f n, c') /\ i = fside f
  end.

Definition e_ok (n : tree) (c : list frame) (e : option zip) : Prop :=
  match e with
  | None => Forall (fun x => cmp x <> 0%Z) (before c) /\ Forall (fun x => cmp x <> 0%Z) (after c)
  | Some z => exists x, at_node (plug n c) z x /\ cmp x = 0%Z /\ dup <> 0%Z /\
      ((0 < dup)%Z -> before c = lt_nodes z ++ [x]) /\
      ((dup < 0)%Z -> after c = x :: gt_nodes z)
  end.

Lemma find_ref_ok : forall n c p i e,
  in_order cmp (inorder (plug n c)) ->
  Forall (fun x => (0 < eff x)%Z) (before c) -> Forall (fun x => (eff x < 0)%Z) (after c) ->
  p_ok n c p i -> e_ok n c e ->
  let r := find_ref cmp dup n c p i (bits c) e in
  node_ok (plug n c) r /\ ref_ok (plug n c) r.
Proof.
  induction n as [|l IHl x s r IHr]; intros c p i e Ho Hb Ha Hp He; cbn [find_ref]; cbv zeta.
  - split.
    + unfold node_ok. cbn [r_node]. destruct (dup_e dup) eqn:Ed.
      * destruct e as [z|].
        -- destruct He as (x & Hx & H0 & Hd & H1 & H2). exists x. split; [exact Hx|]. split; [exact H0|].
           pose proof (zip_split _ _ _ Hx) as Sp. rewrite inorder_plug in Sp. cbn [inorder app] in Sp.
           split; intros Hdd.
           ++ rewrite (H1 Hdd), <- app_assoc in Sp. apply app_inv_head in Sp. cbn [app] in Sp.
              injection Sp as Sp. rewrite <- Sp. eapply Forall_impl; [|exact Ha].
              intros y Hy. cbn beta in Hy. unfold eff in Hy. destruct (cmp y =? 0)%Z eqn:Ey; lia.
           ++ rewrite (H2 Hdd) in Sp. apply app_inv_tail in Sp. rewrite <- Sp.
              eapply Forall_impl; [|exact Hb].
              intros y Hy. cbn beta in Hy. unfold eff in Hy. destruct (cmp y =? 0)%Z eqn:Ey; lia.
        -- intros _. rewrite inorder_plug. cbn [inorder app]. apply Forall_app. exact He.
      * intros [H|H]; [|congruence].
        rewrite inorder_plug. cbn [inorder app]. apply Forall_app. split.
        -- eapply Forall_impl; [|exact Hb]. intros y Hy. unfold eff in Hy. destruct (cmp y =? 0)%Z eqn:Ey; lia.
        -- eapply Forall_impl; [|exact Ha]. intros y Hy. unfold eff in Hy. destruct (cmp y =? 0)%Z eqn:Ey; lia.
    + intros _. exists (before c), (after c). cbn [r_parent r_child r_path].
      split; [apply inorder_plug|]. split; [exact Hb|]. split; [exact Ha|].
      split; [|split; [apply bits5|apply bits6]].
      destruct c as [|f c]; cbn [p_ok] in Hp.
      * subst p. cbn. auto.
      * destruct Hp as [-> ->]. cbn [pos_ok plug]. exists (fid f).
        split; [split; [reflexivity|]; unfold fill, mk; cbn [fst]; destruct (fside f); eauto|].
        unfold lt_nodes, gt_nodes, fill, mk. cbn [fst snd before after].
        destruct (fside f); cbn [child inorder app]; rewrite ?app_nil_r; split; auto.
        now rewrite app_assoc.
  - set (n := N l x s r) in *.
    assert (at_node (plug n c) (n, c) x) as An by (split; [reflexivity|unfold n; cbn; eauto]).
    pose proof (zip_split _ _ _ An) as Sp. rewrite Sp in Ho.
    assert (forall y, In y (lt_nodes (n, c)) -> (cmp y <= 0 -> cmp x <= 0)%Z /\ (cmp y < 0 -> cmp x < 0)%Z) as Hlt
      by (intros y Hy; eapply in_order_lt; eauto).
    assert (forall y, In y (gt_nodes (n, c)) -> (cmp x <= 0 -> cmp y <= 0)%Z /\ (cmp x < 0 -> cmp y < 0)%Z) as Hgt
      by (intros y Hy; eapply in_order_gt; eauto).
    destruct (_ =? 0)%Z eqn:E0 in |- *.
    + (* equal, duplicate = 0 *)
      assert (cmp x = 0%Z /\ dup = 0%Z) as [Hx Hd] by (destruct (cmp x =? 0)%Z eqn:Ex in E0; lia).
      split.
      * unfold node_ok. cbn [r_node]. rewrite Hx. cbn [Z.eqb].
        destruct (dup_e dup); exists x; (split; [exact An|]); (split; [exact Hx|]); split; lia.
      * unfold ref_ok. cbn [r_node]. rewrite Hx. cbn [Z.eqb].
        intros [H|H]; [contradiction|]. destruct (dup_e dup); discriminate.
    + assert (eff x <> 0%Z) as E0' by (unfold eff; destruct (cmp x =? 0)%Z eqn:Ex; lia).
      assert ((if (cmp x =? 0)%Z then dup else cmp x) = eff x) as Ee by reflexivity. rewrite Ee.
      destruct (0 <? eff x)%Z eqn:E1.
      * (* right *)
        assert (0 < eff x)%Z as E1' by lia.
        assert (plug r (mkF true x s l :: c) = plug n c) as Pl by reflexivity.
        rewrite (bits_r x s l), <- Pl. apply IHr.
        -- rewrite Pl, Sp. exact Ho.
        -- cbn [before fside fid fsib]. rewrite app_assoc. apply Forall_app. split; [|repeat constructor; exact E1'].
           apply Forall_forall. intros y Hy. destruct (Hlt y Hy).
           unfold eff in *. destruct (cmp x =? 0)%Z eqn:Ex, (cmp y =? 0)%Z eqn:Ey; lia.
        -- exact Ha.
        -- cbn [p_ok]. split; reflexivity.
        -- destruct (cmp x =? 0)%Z eqn:Ex.
           ++ unfold eff in E1', E0'. rewrite Ex in E1', E0'. exists x. rewrite Pl. split; [exact An|].
              split; [lia|]. split; [exact E0'|]. split; [|lia]. intros _.
              cbn [before fside fid fsib]. unfold lt_nodes, n. cbn [fst snd child].
              rewrite app_assoc. reflexivity.
           ++ unfold eff in E1'. rewrite Ex in E1'. destruct e as [z|].
              ** destruct He as (u & Hu & H0 & Hd & H1 & H2). exists u. rewrite Pl. split; [exact Hu|].
                 split; [exact H0|]. split; [exact Hd|]. split.
                 { intros Hdd. exfalso. specialize (H1 Hdd).
                   assert (In u (lt_nodes (n, c))) as Hin.
                   { unfold lt_nodes. cbn [fst snd]. rewrite H1. apply in_or_app. left. apply in_or_app. right. cbn; auto. }
                   destruct (Hlt u Hin). lia. }
                 { intros Hdd. exact (H2 Hdd). }
              ** destruct He as [H1 H2]. split; [|exact H2]. cbn [before fside fid fsib].
                 rewrite app_assoc. apply Forall_app. split; [|repeat constructor; lia].
                 apply Forall_forall. intros y Hy. destruct (Hlt y Hy). lia.
      * (* left *)
        assert (eff x < 0)%Z as E1' by lia.
        assert (plug l (mkF false x s r :: c) = plug n c) as Pl by reflexivity.
        rewrite (bits_l x s r), <- Pl. apply IHl.
        -- rewrite Pl, Sp. exact Ho.
        -- cbn [before fside fid fsib]. rewrite app_nil_r. exact Hb.
        -- cbn [after fside fid fsib]. apply Forall_app. split; [|exact Ha].
           constructor; [exact E1'|]. apply Forall_forall. intros y Hy.
           assert (In y (gt_nodes (n, c))) as Hin by (unfold gt_nodes; cbn [fst snd n child]; apply in_or_app; auto).
           destruct (Hgt y Hin).
           unfold eff in *. destruct (cmp x =? 0)%Z eqn:Ex, (cmp y =? 0)%Z eqn:Ey; lia.
        -- cbn [p_ok]. split; reflexivity.
        -- destruct (cmp x =? 0)%Z eqn:Ex.
           ++ unfold eff in E1', E0'. rewrite Ex in E1', E0'. exists x. rewrite Pl. split; [exact An|].
              split; [lia|]. split; [exact E0'|]. split; [lia|]. intros _. reflexivity.
           ++ unfold eff in E1'. rewrite Ex in E1'. destruct e as [z|].
              ** destruct He as (u & Hu & H0 & Hd & H1 & H2). exists u. rewrite Pl. split; [exact Hu|].
                 split; [exact H0|]. split; [exact Hd|]. split.
                 { intros Hdd. cbn [before fside fid fsib]. rewrite app_nil_r. exact (H1 Hdd). }
                 { intros Hdd. exfalso. specialize (H2 Hdd).
                   assert (In u (gt_nodes (n, c))) as Hin.
                   { unfold gt_nodes. cbn [fst snd]. rewrite H2. apply in_or_app. right. cbn; auto. }
                   destruct (Hgt u Hin). lia. }
              ** destruct He as [H1 H2]. split; [cbn [before fside fid fsib]; rewrite app_nil_r; exact H1|].
                 cbn [after fside fid fsib app]. constructor; [lia|].
                 apply Forall_app. split; [|exact H2]. apply Forall_forall. intros y Hy.
                 assert (In y (gt_nodes (n, c))) as Hin by (unfold gt_nodes; cbn [fst snd n child]; apply in_or_app; auto).
                 destruct (Hgt y Hin). lia.
Qed.

Lemma find_ok t : in_order cmp (inorder t) ->
  node_ok t (find cmp dup t) /\ ref_ok t (find cmp dup t).
Proof.
  intros Ho. unfold find. apply (find_ref_ok t []); auto; try constructor.
  - cbn [p_ok]. destruct t; reflexivity.
  - constructor.
  - constructor.
Qed.

(** The node that is found is in the tree; with dup = 1 or -1 (or any other
    value that is neither 0 nor 2 modulo 4) nothing is ever returned. *)
Lemma find_ref_none : forall n c p i pa e, dup <> 0%Z -> dup_e dup = false ->
  r_node (find_ref cmp dup n c p i pa e) = None.
Proof.
  induction n as [|l IHl x s r IHr]; intros c p i pa e Hd He; cbn [find_ref].
  - rewrite He. reflexivity.
  - destruct (_ =? 0)%Z eqn:E0 in |- *.
    + exfalso. destruct (cmp x =? 0)%Z eqn:Ex in E0; lia.
    + destruct (0 <? _)%Z; auto.
Qed.

(** Inserting at the found reference. *)
Lemma insert_pos_ok node t p i l1 l2 : balanced t -> inorder t = l1 ++ l2 -> pos_ok t p i l1 l2 ->
  exists t', insert_ref node p i t = Some t' /\ balanced t' /\ inorder t' = l1 ++ node :: l2.
Proof.
  intros Hb Hi Hp. destruct p as [z|].
  - destruct Hp as (x & Hx & Hl). destruct (insert_ref_pos node t z x i Hb Hx) as (t' & E1 & E2 & E3).
    exists t'. split; [exact E1|]. split; [exact E2|]. rewrite E3.
    destruct i; destruct Hl as [-> ->]; rewrite <- ?app_assoc; reflexivity.
  - destruct Hp as (-> & -> & ->). destruct (insert_ref_null node E i Hb) as (t' & E1 & E2 & E3).
    exists t'. split; [exact E1|]. split; [exact E2|]. rewrite E3. destruct i; reflexivity.
Qed.

Lemma last_app l x : last_ (l ++ [x]) = Some x.
Proof. unfold last_. rewrite rev_app_distr. reflexivity. Qed.
Lemma last_app2 l x l2 : l2 <> [] -> last_ (l ++ x :: l2) = last_ l2.
Proof.
  intros H. unfold last_. rewrite rev_app_distr. cbn [rev].
  destruct (rev l2) eqn:E; [|reflexivity].
  exfalso. apply H. rewrite <- (rev_involutive l2), E. reflexivity.
Qed.
Lemma last_app3 l l2 : l2 <> [] -> last_ (l ++ l2) = last_ l2.
Proof.
  intros H. unfold last_. rewrite rev_app_distr.
  destruct (rev l2) eqn:E; [|reflexivity].
  exfalso. apply H. rewrite <- (rev_involutive l2), E. reflexivity.
Qed.

Lemma insert_update_by_ok node d :
  balanced (c_root d) -> in_order cmp (inorder (c_root d)) -> cached_ok d ->
  exists res d', insert_update_by node cmp dup d = Some (res, d') /\
    balanced (c_root d') /\ cached_ok d' /\
    match res with
    | Some x => d' = d /\ In x (inorder (c_root d)) /\ cmp x = 0%Z /\ (dup = 0%Z \/ dup_e dup = true)
    | None =>
      (dup = 0%Z \/ dup_e dup = true -> Forall (fun x => cmp x <> 0%Z) (inorder (c_root d))) /\
      exists l1 l2, inorder (c_root d) = l1 ++ l2 /\ inorder (c_root d') = l1 ++ node :: l2 /\
        Forall (fun x => 0 < cmp x \/ cmp x = 0 /\ 0 < dup)%Z l1 /\
        Forall (fun x => cmp x < 0 \/ cmp x = 0 /\ dup < 0)%Z l2
    end.
Proof.
  intros Hb Ho Hc. destruct (find_ok (c_root d) Ho) as [Hn Hr].
  unfold insert_update_by. unfold node_ok, ref_ok in *.
  destruct (r_node (find cmp dup (c_root d))) as [z|] eqn:Ez.
  - destruct Hn as (x & Hx & H0 & _). exists (Some x), d.
    split.
    { destruct Hx as [_ (l & s & r & Hz)]. destruct z as [n c]. cbn [fst] in Hz. subst n. reflexivity. }
    split; [exact Hb|]. split; [exact Hc|]. split; [reflexivity|].
    split; [rewrite (zip_split _ _ _ Hx); apply in_or_app; right; cbn; auto|]. split; [exact H0|].
    destruct (Z.eq_dec dup 0) as [|Hd]; [auto|]. right.
    destruct (dup_e dup) eqn:Ed; [reflexivity|].
    unfold find in Ez. rewrite find_ref_none in Ez; [discriminate|exact Hd|exact Ed].
  - destruct (Hr (or_intror eq_refl)) as (l1 & l2 & Hi & H1 & H2 & Hp & B5 & B6).
    destruct (insert_pos_ok node _ _ _ l1 l2 Hb Hi Hp) as (t' & E1 & E2 & E3).
    rewrite E1. cbn [bind]. eexists None, _. split; [reflexivity|]. cbn [c_root c_min c_max].
    split; [exact E2|]. split.
    + destruct Hc as [Hmin Hmax]. split; cbn [c_root c_min c_max]; rewrite E3.
      * destruct (Nat.land _ 6 =? 0) eqn:E6.
        -- apply Nat.eqb_eq in E6. apply B6 in E6. subst l1. reflexivity.
        -- apply Nat.eqb_neq in E6. rewrite Hmin, Hi. destruct l1; [tauto|reflexivity].
      * destruct (Nat.land _ 5 =? 0) eqn:E5.
        -- apply Nat.eqb_eq in E5. apply B5 in E5. subst l2. rewrite last_app. reflexivity.
        -- apply Nat.eqb_neq in E5. assert (l2 <> []) as H by tauto.
           rewrite Hmax, Hi, last_app2, last_app3 by exact H. reflexivity.
    + split; [exact Hn|]. exists l1, l2. split; [exact Hi|]. split; [exact E3|]. split.
      * eapply Forall_impl; [|exact H1]. intros y Hy. unfold eff in Hy. destruct (cmp y =? 0)%Z eqn:Ey; lia.
      * eapply Forall_impl; [|exact H2]. intros y Hy. unfold eff in Hy. destruct (cmp y =? 0)%Z eqn:Ey; lia.
Qed.

End FIND.

(** * Insertion at a position *)

Lemma insert_update_at_ok node z x dir d :
  balanced (c_root d) -> NoDup (inorder (c_root d)) -> cached_ok d -> at_node (c_root d) z x ->
  exists d', insert_update_at node (Some z) dir d = Some d' /\ balanced (c_root d') /\ cached_ok d' /\
    exists l1 l2, inorder (c_root d) = l1 ++ x :: l2 /\
      inorder (c_root d') = if dir then l1 ++ x :: node :: l2 else l1 ++ node :: x :: l2.
Proof.
  intros Hb Hnd [Hmin Hmax] Hx. pose proof (zip_split _ _ _ Hx) as Sp.
  destruct (insert_ref_pos node _ z x dir Hb Hx) as (t' & E1 & E2 & E3).
  unfold insert_update_at. rewrite E1. cbn [bind]. eexists. split; [reflexivity|]. cbn [c_root].
  split; [exact E2|]. split; [|exists (lt_nodes z), (gt_nodes z); auto].
  assert (zid (Some z) = Some x) as Ez.
  { destruct Hx as [_ (l & s & r & Hz)]. destruct z as [n c]. cbn [fst] in Hz. subst n. reflexivity. }
  rewrite Ez. rewrite Sp in Hmin, Hmax, Hnd.
  split; cbn [c_root c_min c_max]; rewrite E3.
  - destruct (lt_nodes z) as [|a lt] eqn:El.
    + cbn [app first hd_error] in Hmin |- *. rewrite Hmin. cbn [oeqb orb].
      rewrite Nat.eqb_refl. destruct dir; reflexivity.
    + cbn [app first hd_error] in Hmin |- *. rewrite Hmin. cbn [oeqb orb].
      assert (a =? x = false) as ->.
      { apply Nat.eqb_neq. intros ->. cbn [app] in Hnd. apply NoDup_cons_iff in Hnd as [H _].
        apply H. apply in_or_app. right. cbn; auto. }
      cbn [andb]. destruct dir; reflexivity.
  - destruct (gt_nodes z) as [|a gt] eqn:Eg.
    + rewrite last_app in Hmax. rewrite Hmax. cbn [oeqb orb]. rewrite Nat.eqb_refl. cbn [andb].
      destruct dir.
      * change (lt_nodes z ++ [x; node]) with (lt_nodes z ++ [x] ++ [node]). rewrite app_assoc, last_app. reflexivity.
      * change (lt_nodes z ++ [node; x]) with (lt_nodes z ++ [node] ++ [x]). rewrite app_assoc, last_app. reflexivity.
    + rewrite last_app2 in Hmax by discriminate. rewrite Hmax.
      assert (exists b gt', a :: gt = gt' ++ [b]) as (b & gt' & Eb).
      { destruct (exists_last (l := a :: gt) ltac:(discriminate)) as (gt' & b & E). eauto. }
      rewrite Eb in *. rewrite last_app. cbn [oeqb orb].
      assert (b =? x = false) as ->.
      { apply Nat.eqb_neq. intros ->. apply NoDup_remove_2 in Hnd. apply Hnd.
        apply in_or_app. right. apply in_or_app. right. cbn; auto. }
      cbn [andb]. destruct dir.
      * change (lt_nodes z ++ x :: node :: gt' ++ [b]) with (lt_nodes z ++ (x :: node :: gt') ++ [b]).
        rewrite app_assoc, last_app. reflexivity.
      * change (lt_nodes z ++ node :: x :: gt' ++ [b]) with (lt_nodes z ++ (node :: x :: gt') ++ [b]).
        rewrite app_assoc, last_app. reflexivity.
Qed.

(** * Sorted dictionaries *)

Lemma sorted_in_order key k l : sorted key l -> in_order (cmp_key key k) l.
Proof. intros H l1 a l2 b l3 E. specialize (H _ _ _ _ _ E). unfold cmp_key. lia. Qed.

Lemma sorted_spec key l : sorted key l <->
  forall l1 a l2, l = l1 ++ a :: l2 -> (forall b, In b l2 -> (key a <= key b)%Z) /\ (forall b, In b l1 -> (key b <= key a)%Z).
Proof.
  split.
  - intros H l1 a l2 ->. split; intros b Hb; apply in_split in Hb as (u & v & ->).
    + apply (H l1 a u b v). reflexivity.
    + apply (H u b v a l2). rewrite <- app_assoc. reflexivity.
  - intros H l1 a l2 b l3 ->. apply (H l1 a (l2 ++ b :: l3) eq_refl). apply in_or_app. right. cbn; auto.
Qed.

Lemma sorted_cons key a l : sorted key (a :: l) <-> Forall (fun b => (key a <= key b)%Z) l /\ sorted key l.
Proof.
  split.
  - intros H. split.
    + apply Forall_forall. intros b Hb. apply in_split in Hb as (u & v & ->). apply (H [] a u b v). reflexivity.
    + intros l1 x l2 y l3 ->. apply (H (a :: l1) x l2 y l3). reflexivity.
  - intros [H1 H2] l1 x l2 y l3 E. destruct l1 as [|c l1]; cbn [app] in E; injection E as -> E.
    + subst l. rewrite Forall_forall in H1. apply H1. apply in_or_app. right. cbn; auto.
    + apply (H2 l1 x l2 y l3). exact E.
Qed.

Lemma sorted_insert key l1 x l2 : sorted key (l1 ++ l2) ->
  Forall (fun y => (key y <= key x)%Z) l1 -> Forall (fun y => (key x <= key y)%Z) l2 ->
  sorted key (l1 ++ x :: l2).
Proof.
  induction l1 as [|a l1 IH]; cbn [app]; intros H H1 H2.
  - apply sorted_cons. auto.
  - apply sorted_cons in H as [Ha H]. inversion H1; subst. apply sorted_cons. split; [|auto].
    apply Forall_app in Ha as [Ha1 Ha2]. apply Forall_app. split; [auto|]. constructor; auto.
Qed.

(** * Traversal *)

Lemma walk_fwd t : forall n z x, at_node t z x -> length (gt_nodes z) < n ->
  walk n (Some z) false = x :: gt_nodes z.
Proof.
  induction n as [|n IH]; intros z x Hz Hn; [lia|]. cbn [walk].
  assert (zid (Some z) = Some x) as ->.
  { destruct Hz as [_ (l & s & r & E)]. destruct z as [m c]. cbn [fst] in E. subst m. reflexivity. }
  f_equal. pose proof (step_spec t z x false Hz) as Hs. destruct (step z false) as [z'|].
  - destruct Hs as (y & Hy & H1 & H2). rewrite H1 in *. cbn [length] in Hn. apply IH; [exact Hy|lia].
  - rewrite Hs. destruct n; reflexivity.
Qed.

Lemma walk_bwd t : forall n z x, at_node t z x -> length (lt_nodes z) < n ->
  walk n (Some z) true = x :: rev (lt_nodes z).
Proof.
  induction n as [|n IH]; intros z x Hz Hn; [lia|]. cbn [walk].
  assert (zid (Some z) = Some x) as ->.
  { destruct Hz as [_ (l & s & r & E)]. destruct z as [m c]. cbn [fst] in E. subst m. reflexivity. }
  f_equal. pose proof (step_spec t z x true Hz) as Hs. destruct (step z true) as [z'|].
  - destruct Hs as (y & Hy & H1 & H2). rewrite H1 in *. rewrite app_length in Hn. cbn [length] in Hn.
    rewrite rev_app_distr. cbn [rev app]. apply IH; [exact Hy|lia].
  - rewrite Hs. destruct n; reflexivity.
Qed.

Lemma walk_all t dir : walk (S (count t)) (start t [] dir) dir = if dir then rev (inorder t) else inorder t.
Proof.
  destruct t as [|l x s r] eqn:Et; [destruct dir; reflexivity|]. rewrite <- Et.
  destruct (start t [] dir) as [z|] eqn:Es.
  2:{ destruct (start_spec t [] dir) as (? & ? & E1 & _); [subst; discriminate|congruence]. }
  pose proof (start_at _ _ _ _ Es) as (H1 & (l' & y & s' & r' & H2) & H3 & H4).
  cbn [plug] in H1. assert (at_node t z y) as A by (split; eauto).
  pose proof (zip_split _ _ _ A) as Sp.
  assert (count t = length (lt_nodes z) + S (length (gt_nodes z))) as Hc.
  { unfold count. rewrite Sp, app_length. reflexivity. }
  destruct dir; cbn [before after] in H4.
  - rewrite (walk_bwd t) with (x := y) by (auto; lia). rewrite Sp, H4, rev_app_distr. reflexivity.
  - rewrite (walk_fwd t) with (x := y) by (auto; lia). rewrite Sp, H4. reflexivity.
Qed.

(** * Extraction with a cached extremum *)

Lemma extract_update_ok t z x (i : bool) : balanced t -> at_node t z x ->
  (if i then gt_nodes z = [] else lt_nodes z = []) ->
  exists t' e, extract_update_start (Some z) i t = Some (Some x, t', e) /\ balanced t' /\
    (if i then inorder t = inorder t' ++ [x] /\ e = last_ (inorder t')
     else inorder t = x :: inorder t' /\ e = first (inorder t')).
Proof.
  intros Hb Hx He. unfold extract_update_start.
  pose proof (step_spec t z x (negb i) Hx) as Hs.
  destruct (step z (negb i)) as [z'|].
  { exfalso. destruct Hs as (y & _ & Hs). destruct i; cbn [negb] in Hs; destruct Hs as [Hs _]; rewrite He in Hs.
    - discriminate. - destruct (lt_nodes z'); discriminate. }
  clear Hs. pose proof (step_spec t z x i Hx) as Hs.
  destruct (remove_ok t z x Hb Hx) as (t' & E1 & E2 & E3). rewrite E1. cbn [bind].
  assert (zid (Some z) = Some x) as ->.
  { destruct Hx as [_ (l & s & r & E)]. destruct z as [m c]. cbn [fst] in E. subst m. reflexivity. }
  exists t', (zid (step z i)). split; [reflexivity|]. split; [exact E2|].
  pose proof (zip_split _ _ _ Hx) as Sp. rewrite Sp, E3.
  assert (forall z' y, at_node t z' y -> zid (Some z') = Some y) as Zid.
  { intros [m c] y [_ (l & s & r & E)]. cbn [fst] in E. subst m. reflexivity. }
  destruct i; rewrite He.
  - rewrite app_nil_r. split; [reflexivity|]. destruct (step z true) as [z'|].
    + destruct Hs as (y & Hy & H1 & H2). rewrite H1, last_app. apply (Zid _ _ Hy).
    + rewrite Hs. reflexivity.
  - cbn [app]. split; [reflexivity|]. destruct (step z false) as [z'|].
    + destruct Hs as (y & Hy & H1 & H2). rewrite H1. apply (Zid _ _ Hy).
    + rewrite Hs. reflexivity.
Qed.

(** * Positions exist; reachable trees *)

Lemma position_exists : forall t c x, In x (inorder t) -> exists z, at_node (plug t c) z x.
Proof.
  induction t as [|l IHl y s r IHr]; intros c x Hx; [contradiction|].
  cbn [inorder] in Hx. apply in_app_or in Hx as [Hx|[<-|Hx]].
  - exact (IHl (mkF false y s r :: c) x Hx).
  - exists (N l y s r, c). split; [reflexivity|]. cbn; eauto.
  - exact (IHr (mkF true y s l :: c) x Hx).
Qed.

Lemma nodup_split_eq (x : nat) a b a' b' : NoDup (a ++ x :: b) -> a ++ x :: b = a' ++ x :: b' -> a = a' /\ b = b'.
Proof.
  revert a'. induction a as [|y a IH]; intros a' Hn H.
  - destruct a' as [|z a']; cbn [app] in *; [injection H; auto|].
    injection H as <- H. subst b. apply NoDup_cons_iff in Hn as [Hn _]. exfalso. apply Hn.
    apply in_or_app. right. cbn; auto.
  - destruct a' as [|z a']; cbn [app] in *.
    + injection H as -> H. apply NoDup_cons_iff in Hn as [Hn _]. exfalso. apply Hn.
      apply in_or_app. right. cbn; auto.
    + injection H as <- H. apply NoDup_cons_iff in Hn as [_ Hn].
      destruct (IH a' Hn H) as [-> ->]. auto.
Qed.

Lemma split_bal cmp back : forall n l r, balanced n -> split cmp back n = Some (l, r) -> balanced l /\ balanced r.
Proof.
  induction n as [|nl IHl x s nr IHr]; intros l r Hb H; cbn [split] in H.
  - injection H as <- <-. auto.
  - apply balanced_children in Hb as [Hbl Hbr]. destruct (_ <=? _)%Z.
    + apply bind_inv in H as ([nm r'] & H1 & H). apply bind_inv in H as (l' & H2 & H). injection H as <- <-.
      destruct (IHr _ _ Hbr H1) as [Hm Hr]. destruct (join3_ok nl x nm Hbl Hm) as (t & F1 & F2 & _).
      split; [congruence|exact Hr].
    + apply bind_inv in H as ([l' nm] & H1 & H). apply bind_inv in H as (r' & H2 & H). injection H as <- <-.
      destruct (IHl _ _ Hbl H1) as [Hl Hm]. destruct (join3_ok nm x nr Hm Hbr) as (t & F1 & F2 & _).
      split; [exact Hl|congruence].
Qed.

Lemma reach_bal t : reach t -> balanced t.
Proof.
  assert (balanced E) as HE by (exists false, 0; constructor).
  induction 1 as [|t node p i t' Hr IH Hp H|t z t' Hr IH Hp H|l m r t Hl IHl Hrr IHr H|l r t Hl IHl Hrr IHr H
                  |cmp back n l r Hn IH H|cmp back n l r Hn IH H].
  - exact HE.
  - destruct p as [[n c]|].
    + destruct n as [|nl y s nr].
      * unfold insert_ref in H. cbn [child frame_of bind] in H. discriminate.
      * destruct (insert_ref_pos node t (N nl y s nr, c) y i IH) as (t2 & E1 & E2 & _); [|congruence].
        split; [exact Hp|cbn; eauto].
    + destruct (insert_ref_null node t i IH) as (t2 & E1 & E2 & _). congruence.
  - destruct z as [n c]. destruct n as [|nl y s nr]; [discriminate|].
    destruct (remove_ok t (N nl y s nr, c) y IH) as (t2 & E1 & E2 & _); [|congruence].
    split; [exact Hp|cbn; eauto].
  - destruct (join3_ok l m r IHl IHr) as (t2 & E1 & E2 & _). congruence.
  - destruct (join2_ok l r IHl IHr) as (t2 & E1 & E2 & _). congruence.
  - apply (split_bal cmp back n l r IH H).
  - apply (split_bal cmp back n l r IH H).
Qed.
