(** Trees in a heap are locally consistent; cp_dict_swap renames. *)
From Coq Require Import List Bool Arith Lia.
From Verif Require Import Dict_model Dict_spec Ptr_model Ptr_spec Ptr_proofs.
Import ListNotations.

Lemma nd_app {A} (l1 l2 : list A) : NoDup (l1 ++ l2) <->
  NoDup l1 /\ NoDup l2 /\ (forall x, In x l1 -> In x l2 -> False).
Proof.
  induction l1 as [|a l1 IH]; cbn.
  - split; [intros H; split; [constructor|split; [assumption|tauto]]|tauto].
  - rewrite !NoDup_cons_iff, IH, in_app_iff. split.
    + intros (H1 & H2 & H3 & H4). split; [tauto|]. split; [assumption|].
      intros x [<-|H]; [tauto|eauto].
    + intros ((H1 & H2) & H3 & H4). split; [|split; [assumption|split; [assumption|]]].
      * intros [H|H]; [tauto|]. eapply H4; eauto.
      * intros x Hx. eapply H4; eauto.
Qed.

Lemma root_in t x : root_of t = Some x -> In x (inorder t).
Proof.
  destruct t as [|l y s r]; cbn; [discriminate|]. intros H; injection H as ->.
  apply in_or_app. right. now left.
Qed.

Lemma rep_par h t : forall p x, rep h p t -> In x (inorder t) ->
  (root_of t = Some x /\ par (h x) = p) \/
  exists q, In q (inorder t) /\ par (h x) = Some q /\ exists i, edge (h q) i = Some x.
Proof.
  induction t as [|l IHl y s r IHr]; intros p x; cbn; [tauto|].
  intros (Hy & Hl & Hr) Hx. apply in_app_or in Hx. destruct Hx as [Hx|[->|Hx]].
  - right. destruct (IHl _ _ Hl Hx) as [(Hroot & Hp)|(q & Hq & Hp & Hi)].
    + exists y. split; [apply in_or_app; right; now left|]. split; [assumption|].
      exists false. rewrite Hy. cbn. assumption.
    + exists q. split; [apply in_or_app; now left|]. split; assumption.
  - left. rewrite Hy. auto.
  - right. destruct (IHr _ _ Hr Hx) as [(Hroot & Hp)|(q & Hq & Hp & Hi)].
    + exists y. split; [apply in_or_app; right; now left|]. split; [assumption|].
      exists true. rewrite Hy. cbn. assumption.
    + exists q. split; [apply in_or_app; right; now right|]. split; assumption.
Qed.

Lemma rep_root_par h p t x : rep h p t -> root_of t = Some x -> par (h x) = p.
Proof. destruct t; cbn; [discriminate|]. intros (H & _) E; injection E as <-. now rewrite H. Qed.

Lemma rep_edge h t : forall p x i y, rep h p t -> In x (inorder t) -> edge (h x) i = Some y ->
  In y (inorder t) /\ par (h y) = Some x.
Proof.
  induction t as [|l IHl z s r IHr]; intros p x i y; cbn; [tauto|].
  intros (Hz & Hl & Hr) Hx Hy. apply in_app_or in Hx. destruct Hx as [Hx|[->|Hx]].
  - destruct (IHl _ _ _ _ Hl Hx Hy). split; [apply in_or_app; now left|assumption].
  - rewrite Hz in Hy. destruct i; cbn in Hy.
    + split; [apply in_or_app; right; right; now apply root_in|]. exact (rep_root_par _ _ _ _ Hr Hy).
    + split; [apply in_or_app; left; now apply root_in|]. exact (rep_root_par _ _ _ _ Hl Hy).
  - destruct (IHr _ _ _ _ Hr Hx Hy). split; [apply in_or_app; right; now right|assumption].
Qed.

Lemma rep_edges_differ h t : forall p x y, rep h p t -> NoDup (inorder t) -> In x (inorder t) ->
  e0 (h x) = Some y -> e1 (h x) = Some y -> False.
Proof.
  induction t as [|l IHl z s r IHr]; intros p x y; cbn; [tauto|].
  intros (Hz & Hl & Hr) Nd Hx H0 H1. apply nd_app in Nd. destruct Nd as (Nl & Nr & Dj).
  apply NoDup_cons_iff in Nr. destruct Nr as (_ & Nr).
  apply in_app_or in Hx. destruct Hx as [Hx|[->|Hx]].
  - eapply IHl; eauto.
  - rewrite Hz in H0, H1. cbn in H0, H1. apply (Dj y); [now apply root_in|].
    right. now apply root_in.
  - eapply IHr; eauto.
Qed.

Lemma rep_no_loop h t : forall p x, rep h p t -> NoDup (inorder t) ->
  (forall q, p = Some q -> ~ In q (inorder t)) -> In x (inorder t) ->
  par (h x) = Some x -> False.
Proof.
  induction t as [|l IHl z s r IHr]; intros p x; cbn; [tauto|].
  intros (Hz & Hl & Hr) Nd Hp Hx H. apply nd_app in Nd. destruct Nd as (Nl & Nr & Dj).
  apply NoDup_cons_iff in Nr. destruct Nr as (Nz & Nr).
  apply in_app_or in Hx. destruct Hx as [Hx|[->|Hx]].
  - eapply (IHl (Some z) x); eauto. intros q E; injection E as <-. intros X. apply (Dj z X). now left.
  - rewrite Hz in H. cbn in H. apply (Hp x H). apply in_or_app. right. now left.
  - eapply (IHr (Some z) x); eauto. intros q E; injection E as <-. assumption.
Qed.

Lemma rep_no_cycle h t : forall p x y, rep h p t -> NoDup (inorder t) ->
  (forall q, p = Some q -> ~ In q (inorder t)) -> In x (inorder t) -> In y (inorder t) ->
  par (h x) = Some y -> par (h y) = Some x -> False.
Proof.
  induction t as [|l IHl z s r IHr]; intros p x y; cbn; [tauto|].
  intros (Hz & Hl & Hr) Nd Hp Hx Hy H H'. apply nd_app in Nd. destruct Nd as (Nl & Nr & Dj).
  apply NoDup_cons_iff in Nr. destruct Nr as (Nz & Nr).
  assert (Zl : ~ In z (inorder l)) by (intros X; apply (Dj z X); now left).
  assert (Pl : forall u v, In u (inorder l) -> par (h u) = Some v -> v = z \/ In v (inorder l)).
  { intros u v Hu Hv. destruct (rep_par _ _ _ _ Hl Hu) as [(_&E)|(q&Hq&E&_)]; rewrite Hv in E; injection E as ->; auto. }
  assert (Pr : forall u v, In u (inorder r) -> par (h u) = Some v -> v = z \/ In v (inorder r)).
  { intros u v Hu Hv. destruct (rep_par _ _ _ _ Hr Hu) as [(_&E)|(q&Hq&E&_)]; rewrite Hv in E; injection E as ->; auto. }
  assert (Hpz : forall v, In v (inorder l ++ z :: inorder r) -> par (h z) = Some v -> False).
  { intros v Hv E. rewrite Hz in E. cbn in E. exact (Hp v E Hv). }
  pose proof Hx as Hx'. pose proof Hy as Hy'.
  apply in_app_or in Hx. apply in_app_or in Hy.
  destruct Hx as [Hx|[<-|Hx]]; [|eapply Hpz; [exact Hy'|exact H]|].
  - destruct Hy as [Hy|[<-|Hy]]; [|eapply Hpz; [exact Hx'|exact H']|].
    + eapply (IHl (Some z) x y); eauto. intros q E; injection E as <-. assumption.
    + destruct (Pl _ _ Hx H) as [->|X]; [contradiction|]. apply (Dj y X). now right.
  - destruct Hy as [Hy|[<-|Hy]]; [|eapply Hpz; [exact Hx'|exact H']|].
    + destruct (Pl _ _ Hy H') as [->|X]; [contradiction|]. apply (Dj x X). now right.
    + eapply (IHr (Some z) x y); eauto. intros q E; injection E as <-. assumption.
Qed.

(** Several disjoint trees. *)
Lemma forest_in (ts : list tree) x : In x (flat_map inorder ts) <-> exists t, In t ts /\ In x (inorder t).
Proof. apply in_flat_map. Qed.

Lemma forest_nodup (ts : list tree) t : NoDup (flat_map inorder ts) -> In t ts -> NoDup (inorder t).
Proof.
  induction ts as [|u ts IH]; cbn; [tauto|]. intros Nd. apply nd_app in Nd.
  destruct Nd as (N1 & N2 & _). intros [<-|H]; auto.
Qed.

Lemma forest_wf h ts : Forall (rep h None) ts -> NoDup (flat_map inorder ts) ->
  wf h (fun x => In x (flat_map inorder ts)).
Proof.
  intros R Nd. rewrite Forall_forall in R.
  assert (Nt := forest_nodup ts).
  split; [|split; [|split; [|split]]].
  - intros x p Hx Hp. apply forest_in in Hx. destruct Hx as (t & Ht & Hx).
    destruct (rep_par _ _ _ _ (R t Ht) Hx) as [(_&E)|(q&Hq&E&Hi)]; rewrite Hp in E; [discriminate|].
    injection E as ->. split; [apply forest_in; eauto|assumption].
  - intros x i y Hx Hy. apply forest_in in Hx. destruct Hx as (t & Ht & Hx).
    destruct (rep_edge _ _ _ _ _ _ (R t Ht) Hx Hy). split; [apply forest_in; eauto|assumption].
  - intros x y Hx H0 H1. apply forest_in in Hx. destruct Hx as (t & Ht & Hx).
    eapply (rep_edges_differ h t None x y); eauto.
  - intros x Hx H. apply forest_in in Hx. destruct Hx as (t & Ht & Hx).
    eapply (rep_no_loop h t None x); eauto. discriminate.
  - intros x y Hx H H'. apply forest_in in Hx. destruct Hx as (t & Ht & Hx).
    destruct (rep_par _ _ _ _ (R t Ht) Hx) as [(_&E)|(q&Hq&E&Hi)]; rewrite H in E; [discriminate|].
    injection E as ->. eapply (rep_no_cycle h t None x q); eauto. discriminate.
Qed.

Lemma rename_root f t : root_of (rename f t) = option_map f (root_of t).
Proof. destruct t; reflexivity. Qed.

Lemma rename_rep h h' (D : nat -> Prop) a b t : a <> b -> (forall x, D x -> h' x = target h a b x) ->
  D a -> D b ->
  forall p, rep h p t -> (forall x, In x (inorder t) -> D x) ->
  rep h' (option_map (exchange a b) p) (rename (exchange a b) t).
Proof.
  intros ab Ht Da Db. induction t as [|l IHl x s r IHr]; intros p; cbn; [trivial|].
  intros (Hx & Hl & Hr) HD. split; [|split].
  - rewrite Ht.
    + unfold target. rewrite f_f by assumption. rewrite Hx. cbn. now rewrite !rename_root.
    + apply (f_D D); try assumption. apply HD. apply in_or_app. right. now left.
  - apply (IHl (Some x) Hl). intros y Hy. apply HD. apply in_or_app. now left.
  - apply (IHr (Some x) Hr). intros y Hy. apply HD. apply in_or_app. right. now right.
Qed.

Lemma rename_inorder f t : inorder (rename f t) = map f (inorder t).
Proof.
  induction t as [|l IHl x s r IHr]; cbn; [reflexivity|].
  rewrite map_app, IHl, IHr. reflexivity.
Qed.

Lemma swap_forest h ts a b : Forall (rep h None) ts -> NoDup (flat_map inorder ts) ->
  In a (flat_map inorder ts) -> In b (flat_map inorder ts) ->
  exists h', swap_p a b h = Some h' /\
    Forall (rep h' None) (map (rename (exchange a b)) ts) /\
    changes h h' (flat_map inorder ts).
Proof.
  intros R Nd Ha Hb. destruct (Nat.eq_dec a b) as [<-|ab].
  - exists h. split; [unfold swap_p; now rewrite Nat.eqb_refl|]. split; [|now intros y _].
    assert (X : forall t, rename (exchange a a) t = t).
    { induction t as [|l IHl x s r IHr]; cbn; [reflexivity|]. rewrite IHl, IHr. f_equal.
      unfold exchange. destruct (Nat.eqb_spec x a); congruence. }
    rewrite (map_ext _ (fun t => t)), map_id; assumption.
  - destruct (swap_ok h _ a b (forest_wf h ts R Nd) Ha Hb ab) as (h' & E & T & O).
    exists h'. split; [assumption|]. split; [|intros y Hy; now apply O].
    rewrite Forall_map. rewrite Forall_forall in *. intros t Ht.
    apply (rename_rep h h' (fun x => In x (flat_map inorder ts)) a b t ab T Ha Hb None).
    + apply R; assumption.
    + intros x Hx. apply forest_in. eauto.
Qed.

Lemma exchange_swap_root a b r : swap_root a b r = option_map (exchange a b) r.
Proof.
  unfold swap_root, exchange. destruct r as [x|]; [|reflexivity]. cbn.
  rewrite (Nat.eqb_sym a x), (Nat.eqb_sym b x).
  destruct (x =? a), (x =? b); reflexivity.
Qed.
