From Coq Require Import Arith Bool List Lia Permutation.
From Verif Require Import List_model List_spec.
Import ListNotations.

Lemma upd_same f x v : upd f x v x = v.
Proof. unfold upd. rewrite Nat.eqb_refl. reflexivity. Qed.
Lemma upd_other f x v y : y <> x -> upd f x v y = f y.
Proof. unfold upd. intros N. destruct (Nat.eqb_spec y x); [contradiction|reflexivity]. Qed.

Lemma next_chain h p n : next (chain h p n) = upd (upd (next h) p n) (prev h n) (next h p).
Proof. reflexivity. Qed.
Lemma prev_chain h p n : prev (chain h p n) = upd (upd (prev h) n p) (next h p) (prev h n).
Proof. reflexivity. Qed.

Lemma path_app f a l x m b : path f a (l ++ x :: m) b <-> path f a l x /\ path f x m b.
Proof.
  revert a. induction l as [|y l IH]; intros a; cbn [app path]; [reflexivity|]. rewrite IH. tauto.
Qed.
Lemma path_ext f g a l b : (forall y, In y (a :: l) -> f y = g y) -> path f a l b -> path g a l b.
Proof.
  revert a. induction l as [|y l IH]; intros a E; cbn [path].
  - intros <-. symmetry. apply E. left. reflexivity.
  - intros [<- P]. split; [symmetry; apply E; left; reflexivity|]. apply IH; [|exact P].
    intros z Z. apply E. right. exact Z.
Qed.
Lemma path_hd f a l b : path f a l b -> f a = hd b l.
Proof. destruct l; cbn; tauto. Qed.
Lemma hd_rev (l : list node) d : hd d (rev l) = last l d.
Proof.
  induction l as [|x l IH] using rev_ind; [reflexivity|].
  rewrite rev_app_distr, last_last. reflexivity.
Qed.

Lemma NoDup_app_remove_l {A} (l m : list A) : NoDup (l ++ m) -> NoDup m.
Proof. induction l as [|x l IH]; cbn [app]; [auto|]. intros H. inversion H; subst. auto. Qed.
Lemma NoDup_app_remove_r {A} (l m : list A) : NoDup (l ++ m) -> NoDup l.
Proof.
  induction l as [|x l IH]; cbn [app]; [constructor|]. intros H. inversion H; subst. constructor; [|auto].
  intros I. apply H2, in_or_app. left. exact I.
Qed.

(** *** for one of the functions next, prev *)
Definition rewired (f : node -> node) (p n np : node) : node -> node := upd (upd f p n) np (f p).

Lemma rewired_keep f p n np a l b : ~ In p (a :: l) -> ~ In np (a :: l) -> path f a l b -> path (rewired f p n np) a l b.
Proof.
  intros P N. apply path_ext. intros y Y. unfold rewired. rewrite !upd_other; [reflexivity| |]; intros ->; auto.
Qed.

Lemma nodup_split {A} (l m : list A) x : NoDup (l ++ x :: m) -> NoDup (l ++ m) /\ ~ In x (l ++ m).
Proof. apply NoDup_remove. Qed.

Lemma merge_fwd f p xs n ys : path f p xs p -> path f n ys n -> NoDup ((p :: xs) ++ n :: ys) ->
  path (rewired f p n (last ys n)) p (n :: ys ++ xs) p.
Proof.
  intros P N D. set (np := last ys n).
  assert (NP : In np (n :: ys)).
  { subst np. destruct ys as [|y ys] using rev_ind; [left; reflexivity|]. rewrite last_last.
    right. apply in_or_app. right. left. reflexivity. }
  assert (DIS : forall x, In x (p :: xs) -> In x (n :: ys) -> False).
  { clear - D. intros x X Y. induction (p :: xs) as [|a l IH]; [destruct X|]. inversion D; subst.
    destruct X as [ -> |X]; [apply H1, in_or_app; auto|auto]. }
  split.
  - unfold rewired. rewrite upd_other, upd_same; [reflexivity|]. intros E. apply (DIS p); [left; reflexivity|]. rewrite E. exact NP.
  - assert (X : path (rewired f p n np) np xs p).
    { destruct xs as [|x xs]; cbn [path] in *.
      - unfold rewired. rewrite upd_same. exact P.
      - destruct P as [P1 P2]. split; [unfold rewired; rewrite upd_same; exact P1|].
        apply rewired_keep; [| |exact P2].
        + apply NoDup_cons_iff in D as [PN _]. intros I. apply PN.  apply (in_or_app (_ :: xs)). left. exact I.
        + intros I. apply (DIS np); [right; exact I|exact NP]. }
    subst np. destruct ys as [|y ys _] using rev_ind.
    + exact X.
    + rewrite last_last in *. rewrite <- app_assoc. cbn [app]. apply path_app. split; [|exact X].
      apply path_app in N as [N _]. apply rewired_keep; [| |exact N].
      * intros I. apply (DIS p); [left; reflexivity|]. destruct I as [ -> |I]; [left; reflexivity|right; apply in_or_app; auto].
      * apply NoDup_app_remove_l in D. change (n :: ys ++ [y]) with ((n :: ys) ++ [y]) in D.
        apply NoDup_remove_2 in D. rewrite app_nil_r in D. exact D.
Qed.

Lemma split_fwd f p xs n ys : path f p (xs ++ n :: ys) p -> NoDup (p :: xs ++ n :: ys) ->
  path (rewired f p n (last xs p)) p (n :: ys) p /\
  match xs with [] => True | x :: r => path (rewired f p n (last xs p)) x r x end.
Proof.
  intros P D. apply path_app in P as [P1 P2].
  destruct xs as [|x xs _] using rev_ind.
  - split; [|exact I]. cbn [last]. cbn [path] in P1. split; [unfold rewired; rewrite upd_same; exact P1|].
    cbn [app] in D. apply NoDup_cons_iff in D as [PN _]. apply rewired_keep; assumption.
  - rewrite last_last. apply path_app in P1 as [P1 PX]. cbn [path] in PX.
    apply NoDup_cons_iff in D as [PN D']. rewrite <- app_assoc in D'. cbn [app] in D'.
    assert (XP : x <> p). { intros ->. apply PN. rewrite <- app_assoc. apply in_or_app. right. left. reflexivity. }
    split.
    + split; [unfold rewired; rewrite upd_other, upd_same by congruence; reflexivity|].
      apply rewired_keep; [| |exact P2].
      * intros I. apply PN, in_or_app. right. exact I.
      * apply NoDup_remove_2 in D'. intros I. apply D', in_or_app. right. exact I.
    + destruct xs as [|z zs]; cbn [app] in *.
      * cbn [path] in *. unfold rewired. rewrite upd_same. exact P1.
      * cbn [path] in P1. destruct P1 as [P0 P1]. apply path_app. split.
        -- apply rewired_keep; [| |exact P1].
           ++ intros I. apply PN. cbn. destruct I as [ -> |I]; [left; reflexivity|]. right. rewrite <- app_assoc. apply in_or_app. left. exact I.
           ++ intros I. change (z :: zs ++ x :: n :: ys) with ((z :: zs) ++ x :: n :: ys) in D'. apply NoDup_remove_2 in D'.
              apply D', in_or_app. left. exact I.
        -- cbn [path]. unfold rewired. rewrite upd_same. exact P0.
Qed.

Lemma remove_fwd f p xs : path f p xs p -> NoDup (p :: xs) ->
  path (rewired f p p (last xs p)) p [] p /\
  match xs with [] => True | x :: r => path (rewired f p p (last xs p)) x r x end.
Proof.
  intros P D. apply NoDup_cons_iff in D as [PN D']. destruct xs as [|x xs _] using rev_ind.
  - split; [|exact I]. cbn [last path] in *. unfold rewired. rewrite upd_same. exact P.
  - rewrite last_last. apply path_app in P as [P1 P2].
    assert (XP : x <> p). { intros ->. apply PN, in_or_app. right. left. reflexivity. }
    split.
    + cbn [path]. unfold rewired. rewrite upd_other, upd_same by congruence. reflexivity.
    + destruct xs as [|z zs]; cbn [app] in *.
      * cbn [path] in *. unfold rewired. rewrite upd_same. exact P1.
      * cbn [path] in P1. destruct P1 as [P0 P1]. apply path_app. split.
        -- apply rewired_keep; [| |exact P1].
           ++ intros I. apply PN. cbn. destruct I as [ -> |I]; [left; reflexivity|]. right. apply in_or_app. left. exact I.
           ++ intros I. change (z :: zs ++ [x]) with ((z :: zs) ++ [x]) in D'. apply NoDup_remove_2 in D'. rewrite app_nil_r in D'. auto.
        -- cbn [path]. unfold rewired. rewrite upd_same. exact P0.
Qed.

(** *** rings *)
Lemma prev_last h p xs : ring h (p :: xs) -> prev h p = last xs p.
Proof. intros (_ & _ & P). rewrite (path_hd _ _ _ _ P), hd_rev. reflexivity. Qed.

Lemma rotate f p m n : path f n (p :: m) n <-> path f p (m ++ [n]) p.
Proof. rewrite path_app. cbn [path]. tauto. Qed.

Lemma nodup_perm_ {A} (l m : list A) : Permutation l m -> NoDup l -> NoDup m.
Proof. intros P. apply Permutation_NoDup, P. Qed.

Lemma last_rev_hd (l : list node) d : last (rev l) d = hd d l.
Proof. rewrite <- hd_rev, rev_involutive. reflexivity. Qed.

Lemma chain_merge h p xs n ys : ring h (p :: xs) -> ring h (n :: ys) -> NoDup ((p :: xs) ++ n :: ys) ->
  ring (chain h p n) (p :: n :: ys ++ xs).
Proof.
  intros R1 R2 D. pose proof (prev_last _ _ _ R1) as L1. pose proof (prev_last _ _ _ R2) as L2.
  destruct R1 as (_ & F1 & B1), R2 as (_ & F2 & B2). split; [|split].
  - refine (nodup_perm_ _ _ _ D). cbn [app]. constructor. rewrite Permutation_app_comm. reflexivity.
  - rewrite next_chain, L2. apply merge_fwd; assumption.
  - rewrite prev_chain. cbn [rev]. rewrite rev_app_distr. apply (proj1 (rotate _ _ _ _)).
    rewrite (path_hd _ _ _ _ F1), <- last_rev_hd.
    apply merge_fwd; [exact B2|exact B1|].
    refine (nodup_perm_ _ _ _ D). rewrite Permutation_app_comm. cbn [app]. constructor.
    apply Permutation_app; [apply Permutation_rev|]. constructor. apply Permutation_rev.
Qed.

Lemma chain_split h p xs n ys : ring h (p :: xs ++ n :: ys) ->
  ring (chain h p n) (p :: n :: ys) /\ ring (chain h p n) xs.
Proof.
  intros (D & F & B). rewrite rev_app_distr in B. cbn [rev] in B. rewrite <- app_assoc in B. cbn [app] in B.
  assert (L1 : next h p = hd n xs). { rewrite (path_hd _ _ _ _ F). destruct xs; reflexivity. }
  assert (L2 : prev h n = last xs p).
  { apply path_app in B as [_ B]. rewrite (path_hd _ _ _ _ B). destruct (rev xs) eqn:E.
    - assert (X : rev (rev xs) = []) by (rewrite E; reflexivity). rewrite rev_involutive in X. rewrite X. reflexivity.
    - rewrite <- hd_rev, E. reflexivity. }
  assert (D2 : NoDup (n :: rev xs ++ p :: rev ys)).
  { refine (nodup_perm_ _ _ _ D). rewrite <- !Permutation_rev. rewrite (Permutation_app_comm xs (n :: ys)). cbn [app].
    rewrite (Permutation_app_comm xs (p :: ys)). cbn [app]. apply perm_swap. }
  assert (B' : path (prev h) n (rev xs ++ p :: rev ys) n).
  { apply path_app in B as [B1 B2]. apply path_app. split; assumption. }
  destruct (split_fwd _ _ _ _ _ F D) as [F1 F2]. destruct (split_fwd _ _ _ _ _ B' D2) as [G1 G2].
  rewrite last_rev_hd in G1, G2. rewrite <- L1 in G1, G2. rewrite <- L2 in F1, F2.
  split.
  - split; [|split].
    + clear - D. inversion D; subst. constructor.
      * intros I. apply H1, in_or_app. right. exact I.
      * apply NoDup_app_remove_l in H2. exact H2.
    + rewrite next_chain. exact F1.
    + rewrite prev_chain. cbn [rev]. apply (proj1 (rotate _ _ _ _)). exact G1.
  - destruct xs as [|x r]; [exact I|]. split; [|split].
    + clear - D. inversion D; subst. apply (NoDup_app_remove_r (x :: r)) in H2. exact H2.
    + rewrite next_chain. exact F2.
    + rewrite prev_chain. destruct r as [|z r _] using rev_ind; [cbn [rev app] in *; exact G2|].
      change (rev (x :: r ++ [z])) with (rev (r ++ [z]) ++ [x]) in G2.
      rewrite rev_app_distr in *. cbn [rev app] in *. exact (proj2 (rotate _ _ _ _) G2).
Qed.

Lemma chain_remove h p xs : ring h (p :: xs) -> ring (remove h p) [p] /\ ring (remove h p) xs.
Proof.
  intros R. pose proof (prev_last _ _ _ R) as L2. destruct R as (D & F & B).
  pose proof (path_hd _ _ _ _ F) as L1.
  assert (D2 : NoDup (p :: rev xs)). { refine (nodup_perm_ _ _ _ D). constructor. apply Permutation_rev. }
  destruct (remove_fwd _ _ _ F D) as [F1 F2]. destruct (remove_fwd _ _ _ B D2) as [G1 G2].
  rewrite last_rev_hd in G1, G2. rewrite <- L1 in G1, G2. rewrite <- L2 in F1, F2.
  unfold remove. split.
  - split; [repeat constructor; intros []|]. split; [exact F1|exact G1].
  - destruct xs as [|x r]; [exact I|]. split; [|split].
    + inversion D; assumption.
    + exact F2.
    + rewrite prev_chain. destruct r as [|z r _] using rev_ind; [cbn [rev app] in *; exact G2|].
      change (rev (x :: r ++ [z])) with (rev (r ++ [z]) ++ [x]) in G2.
      rewrite rev_app_distr in *. cbn [rev app] in *. exact (proj2 (rotate _ _ _ _) G2).
Qed.

Lemma ring_keep h p n l : ring h l -> ~ In p l -> ~ In n l -> ~ In (next h p) l -> ~ In (prev h n) l -> ring (chain h p n) l.
Proof.
  destruct l as [|a l]; [auto|]. intros (D & F & B) P N PN NP. split; [exact D|].
  rewrite next_chain, prev_chain. split.
  - apply rewired_keep; assumption.
  - assert (X : forall x, In x (a :: rev l) -> In x (a :: l)) by (intros x [ -> |X]; [left; reflexivity|right; apply in_rev, X]).
    fold (rewired (prev h) n p (next h p)). apply rewired_keep; auto.
Qed.

Lemma in_ring_next h p n : consistent h -> forall l, ring h l -> ~ In p l -> ~ In n l -> ~ In (next h p) l /\ ~ In (prev h n) l.
Proof.
  intros C [|a l]; [auto|]. intros (D & F & B) P N.
  assert (CL : forall f (b c : node) m x, path f b m c -> In x (b :: m) -> In (f x) (m ++ [c])).
  { clear. intros f b c m. revert b. induction m as [|y m IH]; intros b x Q I; cbn [path app] in *.
    - destruct I as [ -> |[]]. left. auto.
    - destruct Q as [Q1 Q2]. destruct I as [<-|I]; [left; auto|right; eauto]. }
  split; intros I.
  - assert (J : In (prev h (next h p)) (rev l ++ [a])).
    { apply (CL _ a); [exact B|]. destruct I as [I|I]; [left; exact I|right; rewrite <- in_rev; exact I]. }
    rewrite (proj2 (C p)) in J. apply P. apply in_app_or in J as [J|[J|[]]]; [right; apply in_rev, J|left; exact J].
  - assert (J : In (next h (prev h n)) (l ++ [a])) by (apply (CL _ a); assumption).
    rewrite (proj1 (C n)) in J. apply N. apply in_app_or in J as [J|[J|[]]]; [right; exact J|left; exact J].
Qed.

Lemma chain_others h p n l : consistent h -> ring h l -> ~ In p l -> ~ In n l -> ring (chain h p n) l.
Proof. intros C R P N. destruct (in_ring_next h p n C l R P N). apply ring_keep; assumption. Qed.

Lemma chain_consistent h p n : consistent h -> consistent (chain h p n).
Proof.
  intros C x. rewrite next_chain, prev_chain. unfold upd.
  pose proof (C x) as [C1 C2]. pose proof (C p) as [P1 P2]. pose proof (C n) as [N1 N2].
  split.
  - destruct (Nat.eqb_spec x (next h p)) as [E|E].
    + rewrite Nat.eqb_refl. auto.
    + destruct (Nat.eqb_spec x n) as [E2|E2].
      * destruct (Nat.eqb_spec p (prev h n)) as [E3|E3].
        -- exfalso. apply E. rewrite E2, E3. auto.
        -- rewrite Nat.eqb_refl. auto.
      * destruct (Nat.eqb_spec (prev h x) (prev h n)) as [E3|E3].
        -- exfalso. apply E2. rewrite <- C1, E3. exact N1.
        -- destruct (Nat.eqb_spec (prev h x) p) as [E4|E4]; [|exact C1].
           exfalso. apply E. rewrite <- E4. auto.
  - destruct (Nat.eqb_spec x (prev h n)) as [E|E].
    + rewrite Nat.eqb_refl. auto.
    + destruct (Nat.eqb_spec x p) as [E2|E2].
      * destruct (Nat.eqb_spec n (next h p)) as [E3|E3].
        -- exfalso. apply E. rewrite E2, E3. auto.
        -- rewrite Nat.eqb_refl. auto.
      * destruct (Nat.eqb_spec (next h x) (next h p)) as [E3|E3].
        -- exfalso. apply E2. rewrite <- C2, E3. exact P2.
        -- destruct (Nat.eqb_spec (next h x) n) as [E4|E4]; [|exact C2].
           exfalso. apply E. rewrite <- E4. auto.
Qed.

Lemma chain_back h p n : consistent h -> same (chain (chain h p n) p (next h p)) h.
Proof.
  intros C x.
  assert (NP : next (chain h p n) p = n).
  { rewrite next_chain. unfold upd. destruct (Nat.eqb_spec p (prev h n)) as [E|E].
    - rewrite E at 1. apply C.
    - rewrite Nat.eqb_refl. reflexivity. }
  assert (PN : prev (chain h p n) (next h p) = prev h n) by (rewrite prev_chain; apply upd_same).
  rewrite (next_chain (chain h p n)), (prev_chain (chain h p n)), NP, PN. rewrite (next_chain h), (prev_chain h). unfold upd.
  pose proof (C x) as [C1 C2]. pose proof (C p) as [P1 P2]. pose proof (C n) as [N1 N2]. split.
  - destruct (Nat.eqb_spec x (prev h n)) as [ -> |]; [auto|]. destruct (Nat.eqb_spec x p) as [ -> |]; auto.
  - destruct (Nat.eqb_spec x n) as [ -> |]; [auto|]. destruct (Nat.eqb_spec x (next h p)) as [ -> |]; auto.
Qed.

Lemma init_ring h x : ring (init h x) [x].
Proof.
  split; [repeat constructor; intros []|]. unfold init, set_next, set_prev. cbn. rewrite !upd_same. auto.
Qed.
Lemma init_others h x l : ring h l -> ~ In x l -> ring (init h x) l.
Proof.
  destruct l as [|a l]; [auto|]. intros (D & F & B) N. split; [exact D|]. cbn [init set_next set_prev next prev]. split.
  - revert F. apply path_ext. intros y Y. rewrite upd_other; [reflexivity|]. intros ->. auto.
  - revert B. apply path_ext. intros y Y. rewrite upd_other; [reflexivity|]. intros ->. apply N.
    destruct Y as [Y|Y]; [left; exact Y|right; apply in_rev, Y].
Qed.

Lemma each_from_path f n l fuel : forall a, path f a l n -> ~ In n l -> length l < fuel -> each_from fuel f n (f a) = Some l.
Proof.
  revert fuel. induction l as [|x l IH]; intros fuel a P N L; (destruct fuel as [|fuel]; [cbn in L; lia|]); cbn [path each_from] in *.
  - rewrite P, Nat.eqb_refl. reflexivity.
  - destruct P as [P1 P2]. rewrite P1. destruct (Nat.eqb_spec x n) as [E|E]; [exfalso; apply N; left; exact E|].
    rewrite IH; [reflexivity|exact P2|intros I; apply N; right; exact I|cbn in L; lia].
Qed.

Lemma each_ok h n l fuel : ring h (n :: l) -> length l < fuel ->
  each fuel h n = Some l /\ each_rev fuel h n = Some (rev l) /\ is_member h n = negb (length l =? 0).
Proof.
  intros (D & F & B) L. inversion D; subst. split; [|split].
  - apply each_from_path; assumption.
  - apply each_from_path; [exact B|rewrite <- in_rev; assumption|rewrite rev_length; exact L].
  - unfold is_member. rewrite (path_hd _ _ _ _ F). destruct l as [|x l]; cbn [hd length Nat.eqb negb].
    + rewrite Nat.eqb_refl. reflexivity.
    + destruct (Nat.eqb_spec n x) as [ -> |]; [|reflexivity]. exfalso. apply H1. left. reflexivity.
Qed.
