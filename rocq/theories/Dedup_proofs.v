(** Proofs about the numbering of points *)
From Coq Require Import ZArith List Bool Arith Lia ZifyBool Permutation.
From Verif Require Import Dict_model Dict_spec Dict_proofs Dict_proofs2 Dict_proofs3 Dedup_model Dedup_spec.
Import ListNotations.

(** * The comparison *)
Lemma lex_values : forall e a b, (lex_cmp e a b = -1 \/ lex_cmp e a b = 0 \/ lex_cmp e a b = 1)%Z.
Proof.
  intros e. induction a as [|x a IH]; intros [|y b]; simpl; auto. destruct (negb (cp_eq e x y)); [|apply IH]. destruct (x <? y)%Z; auto.
Qed.
Lemma lex_refl : forall e a, (0 < e)%Z -> lex_cmp e a a = 0%Z.
Proof.
  intros e a E. induction a as [|x a IH]; [reflexivity|]. simpl. unfold cp_eq. rewrite Z.sub_diag. change (Z.abs 0) with 0%Z.
  rewrite (proj2 (Z.ltb_lt 0 e) E). exact IH.
Qed.
Lemma lex_anti : forall e a b, (0 < e)%Z -> lex_cmp e a b = (- lex_cmp e b a)%Z.
Proof.
  intros e a b E0. revert b. induction a as [|x a IH]; intros [|y b]; simpl; try reflexivity. unfold cp_eq.
  replace (Z.abs (y - x)) with (Z.abs (x - y)) by lia.
  destruct (Z.abs (x - y) <? e)%Z eqn:Q; simpl; [apply IH|]. destruct (x <? y)%Z eqn:P, (y <? x)%Z eqn:R; lia.
Qed.
Lemma lex_close : forall e a b, length a = length b -> (lex_cmp e a b = 0%Z <-> close e a b).
Proof.
  intros e. induction a as [|x a IH]; intros [|y b] L; simpl in *; try discriminate.
  - split; [constructor|reflexivity].
  - unfold cp_eq. destruct (Z.ltb_spec (Z.abs (x - y)) e) as [Q|Q]; simpl.
    + rewrite IH by lia. split; intros H; [constructor; assumption|inversion H; assumption].
    + split; [destruct (x <? y)%Z; discriminate|]. intros H. inversion H. lia.
Qed.
Definition tri (e : Z) (a b c : list Z) : Prop := forall i x y z, nth_error a i = Some x -> nth_error b i = Some y -> nth_error c i = Some z ->
  let p := (Z.abs (x - y) < e)%Z in let q := (Z.abs (y - z) < e)%Z in let r := (Z.abs (x - z) < e)%Z in
  (p -> q -> r) /\ (p -> r -> q) /\ (q -> r -> p).
Lemma lex_tri : forall e a b c, (0 < e)%Z -> length a = length b -> length b = length c -> tri e a b c ->
  (lex_cmp e a b <= 0 -> lex_cmp e b c <= 0 -> lex_cmp e a c <= 0 /\ (lex_cmp e a b < 0 \/ lex_cmp e b c < 0 -> lex_cmp e a c < 0))%Z.
Proof.
  intros e a b c E0. revert b c. induction a as [|x a IH]; intros [|y b] [|z c] L1 L2 T; simpl in *; try discriminate; [lia|].
  pose proof (T 0 x y z eq_refl eq_refl eq_refl) as (T1 & T2 & T3). cbv zeta in *.
  assert (IH' := IH b c ltac:(lia) ltac:(lia) (fun i x y z A B C => T (S i) x y z A B C)).
  unfold cp_eq in *. revert IH'. generalize (lex_cmp e a b) (lex_cmp e b c) (lex_cmp e a c). intros p q r IH'.
  destruct (Z.ltb_spec (Z.abs (x - y)) e), (Z.ltb_spec (Z.abs (y - z)) e), (Z.ltb_spec (Z.abs (x - z)) e); simpl;
    destruct (Z.ltb_spec x y), (Z.ltb_spec y z), (Z.ltb_spec x z); try lia; try tauto.
Qed.
Lemma sep_tri : forall e vs u v w, separated e vs -> In u vs -> In v vs -> In w vs -> tri e u v w.
Proof.
  intros e vs u v w S U V W i x y z A B C. cbv zeta. split; [|split]; intros P Q.
  - apply (S i u v w x y z); auto.
  - apply (S i v u w y x z); auto. lia.
  - apply (S i u w v x z y); auto. lia.
Qed.

(** * Search with any comparison *)
Lemma find_ref_any : forall cmp n c p i pa, p_ok n c p i -> forall r, find_ref cmp 0 n c p i pa None = r ->
  match r_node r with
  | Some z => exists x, at_node (plug n c) z x /\ cmp x = 0%Z
  | None => exists l1 l2, inorder (plug n c) = l1 ++ l2 /\ pos_ok (plug n c) (r_parent r) (r_child r) l1 l2
  end.
Proof.
  intros cmp. induction n as [|l IHl x s r IHr]; intros c p i pa Hp res R; cbn [find_ref] in R; cbv zeta in R.
  - subst res. change (dup_e 0) with false. cbn [r_node r_parent r_child]. exists (before c), (after c). split; [apply inorder_plug|].
    destruct c as [|f c]; cbn [p_ok] in Hp.
    + subst p. cbn. auto.
    + destruct Hp as [-> ->]. cbn [pos_ok plug]. exists (fid f). split; [split; [reflexivity|]; unfold fill, mk; cbn [fst]; destruct (fside f); eauto|].
      unfold lt_nodes, gt_nodes, fill, mk. cbn [fst snd before after]. destruct (fside f); cbn [child inorder app]; rewrite ?app_nil_r; split; auto.
      now rewrite app_assoc.
  - destruct (cmp x =? 0)%Z eqn:C.
    + change (0 =? 0)%Z with true in R. cbv iota in R. subst res. change (dup_e 0) with false. cbn [r_node]. exists x.
      split; [split; [reflexivity|cbn; eauto]|lia].
    + rewrite C in R. destruct (0 <? cmp x)%Z.
      * apply (IHr (mkF true x s l :: c) (Some (N l x s r, c)) true (Nat.lor pa 2)); [cbn; auto|exact R].
      * apply (IHl (mkF false x s r :: c) (Some (N l x s r, c)) false (Nat.lor pa 1)); [cbn; auto|exact R].
Qed.
Lemma find_any : forall cmp t, match r_node (find cmp 0 t) with
  | Some z => exists x, at_node t z x /\ cmp x = 0%Z
  | None => exists l1 l2, inorder t = l1 ++ l2 /\ pos_ok t (r_parent (find cmp 0 t)) (r_child (find cmp 0 t)) l1 l2
  end.
Proof. intros cmp t. apply (find_ref_any cmp t [] (match t with E => None | _ => Some (t, []) end) true 0); [destruct t; reflexivity|reflexivity]. Qed.

(** * One insertion *)
Definition inv0 (d : vdict) : Prop := balanced (root d) /\ Permutation (inorder (root d)) (seq 0 (vsize d)).
Lemma inv0_in : forall d n, inv0 d -> (In n (inorder (root d)) <-> n < vsize d).
Proof.
  intros d n (_ & P). split; intros H.
  - apply (Permutation_in _ P) in H. apply in_seq in H. lia.
  - apply (Permutation_in _ (Permutation_sym P)). apply in_seq. lia.
Qed.
Definition fresh_at (v : list Z) (d d' : vdict) : Prop :=
  vsize d' = S (vsize d) /\ coord d' (vsize d) = v /\ (forall i, i <> vsize d -> coord d' i = coord d i)
  /\ exists l1 l2, inorder (root d) = l1 ++ l2 /\ inorder (root d') = l1 ++ vsize d :: l2.
Lemma perm_seq_S : forall n l, Permutation l (seq 0 n) -> Permutation (n :: l) (seq 0 (S n)).
Proof. intros n l P. rewrite seq_S. simpl. eapply Permutation_trans; [apply perm_skip, P|]. apply Permutation_cons_append. Qed.
Lemma insert_any : forall e v d, inv0 d ->
  exists n d', dict_insert e v d = Some (n, d') /\ inv0 d'
  /\ ((d' = d /\ n < vsize d /\ lex_cmp e v (coord d n) = 0%Z) \/ (n = vsize d /\ fresh_at v d d')).
Proof.
  intros e v d HI. destruct HI as (HB & HP). unfold dict_insert. pose proof (find_any (fun n => lex_cmp e v (coord d n)) (root d)) as F.
  destruct (r_node (find (fun n => lex_cmp e v (coord d n)) 0 (root d))) as [z|] eqn:Q.
  - destruct F as (x & Hx & C). assert (Z : zid (Some z) = Some x).
    { destruct Hx as [_ (l & s & r & Hz)]. destruct z as [n c]. cbn [fst] in Hz. subst n. reflexivity. }
    rewrite Z. exists x, d. split; [reflexivity|]. split; [split; assumption|]. left. split; [reflexivity|]. split; [|exact C].
    apply inv0_in; [split; assumption|]. rewrite (zip_split _ _ _ Hx). apply in_or_app. right. left. reflexivity.
  - destruct F as (l1 & l2 & I & P). destruct (insert_pos_ok (vsize d) _ _ _ _ _ HB I P) as (t' & R & B & O). rewrite R. cbn [bind].
    eexists. eexists. split; [reflexivity|]. split.
    + split; cbn [root vsize]; [exact B|]. rewrite O. eapply Permutation_trans; [apply Permutation_sym, Permutation_middle|]. apply perm_seq_S. rewrite <- I. exact HP.
    + right. split; [reflexivity|]. split; [reflexivity|]. cbn [coord root]. split; [rewrite Nat.eqb_refl; reflexivity|]. split; [|eauto].
      intros i N. destruct (Nat.eqb_spec i (vsize d)); [contradiction|reflexivity].
Qed.

(** * All insertions, any points *)
Lemma nodup_all : forall l n, (forall x, In x l <-> x < n) -> length (nodup Nat.eq_dec l) = n.
Proof.
  intros l n H. rewrite <- (seq_length n 0). apply Permutation_length. apply NoDup_Permutation; [apply NoDup_nodup|apply seq_NoDup|].
  intros x. rewrite nodup_In, H, in_seq. lia.
Qed.
Lemma insert_all_any : forall e vs d pre, (0 < e)%Z -> inv0 d -> (forall x, In x pre <-> x < vsize d) ->
  exists idx d', insert_all e vs d = Some (idx, d') /\ inv0 d' /\ length idx = length vs
  /\ (forall i, i < vsize d -> coord d' i = coord d i) /\ vsize d <= vsize d'
  /\ Forall2 (fun v n => n < vsize d' /\ lex_cmp e v (coord d' n) = 0%Z) vs idx
  /\ (forall x, In x (pre ++ idx) <-> x < vsize d')
  /\ (forall k n, nth_error idx k = Some n -> In n (pre ++ firstn k idx) \/ n = length (nodup Nat.eq_dec (pre ++ firstn k idx)))
  /\ (forall n, vsize d <= n < vsize d' -> In (coord d' n) vs).
Proof.
  intros e vs d pre E0. revert d pre. induction vs as [|v vs IH]; intros d pre HI HP.
  - exists [], d. split; [reflexivity|]. split; [exact HI|]. split; [reflexivity|]. split; [auto|]. split; [lia|]. split; [constructor|].
    split; [intros x; rewrite app_nil_r; apply HP|]. split; [intros k n H; destruct k; discriminate|]. intros n H. lia.
  - destruct (insert_any e v d HI) as (n & d1 & R & I1 & C).
    assert (HP1 : forall x, In x (pre ++ [n]) <-> x < vsize d1).
    { intros x. rewrite in_app_iff, HP. simpl. destruct C as [(-> & L & _)|(-> & (S1 & _))]; [|rewrite S1]; intuition lia. }
    destruct (IH d1 (pre ++ [n]) I1 HP1) as (idx & d' & R' & I' & L' & C' & S' & F' & P' & O' & W'). cbn [insert_all]. rewrite R. cbn [bind]. rewrite R'. cbn [bind].
    exists (n :: idx), d'. split; [reflexivity|]. split; [exact I'|]. split; [simpl; lia|].
    assert (SZ : vsize d <= vsize d1) by (destruct C as [(-> & _)|(_ & (S1 & _))]; lia).
    assert (CO : forall i, i < vsize d -> coord d1 i = coord d i).
    { intros i Hi. destruct C as [(-> & _)|(_ & (_ & _ & Q & _))]; [reflexivity|]. apply Q. lia. }
    assert (NN : n < vsize d1 /\ lex_cmp e v (coord d1 n) = 0%Z).
    { destruct C as [(-> & L & Q)|(-> & (S1 & Q & _))]; [split; assumption|]. split; [lia|]. rewrite Q. apply lex_refl, E0. }
    split; [intros i Hi; rewrite C' by lia; apply CO, Hi|]. split; [lia|]. split; [|split; [|split]].
    + constructor; [|exact F']. split; [lia|]. rewrite C' by apply NN. apply NN.
    + intros x. rewrite <- P', <- app_assoc. reflexivity.
    + intros k m H. destruct k as [|k].
      * simpl in *. inversion H; subst m. rewrite app_nil_r. destruct C as [(-> & L & _)|(-> & _)]; [left; apply HP, L|right; symmetry; apply nodup_all, HP].
      * cbn [nth_error firstn] in *. specialize (O' k m H). rewrite <- app_assoc in O'. exact O'.
    + intros m Hm. destruct (le_lt_dec (vsize d1) m) as [Hm1|Hm1]; [right; apply W'; lia|].
      rewrite C' by exact Hm1. destruct C as [(-> & _)|(-> & (S1 & Q & _))]; [lia|]. assert (m = vsize d) by lia. subst m. left. symmetry. exact Q.
Qed.

(** * All insertions, separated points *)
Section Separated.
Variables (e : Z) (all : list (list Z)) (dim : nat).
Hypothesis (E0 : (0 < e)%Z) (SEP : separated e all) (DIM : same_dim dim all).

Definition ascending (d : vdict) : Prop := forall l1 a l2 b l3, inorder (root d) = l1 ++ a :: l2 ++ b :: l3 -> (lex_cmp e (coord d a) (coord d b) < 0)%Z.
Definition stored (d : vdict) : Prop := forall n, n < vsize d -> In (coord d n) all.

Lemma lt_trans3 : forall u v w, In u all -> In v all -> In w all ->
  (lex_cmp e u v <= 0 -> lex_cmp e v w <= 0 -> lex_cmp e u w <= 0 /\ (lex_cmp e u v < 0 \/ lex_cmp e v w < 0 -> lex_cmp e u w < 0))%Z.
Proof. intros u v w U V W. apply lex_tri; [exact E0|rewrite !DIM; auto..|eapply sep_tri; eauto]. Qed.

Lemma in_order_lex : forall d v, inv0 d -> ascending d -> stored d -> In v all -> in_order (fun n => lex_cmp e v (coord d n)) (inorder (root d)).
Proof.
  intros d v HI HA HS V l1 a l2 b l3 Q. pose proof (HA _ _ _ _ _ Q) as L.
  assert (A : In (coord d a) all) by (apply HS, inv0_in; [exact HI|]; rewrite Q; apply in_or_app; right; left; reflexivity).
  assert (B : In (coord d b) all).
  { apply HS, inv0_in; [exact HI|]. rewrite Q. apply in_or_app. right. right. apply in_or_app. right. left. reflexivity. }
  pose proof (lt_trans3 v (coord d a) (coord d b) V A B). lia.
Qed.

Lemma insert_sep : forall v d, inv0 d -> ascending d -> stored d -> In v all ->
  exists n d', dict_insert e v d = Some (n, d') /\ inv0 d' /\ ascending d' /\ stored d'.
Proof.
  intros v d HI HA HS V. destruct (insert_any e v d HI) as (n & d' & R & I' & C). exists n, d'. split; [exact R|]. split; [exact I'|].
  destruct C as [(-> & _)|(-> & F)]; [split; assumption|].
  assert (HS' : stored d').
  { destruct F as (S1 & C1 & C2 & _). intros i Hi. destruct (Nat.eq_dec i (vsize d)) as [->|N]; [rewrite C1; exact V|]. rewrite C2 by exact N. apply HS. lia. }
  split; [|exact HS'].
  (* the position of the new node is right *)
  pose proof (in_order_lex d v HI HA HS V) as IO. destruct (find_ok _ 0%Z _ IO) as (NO & RO). unfold node_ok in NO. unfold ref_ok in RO.
  unfold dict_insert in R. destruct (r_node (find (fun n => lex_cmp e v (coord d n)) 0 (root d))) as [z|] eqn:Q.
  { destruct (zid (Some z)) eqn:Z; [|discriminate]. inversion R; subst. destruct F as (S1 & _). lia. }
  destruct (RO (or_intror eq_refl)) as (l1 & l2 & I & P1 & P2 & PO & _). pose proof (NO (or_introl eq_refl)) as NE.
  destruct HI as (HB & HP). destruct (insert_pos_ok (vsize d) _ _ _ _ _ HB I PO) as (t' & R' & B' & O'). rewrite R' in R. cbn [bind] in R. inversion R; subst d'. clear R.
  assert (HI : inv0 d) by (split; assumption).
  assert (G1 : forall x, In x l1 -> (lex_cmp e (coord d x) v < 0)%Z /\ x <> vsize d).
  { intros x Hx. rewrite Forall_forall in P1. specialize (P1 x Hx). unfold eff in P1. rewrite lex_anti by exact E0. destruct (Z.eqb_spec (lex_cmp e v (coord d x)) 0); split; try lia.
    assert (x < vsize d) by (apply inv0_in; [exact HI|]; rewrite I; apply in_or_app; left; exact Hx). lia. }
  assert (G2 : forall x, In x l2 -> (lex_cmp e v (coord d x) < 0)%Z /\ x <> vsize d).
  { intros x Hx. rewrite Forall_forall in P2. specialize (P2 x Hx). unfold eff in P2. destruct (Z.eqb_spec (lex_cmp e v (coord d x)) 0); split; try lia.
    assert (x < vsize d) by (apply inv0_in; [exact HI|]; rewrite I; apply in_or_app; right; exact Hx). lia. }
  intros k1 a k2 b k3 QQ. cbn [root coord] in *. rewrite O' in QQ.
  assert (CASES : (a = vsize d /\ In b l2) \/ (b = vsize d /\ In a l1) \/ (a <> vsize d /\ b <> vsize d /\ exists m1 m2 m3, l1 ++ l2 = m1 ++ a :: m2 ++ b :: m3)).
  { assert (ND : NoDup (l1 ++ vsize d :: l2)).
    { eapply Permutation_NoDup; [|apply (seq_NoDup (S (vsize d)) 0)]. apply Permutation_sym. eapply Permutation_trans; [apply Permutation_sym, Permutation_middle|].
      apply perm_seq_S. rewrite <- I. exact HP. }
    assert (AB : a <> b).
    { intros ->. rewrite QQ in ND. apply NoDup_remove_2 in ND. apply ND. apply in_or_app. right. apply in_or_app. right. left. reflexivity. }
    destruct (Nat.eq_dec a (vsize d)) as [->|NA].
    - left. split; [reflexivity|]. destruct (nodup_split_eq _ _ _ _ _ ND QQ) as (_ & ->). apply in_or_app. right. left. reflexivity.
    - right. destruct (Nat.eq_dec b (vsize d)) as [->|NB].
      + left. split; [reflexivity|]. change (k1 ++ a :: k2 ++ vsize d :: k3) with (k1 ++ (a :: k2) ++ vsize d :: k3) in QQ. rewrite app_assoc in QQ.
        destruct (nodup_split_eq _ _ _ _ _ ND QQ) as (-> & _). apply in_or_app. right. left. reflexivity.
      + right. split; [exact NA|]. split; [exact NB|].
        assert (FI : filter (fun x => negb (x =? vsize d)) (l1 ++ vsize d :: l2) = l1 ++ l2).
        { rewrite filter_app. cbn [filter]. rewrite Nat.eqb_refl. cbn [negb].
          assert (ID : forall l, (forall x, In x l -> x <> vsize d) -> filter (fun x => negb (x =? vsize d)) l = l).
          { intros l H. induction l as [|x l IHl]; [reflexivity|]. simpl. destruct (Nat.eqb_spec x (vsize d)) as [Q1|Q1]; [exfalso; apply (H x (or_introl eq_refl) Q1)|].
            simpl. f_equal. apply IHl. intros y Y. apply H. right. exact Y. }
          rewrite !ID; [reflexivity|intros x Hx; apply G2, Hx|intros x Hx; apply G1, Hx]. }
        rewrite <- FI, QQ. rewrite !filter_app. cbn [filter]. rewrite (proj2 (Nat.eqb_neq _ _) NA). cbn [negb]. rewrite filter_app. cbn [filter].
        rewrite (proj2 (Nat.eqb_neq _ _) NB). cbn [negb]. eauto. }
  destruct CASES as [(-> & B)|[(-> & A)|(NA & NB & m1 & m2 & m3 & M)]].
  - rewrite Nat.eqb_refl. destruct (G2 b B) as (G & N). rewrite (proj2 (Nat.eqb_neq _ _) N). exact G.
  - rewrite Nat.eqb_refl. destruct (G1 a A) as (G & N). rewrite (proj2 (Nat.eqb_neq _ _) N). exact G.
  - rewrite (proj2 (Nat.eqb_neq _ _) NA), (proj2 (Nat.eqb_neq _ _) NB). apply (HA m1 a m2 b m3). rewrite I. exact M.
Qed.

Lemma insert_all_sep : forall vs d, inv0 d -> ascending d -> stored d -> (forall v, In v vs -> In v all) ->
  forall idx d', insert_all e vs d = Some (idx, d') -> inv0 d' /\ ascending d' /\ stored d'.
Proof.
  induction vs as [|v vs IH]; intros d HI HA HS HV idx d' R; [inversion R; subst; auto|]. cbn [insert_all] in R.
  destruct (insert_sep v d HI HA HS (HV v (or_introl eq_refl))) as (n & d1 & R1 & I1 & A1 & S1). rewrite R1 in R. cbn [bind] in R.
  destruct (insert_all e vs d1) as [[l d2]|] eqn:Q; [|discriminate]. cbn [bind] in R. inversion R; subst.
  apply (IH d1 I1 A1 S1 (fun v H => HV v (or_intror H)) l d' Q).
Qed.

Lemma in_two_order : forall (l : list nat) a b, In a l -> In b l -> a <> b ->
  exists l1 l2 l3, l = l1 ++ a :: l2 ++ b :: l3 \/ l = l1 ++ b :: l2 ++ a :: l3.
Proof.
  intros l a b A B N. apply in_split in A. destruct A as (m1 & m2 & ->). apply in_app_or in B. destruct B as [B|[B|B]]; [|contradiction|].
  - apply in_split in B. destruct B as (k1 & k2 & ->). exists k1, k2, m2. right. rewrite <- app_assoc. reflexivity.
  - apply in_split in B. destruct B as (k1 & k2 & ->). exists m1, k1, k2. left. reflexivity.
Qed.
Lemma unique_node : forall d a b, inv0 d -> ascending d -> a < vsize d -> b < vsize d -> lex_cmp e (coord d a) (coord d b) = 0%Z -> a = b.
Proof.
  intros d a b HI HA A B Z. destruct (Nat.eq_dec a b) as [|N]; [assumption|exfalso]. apply inv0_in in A; [|exact HI]. apply inv0_in in B; [|exact HI].
  destruct (in_two_order _ _ _ A B N) as (l1 & l2 & l3 & [Q|Q]); apply HA in Q; [lia|]. rewrite lex_anti in Q by exact E0. lia.
Qed.

Lemma same_number : forall idx d' i j u v a b, insert_all e all empty = Some (idx, d') ->
  Forall2 (fun v n => n < vsize d' /\ lex_cmp e v (coord d' n) = 0%Z) all idx ->
  nth_error all i = Some u -> nth_error all j = Some v -> nth_error idx i = Some a -> nth_error idx j = Some b -> (a = b <-> close e u v).
Proof.
  intros idx d' i j u v a b R F U V A B.
  assert (EM : inv0 empty /\ ascending empty /\ stored empty).
  { split; [split; [exists false, 0; constructor|constructor]|]. split; [intros l1 x l2 y l3 Q; destruct l1; discriminate|intros n Hn; simpl in Hn; lia]. }
  destruct EM as (M1 & M2 & M3). destruct (insert_all_sep all empty M1 M2 M3 (fun v H => H) idx d' R) as (I' & A' & S').
  assert (N2 : forall (A B : Type) (P : A -> B -> Prop) l k, Forall2 P l k -> forall i x y, nth_error l i = Some x -> nth_error k i = Some y -> P x y).
  { intros X Y P l k H. induction H; intros [|i0] x0 y0 X1 Y1; try discriminate; simpl in *; [congruence|eauto]. }
  destruct (N2 _ _ _ _ _ F i u a U A) as (La & Za). destruct (N2 _ _ _ _ _ F j v b V B) as (Lb & Zb).
  apply nth_error_In in U. apply nth_error_In in V. pose proof (S' a La) as Ia. pose proof (S' b Lb) as Ib.
  rewrite <- lex_close by (rewrite !DIM; auto). split.
  - intros <-. rewrite lex_anti in Zb by exact E0. pose proof (lt_trans3 u _ v U Ia V). pose proof (lt_trans3 v _ u V Ia U). rewrite (lex_anti e v u) in * by exact E0.
    rewrite (lex_anti e v (coord d' a)), (lex_anti e (coord d' a) u) in * by exact E0. lia.
  - intros Z. apply (unique_node d'); auto.
    pose proof (lt_trans3 (coord d' a) u v Ia U V). pose proof (lt_trans3 (coord d' a) v (coord d' b) Ia V Ib).
    pose proof (lt_trans3 (coord d' b) v u Ib V U). pose proof (lt_trans3 (coord d' b) u (coord d' a) Ib U Ia).
    rewrite (lex_anti e (coord d' a) u), (lex_anti e (coord d' b) v), (lex_anti e v u), (lex_anti e (coord d' b) (coord d' a)) in * by exact E0. lia.
Qed.
End Separated.
