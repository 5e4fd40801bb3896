(** Proofs about snap rounding: what the result covers *)
From Coq Require Import ZArith NArith List Bool Lia Arith ZifyBool Permutation.
From Verif Require Import Matq_model Matq_spec Reduce_model Reduce_spec Reduce_proofs Sweep_spec Sweep_proofs Sweep_proofs4 Snap_model Snap_spec Snap_proofs.
Import ListNotations.
Local Open Scope Z_scope.
Local Notation edge_of := Sweep_spec.edge_of.

Lemma odd_cons : forall f e l, odd_members f (e :: l) = N.lxor (odd_members f [e]) (odd_members f l).
Proof. intros. apply (odd_app f [e] l). Qed.
Lemma odd_one : forall f a b m, odd_members f [mk_edge a b m] = if f (mk_edge a b m) then m else 0%N.
Proof. intros. unfold odd_members. cbn [filter]. destruct (f _); cbn; [apply N.lxor_0_r|reflexivity]. Qed.
Lemma odd_link : forall f m s, of_place f -> odd_members f [edge_of m s] = if f (edge_of 0 s) then m else 0%N.
Proof. intros f m s H. unfold edge_of. destruct (lex_ltb _ _); rewrite odd_one, (H _ _ m 0%N); reflexivity. Qed.

(** Inserting an edge into the result *)
Lemma insert_odd : forall n f l l', of_place f -> result_insert n l = Some l' -> odd_members f l' = N.lxor (odd_members f l) (odd_members f [n]).
Proof.
  intros n f l l' HF. revert l'. induction l as [|o l IH]; intros l' H; cbn [result_insert] in H.
  - injection H as <-. reflexivity.
  - destruct (same_pt (left o) (left n) && _) eqn:Q.
    + destruct (same_pt (rigt o) (rigt n)) eqn:Q2; [|discriminate]. injection H as <-.
      apply andb_true_iff in Q. destruct Q as [Q _]. apply same_pt_iff in Q. apply same_pt_iff in Q2. destruct o as [ol or om], n as [nl nr nm]. cbn [left rigt member] in *. subst nl nr.
      rewrite odd_cons, (odd_cons _ _ l), !odd_one, (HF ol or (N.lxor om nm) 0%N), (HF ol or om 0%N), (HF ol or nm 0%N). generalize (odd_members f l). intros. destruct (f (mk_edge ol or 0)); xor_solve.
    + destruct (same_pt (rigt o) (rigt n) && _); [discriminate|]. destruct (result_insert n l) as [l2|]; [|discriminate]. injection H as <-.
      rewrite odd_cons, (odd_cons _ _ l), (IH _ eq_refl). apply eq_sym, N.lxor_assoc.
Qed.
Lemma insert_ends : forall n l l', result_insert n l = Some l' -> forall e, In e l' -> (exists o, In o l /\ left e = left o /\ rigt e = rigt o) \/ (left e = left n /\ rigt e = rigt n).
Proof.
  intros n. induction l as [|o l IH]; intros l' H e I; cbn [result_insert] in H.
  - injection H as <-. destruct I as [<- | []]; auto.
  - destruct (same_pt (left o) (left n) && _) eqn:Q.
    + destruct (same_pt (rigt o) (rigt n)) eqn:Q2; [|discriminate]. injection H as <-. destruct I as [<- | I]; left; [exists o|exists e]; cbn; auto.
    + destruct (same_pt (rigt o) (rigt n) && _); [discriminate|]. destruct (result_insert n l) as [l2|]; [|discriminate]. injection H as <-.
      destruct I as [<- | I]; [left; exists o; cbn; auto|]. destruct (IH _ eq_refl e I) as [(o2 & I2 & R) | R]; [left; exists o2; cbn; auto|auto].
Qed.
Lemma apart_ends : forall a b a2 b2, left a = left a2 -> rigt a = rigt a2 -> left b = left b2 -> rigt b = rigt b2 -> apart a b -> apart a2 b2.
Proof. unfold apart. intros a b a2 b2 -> -> -> -> H. exact H. Qed.
Lemma insert_apart : forall n l l', result_insert n l = Some l' -> ForallOrdPairs apart l -> ForallOrdPairs apart l'.
Proof.
  intros n. induction l as [|o l IH]; intros l' H F; pose proof H as H0; cbn [result_insert] in H.
  - injection H as <-. repeat constructor.
  - inversion F as [|? ? F1 F2]; subst. rewrite Forall_forall in F1. destruct (same_pt (left o) (left n) && _) eqn:Q.
    + destruct (same_pt (rigt o) (rigt n)) eqn:Q2; [|discriminate]. injection H as <-. constructor; [|exact F2].
      apply Forall_forall. intros e I. eapply apart_ends; [| | | |apply F1, I]; reflexivity.
    + destruct (same_pt (rigt o) (rigt n) && _) eqn:Q3; [discriminate|]. destruct (result_insert n l) as [l2|] eqn:R; [|discriminate]. injection H as <-.
      constructor; [|apply IH; auto]. apply Forall_forall. intros e I. destruct (insert_ends _ _ _ R e I) as [(o2 & I2 & L & RR) | (L & RR)].
      * eapply apart_ends; [reflexivity|reflexivity| | |apply F1, I2]; auto.
      * unfold apart. rewrite L, RR. apply andb_false_iff in Q. apply andb_false_iff in Q3. split; intros (S1 & S2).
        -- rewrite (proj2 (same_pt_iff _ _) S1) in Q. destruct Q as [Q|Q]; [discriminate|]. rewrite S2 in Q. discriminate.
        -- rewrite (proj2 (same_pt_iff _ _) S1) in Q3. destruct Q3 as [Q3|Q3]; [discriminate|]. rewrite S2 in Q3. discriminate.
Qed.
Definition item_dec : forall a b : (Z * Z) * nat, {a = b} + {a <> b}.
Proof. repeat decide equality. Defined.
(** Both sides are made of the same parts *)
Ltac perm := apply (Permutation_count_occ item_dec); intros ?x; rewrite ?count_occ_app; lia.
Section Snap.
Variable E : nat -> edge.
Lemma new_edge : forall a b tmp r r', bundle_edge_new E a b tmp r = Some r' -> result_insert (edge_of (members E tmp) (a, b)) r = Some r'.
Proof.
  intros a b tmp r r' H. unfold bundle_edge_new in H. unfold edge_of. cbn [fst snd].
  assert (Q : (vec2_cmp a b = 0 -> False) -> lex_ltb a b = negb (0 <? vec2_cmp a b)).
  { unfold vec2_cmp, lex_ltb, cp_cmp. destruct (Z.ltb_spec (fst a) (fst b)), (Z.ltb_spec (fst b) (fst a)), (Z.ltb_spec (snd a) (snd b)), (Z.ltb_spec (snd b) (snd a)), (Z.eqb_spec (fst a) (fst b)); cbn; intros; try reflexivity; lia. }
  destruct (Z.eqb_spec (vec2_cmp a b) 0) as [|N]; [discriminate|]. rewrite (Q N). destruct (0 <? vec2_cmp a b); exact H.
Qed.

(** Routes *)
Lemma links_snoc : forall l b c, links ((l ++ [b]) ++ [c]) = links (l ++ [b]) ++ [(b, c)].
Proof.
  intros l b c. unfold links. induction l as [|a l IH]; [reflexivity|]. destruct l as [|a2 l]; [reflexivity|]. cbn [app tl combine] in *. f_equal. exact IH.
Qed.
Lemma path_last : forall good lt a b l, path good lt a b l -> exists k, l = k ++ [b].
Proof. intros good lt a b l [H|b' c k H L G]; [exists []; reflexivity|exists k; reflexivity]. Qed.
Lemma path_mono : forall (g h : Z * Z -> Prop) lt a b l, (forall p, g p -> h p) -> path g lt a b l -> path h lt a b l.
Proof. intros g h lt a b l GH P. induction P; econstructor; eauto. Qed.

Lemma mem_iff : forall e l, mem e l = true <-> In e l.
Proof. intros e l. unfold mem. rewrite existsb_exists. split; [intros (x & I & Q); apply Nat.eqb_eq in Q; subst; auto|intros I; exists e; split; [auto|apply Nat.eqb_refl]]. Qed.
Definition route_sum (f : edge -> bool) (i : nat) (l : list (Z * Z)) : N := odd_members f (map (edge_of (member (E i))) (links l)).
Lemma routed_sum : forall f ch ids, odd_members f (routed E ch ids) = xor_all (map (fun i => route_sum f i (ch i)) ids).
Proof. intros f ch. unfold routed. induction ids as [|i ids IH]; [reflexivity|]. cbn [flat_map map]. rewrite odd_app, IH. reflexivity. Qed.
Lemma xor_cons : forall a l, xor_all (a :: l) = N.lxor a (xor_all l).
Proof. reflexivity. Qed.
Lemma xor_map2 : forall (g h : nat -> N) l, xor_all (map (fun i => N.lxor (g i) (h i)) l) = N.lxor (xor_all (map g l)) (xor_all (map h l)).
Proof. intros g h. induction l as [|a l IH]; [reflexivity|]. cbn [map]. rewrite !xor_cons, IH. generalize (g a), (h a), (xor_all (map g l)), (xor_all (map h l)). intros. xor_solve. Qed.
Lemma xor_filter : forall (h : nat -> N) (b : nat -> bool) l, xor_all (map (fun i => if b i then h i else 0%N) l) = xor_all (map h (filter b l)).
Proof. intros h b. induction l as [|a l IH]; [reflexivity|]. cbn [map filter]. rewrite xor_cons, IH. destruct (b a); [reflexivity|apply N.lxor_0_l]. Qed.
Lemma members_if : forall (b : bool) l, xor_all (map (fun i => if b then member (E i) else 0%N) l) = if b then members E l else 0%N.
Proof. intros b l. unfold members. fold (xor_all (map (fun i => member (E i)) l)). induction l as [|a l IH]; [destruct b; reflexivity|]. cbn [map]. rewrite !xor_cons, IH. destruct b; [reflexivity|apply N.lxor_0_l]. Qed.
Definition extend (tmp : list nat) (p : Z * Z) (ch : nat -> list (Z * Z)) (i : nat) : list (Z * Z) := if mem i tmp then ch i ++ [p] else ch i.
Lemma extend_sum : forall f ids tmp ch c p, of_place f -> NoDup ids -> NoDup tmp -> (forall i, In i tmp -> In i ids /\ exists k, ch i = k ++ [c]) ->
  odd_members f (routed E (extend tmp p ch) ids) = N.lxor (odd_members f (routed E ch ids)) (odd_members f [edge_of (members E tmp) (c, p)]).
Proof.
  intros f ids tmp ch c p HF NI NT HT. rewrite !routed_sum, odd_link by exact HF.
  transitivity (xor_all (map (fun i => N.lxor (route_sum f i (ch i)) (if mem i tmp then (if f (edge_of 0 (c, p)) then member (E i) else 0%N) else 0%N)) ids)).
  - f_equal. apply map_ext. intros i. unfold extend. destruct (mem i tmp) eqn:M; [|rewrite N.lxor_0_r; reflexivity].
    apply mem_iff in M. destruct (HT i M) as (_ & k & ->). unfold route_sum. rewrite links_snoc, map_app, odd_app. f_equal. apply (odd_link f (member (E i)) (c, p) HF).
  - rewrite xor_map2. f_equal. rewrite xor_filter, <- members_if. apply xor_set; [apply NoDup_filter, NI|exact NT|].
    intros i. rewrite filter_In, mem_iff. split; [tauto|]. intros I. split; [apply HT, I|exact I].
Qed.
Definition update (e : nat) (l : list (Z * Z)) (ch : nat -> list (Z * Z)) (i : nat) : list (Z * Z) := if Nat.eqb i e then l else ch i.
Lemma update_sum : forall f ids e a ch, ch e = [] -> odd_members f (routed E (update e [a] ch) ids) = odd_members f (routed E ch ids).
Proof.
  intros f ids e a ch H. rewrite !routed_sum. f_equal. apply map_ext. intros i. unfold update. destruct (Nat.eqb_spec i e) as [-> | N]; [rewrite H|]; reflexivity.
Qed.

Variables (X : nat -> xing) (S : search) (south : bool) (ids xs : list nat) (r0 : list edge).
Hypothesis Hnd : NoDup ids.
Definition good (o : bool) (i : nat) (p : Z * Z) : Prop := hot E X ids xs p /\ (o = true -> p = left (E i) \/ cmp_tol p (E i) = 0).
Definition at_pt (p : Z * Z) (l : list nat) : list ((Z * Z) * nat) := map (pair p) l.
Definition items (l : list bundle) : list ((Z * Z) * nat) := flat_map (fun b => at_pt (bv b) (be b)) l.
Record inv (av : list (nat * bool)) (T : list ((Z * Z) * nat)) (r : list edge) (o : bool) (ch : nat -> list (Z * Z)) : Prop := mk_inv {
  i_nd : NoDup (map snd T);
  i_in : forall v i, In (v, i) T -> In i ids /\ edge_south (E i) = south /\ ~ In (i, LEFT) av /\ In (i, RIGT) av
    /\ path (good o i) (before south) (left (E i)) v (ch i);
  i_left : forall i, edge_south (E i) = south -> In (i, LEFT) av -> In (i, RIGT) av /\ ch i = [];
  i_mid : forall i, In i ids -> edge_south (E i) = south -> ~ In (i, LEFT) av -> In (i, RIGT) av -> exists v, In (v, i) T;
  i_done : forall i, In i ids -> edge_south (E i) = south -> ~ In (i, RIGT) av -> path (good o i) (before south) (left (E i)) (rigt (E i)) (ch i);
  i_other : forall i, edge_south (E i) <> south -> ch i = [];
  i_ag : NoDup av /\ forall v, In v av -> In (fst v) ids;
  i_sum : forall f, of_place f -> odd_members f r = N.lxor (odd_members f r0) (odd_members f (routed E ch ids));
  i_apart : ForallOrdPairs apart r
}.
Lemma inv_perm : forall av T T' r o ch, Permutation T T' -> inv av T r o ch -> inv av T' r o ch.
Proof.
  intros av T T' r o ch P [H1 H2 H3 H4 H5 H6 H7 H8 H9]. constructor; auto.
  - eapply Permutation_NoDup; [apply Permutation_map, P|exact H1].
  - intros v i I. apply H2. eapply Permutation_in; [apply Permutation_sym, P|exact I].
  - intros i I1 I2 I3 I4. destruct (H4 i I1 I2 I3 I4) as (v & V). exists v. eapply Permutation_in; [exact P|exact V].
Qed.
Lemma inv_ok : forall av T r o o' ch, (o' = true -> o = true) -> inv av T r o ch -> inv av T r o' ch.
Proof.
  intros av T r o o' ch O [H1 H2 H3 H4 H5 H6 H7 H8 H9].
  assert (G : forall i p, good o i p -> good o' i p) by (intros i p (G1 & G2); split; [exact G1|intros G3; apply G2, O, G3]).
  constructor; auto.
  - intros v i I. destruct (H2 v i I) as (A1 & A2 & A3 & A4 & A5). repeat (split; auto). eapply path_mono; [|exact A5]. auto.
  - intros i I1 I2 I3. eapply path_mono; [|apply H5]; auto.
Qed.
Lemma in_at : forall p l v i, In (v, i) (at_pt p l) <-> v = p /\ In i l.
Proof. intros p l v i. unfold at_pt. rewrite in_map_iff. split; [intros (x & Q & I); injection Q as <- <-; auto|intros (-> & I); exists i; auto]. Qed.
Lemma snd_at : forall p l, map snd (at_pt p l) = l.
Proof. intros p l. unfold at_pt. rewrite map_map. apply map_id. Qed.
Lemma at_app : forall p a b, at_pt p (a ++ b) = at_pt p a ++ at_pt p b.
Proof. intros. apply map_app. Qed.
Lemma items_app : forall a b, items (a ++ b) = items a ++ items b.
Proof. intros. unfold items. apply flat_map_app. Qed.
Lemma items_of : forall v l, items (bundle_of v l) = at_pt v l.
Proof. intros v [|a l]; [reflexivity|]. unfold bundle_of, items. cbn [flat_map bv be]. apply app_nil_r. Qed.

Lemma nodup_left : forall (a b : list nat), NoDup (a ++ b) -> NoDup a.
Proof. induction a as [|x a IH]; intros b H; [constructor|]. cbn in H. inversion H; subst. constructor; [intros I; apply H2, in_or_app; auto|eapply IH; eauto]. Qed.
Lemma nodup_disj : forall (a b : list nat) x, NoDup (a ++ b) -> In x a -> ~ In x b.
Proof. induction a as [|y a IH]; intros b x H I1 I2; [destruct I1|]. cbn in H. inversion H; subst. destruct I1 as [-> | I1]; [apply H2, in_or_app; auto|eapply IH; eauto]. Qed.
(** Edges are moved from one pixel to another one *)
Lemma move : forall av c p tmp R r r' o ch, inv av (at_pt c tmp ++ R) r o ch -> hot E X ids xs p -> before south c p ->
  (o = true -> forall i, In i tmp -> cmp_tol p (E i) = 0) -> bundle_edge_new E c p tmp r = Some r' ->
  inv av (at_pt p tmp ++ R) r' o (extend tmp p ch).
Proof.
  intros av c p tmp R r r' o ch [H1 H2 H3 H4 H5 H6 H7 H8 H9] HP HB HO HN. apply new_edge in HN.
  assert (HT : forall i, In i tmp -> In (c, i) (at_pt c tmp ++ R)) by (intros i I; apply in_or_app; left; apply in_at; auto).
  rewrite map_app, snd_at in H1. pose proof (nodup_left _ _ H1) as NT.
  assert (DJ : forall v i, In (v, i) R -> ~ In i tmp).
  { intros v i I1 I2. apply (in_map snd) in I1. cbn in I1. exact (nodup_disj _ _ _ H1 I2 I1). }
  constructor; auto.
  - rewrite map_app, snd_at. exact H1.
  - intros v i I. apply in_app_or in I. destruct I as [I|I].
    + apply in_at in I. destruct I as (-> & I). destruct (H2 c i (HT i I)) as (A1 & A2 & A3 & A4 & A5). repeat (split; auto).
      unfold extend. rewrite (proj2 (mem_iff i tmp) I). econstructor; [exact A5|exact HB|]. split; [exact HP|]. intros OO. right. apply HO; auto.
    + destruct (H2 v i) as (A1 & A2 & A3 & A4 & A5); [apply in_or_app; auto|]. repeat (split; auto).
      unfold extend. destruct (mem i tmp) eqn:M; [apply mem_iff in M; edestruct DJ; eauto|exact A5].
  - intros i I1 I2. destruct (H3 i I1 I2) as (A1 & A2). split; [exact A1|]. unfold extend. destruct (mem i tmp) eqn:M; [|exact A2].
    apply mem_iff in M. destruct (H2 c i (HT i M)) as (_ & _ & A3 & _). tauto.
  - intros i I1 I2 I3 I4. destruct (H4 i I1 I2 I3 I4) as (v & V). apply in_app_or in V. destruct V as [V|V].
    + exists p. apply in_at in V. apply in_or_app. left. apply in_at. tauto.
    + exists v. apply in_or_app. auto.
  - intros i I1 I2 I3. unfold extend. destruct (mem i tmp) eqn:M; [|auto]. apply mem_iff in M. destruct (H2 c i (HT i M)) as (_ & _ & _ & A4 & _). tauto.
  - intros i I. unfold extend. destruct (mem i tmp) eqn:M; [|auto]. apply mem_iff in M. destruct (H2 c i (HT i M)) as (_ & A2 & _). tauto.
  - intros f HF. rewrite (insert_odd _ f _ _ HF HN), (extend_sum f ids tmp ch c p HF Hnd NT).
    + rewrite H8 by exact HF. apply N.lxor_assoc.
    + intros i I. destruct (H2 c i (HT i I)) as (A1 & A2 & A3 & A4 & A5). split; [exact A1|eapply path_last; exact A5].
  - eapply insert_apart; eauto.
Qed.

Lemma items_in : forall l v i, In (v, i) (items l) -> exists b, In b l /\ bv b = v.
Proof. intros l v i I. unfold items in I. apply in_flat_map in I. destruct I as (b & B & I). apply in_at in I. exists b. split; [exact B|symmetry; apply I]. Qed.

Lemma cross_up_inv : forall p av R, hot E X ids xs p -> forall l equ r o ch l' equ' r' o',
  inv av (items l ++ at_pt p equ ++ R) r o ch -> (forall b, In b l -> before south (bv b) p) ->
  cross_up E S p equ r o l = Some (l', equ', r', o') ->
  (exists ch', inv av (items l' ++ at_pt p equ' ++ R) r' o' ch') /\ (forall b, In b l' -> exists a, In a l /\ bv a = bv b) /\ (o' = true -> o = true).
Proof.
  intros p av R HP. induction l as [|c rest IH]; intros equ r o ch l' equ' r' o' I HB H; cbn [cross_up] in H.
  - injection H as <- <- <- <-. split; [eauto|split; [intros b []|auto]].
  - destruct (be c) as [|e0 l0] eqn:BE; [discriminate|]. rewrite <- BE in H. clear e0 l0 BE.
    unfold bundle_split in H. set (k := w_split S p false (be c)) in *. set (tmp := firstn k (be c)) in *. set (up := skipn k (be c)) in *.
    set (o1 := (forallb _ tmp && _) && _) in *.
    assert (Q : be c = tmp ++ up) by (symmetry; apply firstn_skipn). clearbody tmp up.
    assert (OK : o && o1 = true -> o = true) by (intros OO; apply andb_true_iff in OO; tauto).
    assert (ST : forall r2, bundle_edge_new E (bv c) p tmp r = Some r2 -> inv av (items (mk_bundle (bv c) up :: rest) ++ at_pt p (equ ++ tmp) ++ R) r2 (o && o1) (extend tmp p ch)).
    { intros r2 NE. apply inv_ok with (o' := o && o1) in I; [|exact OK].
      apply inv_perm with (T' := at_pt (bv c) tmp ++ at_pt (bv c) up ++ items rest ++ at_pt p equ ++ R) in I.
      2: { unfold items. cbn [flat_map]. rewrite Q, at_app, <- !app_assoc. auto. }
      eapply move in I; [|exact HP|apply HB; left; reflexivity| |exact NE].
      - eapply inv_perm; [|exact I]. unfold items. cbn [flat_map bv be]. rewrite at_app, <- !app_assoc.
        rewrite !app_assoc. perm.
      - intros OO i IT. apply andb_true_iff in OO. destruct OO as [_ OO]. subst o1. rewrite !andb_true_iff, !forallb_forall in OO. destruct OO as [[O1 _] O2].
        specialize (O1 i IT). assert (IB : In i (be c)) by (rewrite Q; apply in_or_app; auto). specialize (O2 i IB). unfold lower in O1, O2. lia. }
    assert (PT : forall l2 b, In b (mk_bundle (bv c) l2 :: rest) -> exists a, In a (c :: rest) /\ bv a = bv b).
    { intros l2 b [<- | B]; [exists c; cbn; auto|exists b; cbn; auto]. }
    clearbody o1. destruct tmp as [|t0 tl0].
    { injection H as <- <- <- <-. cbn [app] in Q. split; [|split]; [|apply PT|exact OK].
      exists ch. apply inv_ok with (o := o); [exact OK|]. revert I. unfold items. cbn [flat_map bv be]. rewrite Q. auto. }
    destruct (bundle_edge_new E (bv c) p (t0 :: tl0) r) as [r2|] eqn:NE; [|discriminate]. specialize (ST r2 eq_refl). destruct up as [|u0 ul0].
    + assert (HB2 : forall b, In b rest -> before south (bv b) p) by (intros b B; apply HB; right; exact B).
      destruct (IH _ _ _ _ _ _ _ _ ST HB2 H) as (K1 & K2 & K3).
      split; [exact K1|]. split; [intros b B; destruct (K2 b B) as (a & A1 & A2); exists a; cbn; auto|intros OO; apply OK, K3, OO].
    + injection H as <- <- <- <-. split; [eauto|]. split; [apply PT|exact OK].
Qed.

Lemma cross_inv : forall p av st r o ch l' equ' r' o', hot E X ids xs p -> inv av (items st) r o ch -> (forall b, In b st -> before south (bv b) p) ->
  cross E S p st r o = Some (l', equ', r', o') ->
  (exists ch', inv av (items l' ++ at_pt p equ') r' o' ch') /\ (forall b, In b l' -> exists a, In a st /\ bv a = bv b) /\ (o' = true -> o = true).
Proof.
  intros p av st r o ch l' equ' r' o' HP I HB H. unfold cross in H.
  assert (Z0 : Some (st, @nil nat, r, o) = Some (l', equ', r', o') ->
    (exists ch', inv av (items l' ++ at_pt p equ') r' o' ch') /\ (forall b, In b l' -> exists a, In a st /\ bv a = bv b) /\ (o' = true -> o = true)).
  { intros Q. injection Q as <- <- <- <-. split; [exists ch; cbn [at_pt map]; rewrite app_nil_r; exact I|]. split; [eauto|auto]. }
  destruct (w_bot S p st) as [k|]; [|apply Z0, H]. destruct (skipn k st) as [|c rest] eqn:SK; [apply Z0, H|]. clear Z0.
  unfold bundle_split in H. set (lo := firstn _ (be c)) in *. set (hi := skipn _ (be c)) in *. set (o1 := forallb _ lo && _) in *.
  assert (Q : be c = lo ++ hi) by (symmetry; apply firstn_skipn).
  assert (QS : st = firstn k st ++ c :: rest) by (rewrite <- SK; symmetry; apply firstn_skipn).
  clearbody lo hi o1. destruct hi as [|h0 hl]; [discriminate|].
  destruct (cross_up E S p [] r (o && o1) (mk_bundle (bv c) (h0 :: hl) :: rest)) as [[[[rest' equ2] r2] o2]|] eqn:CU; [|discriminate]. injection H as <- <- <- <-.
  assert (OK : o && o1 = true -> o = true) by (intros OO; apply andb_true_iff in OO; tauto).
  apply inv_ok with (o' := o && o1) in I; [|exact OK].
  assert (I2 : inv av (items (mk_bundle (bv c) (h0 :: hl) :: rest) ++ at_pt p [] ++ items (firstn k st) ++ at_pt (bv c) lo) r (o && o1) ch).
  { eapply inv_perm; [|exact I]. rewrite QS at 1. rewrite items_app. change (items (c :: rest)) with (at_pt (bv c) (be c) ++ items rest). rewrite Q, at_app.
    change (items (mk_bundle (bv c) (h0 :: hl) :: rest)) with (at_pt (bv c) (h0 :: hl) ++ items rest). change (at_pt p []) with (@nil ((Z * Z) * nat)). cbn [app].
    perm. }
  assert (PB : forall b, In b (mk_bundle (bv c) (h0 :: hl) :: rest) -> exists a, In a st /\ bv a = bv b).
  { intros b [<- | B]; [exists c|exists b]; (split; [rewrite QS; apply in_or_app; right; cbn; auto|reflexivity]). }
  assert (HB2 : forall b, In b (mk_bundle (bv c) (h0 :: hl) :: rest) -> before south (bv b) p).
  { intros b B. destruct (PB b B) as (a & A1 & <-). apply HB, A1. }
  destruct (cross_up_inv p av _ HP _ _ _ _ _ _ _ _ _ I2 HB2 CU) as (K1 & K2 & K3).
  split; [|split].
  - destruct K1 as (ch' & K1). exists ch'. eapply inv_perm; [|exact K1]. rewrite !items_app, items_of.
    perm.
  - intros b B. apply in_app_or in B. destruct B as [B|B]; [exists b; split; [rewrite QS; apply in_or_app; auto|reflexivity]|].
    apply in_app_or in B. destruct B as [B|B].
    + destruct lo; [destruct B|]. destruct B as [<- | []]. exists c. split; [rewrite QS; apply in_or_app; right; cbn; auto|reflexivity].
    + destruct (K2 b B) as (a & A1 & <-). apply PB, A1.
  - auto.
Qed.
End Snap.
