(** Proofs about the first phase of the sweep: adding edges and polygons *)
From Coq Require Import ZArith NArith List Bool Lia Arith ZifyBool.
From Verif Require Import Matq_spec Reduce_model Reduce_spec Sweep_model Sweep_spec Sweep_proofs Sweep_proofs2 Sweep_proofs3.
Import ListNotations.
Open Scope Z_scope.

(** No event has been processed yet *)
Definition fresh_line (d : sdata) : Prop := forall i, on_line d i = false.

(** Segments of length zero are not added *)
Definition sum_of (f : edge -> bool) (m : N) (s : vec2 * vec2) : N := term f (if vec2_eq (fst s) (snd s) then None else Some (Sweep_spec.edge_of m s)).

Lemma add_edge_ok : forall d a b m, coherent None d -> vec_int a -> vec_int b ->
  exists d', add_edge a b m d = Some d' /\ coherent None d' /\ (forall i, on_line d' i = on_line d i)
  /\ (forall f, tot f (edges d') (count d') = N.lxor (tot f (edges d) (count d)) (sum_of f m (a, b))).
Proof.
  intros d a b m HC Ia Ib. destruct (new_none None d HC) as (N1 & N2 & N3 & N4).
  assert (AD : forall l r, lex_lt l r -> vec_int l -> vec_int r ->
    exists d', (edge_new l r m ;; check_op (fun d0 => negb (agenda_is_member (count d) LEFT d0)) ;; check_op (fun d0 => negb (agenda_is_member (count d) RIGT d0)) ;;
      agenda_insert (count d) LEFT ;; agenda_insert (count d) RIGT) d = Some d' /\ coherent None d' /\ (forall i, on_line d' i = on_line d i)
      /\ (forall f, tot f (edges d') (count d') = N.lxor (tot f (edges d) (count d)) (term f (Some (mk_edge l r m))))).
  { intros l r L I1 I2. pose proof (lex_cmp_true _ _ L) as V. go d. eexists. split; [reflexivity|]. split; [|split].
    - intros i. cbn [count edges agenda on_line]. destruct (Nat.eq_dec i (count d)) as [->|NQ]; lk.
      + unfold edge_state, int_edge, LEFT, RIGT. cbn [count edges agenda on_line left rigt]. lk. rewrite N4. intuition lia.
      + pose proof (HC i) as H. cbv beta iota in H. unfold edge_state, LEFT, RIGT in *. revert H. destruct (edges d i); cbn [count edges agenda on_line]; lk; intros H; [intuition lia|exact H].
    - reflexivity.
    - intros f. cbn [count edges]. rewrite tot_new. reflexivity. }
  unfold add_edge, sum_of, Sweep_spec.edge_of. cbn [fst snd].
  destruct (lex3 a b) as [L|[L|L]].
  - assert (Q1 : (vec2_cmp a b =? 0) = false) by (apply vec2_cmp_lt in L; lia).
    assert (Q2 : (0 <? vec2_cmp a b) = false) by (apply vec2_cmp_lt in L; lia).
    assert (Q3 : lex_ltb a b = true) by (apply ltb_iff; exact L).
    assert (Q4 : vec2_eq a b = false) by (destruct (vec2_eq a b) eqn:Q; [apply vec2_eq_iff in Q; subst; exfalso; apply (lt_irr b L)|reflexivity]).
    rewrite Q1, Q2, Q3, Q4. apply AD; auto.
  - subst b. rewrite (proj2 (Z.eqb_eq _ _)) by (apply vec2_cmp_eq; reflexivity).
    rewrite (proj2 (vec2_eq_iff a a) eq_refl). exists d. split; [reflexivity|]. split; [exact HC|]. split; [auto|]. intros f. simpl. rewrite N.lxor_0_r. reflexivity.
  - assert (Q1 : (vec2_cmp a b =? 0) = false).
    { destruct (Z.eqb_spec (vec2_cmp a b) 0) as [Q|Q]; [|reflexivity]. apply vec2_cmp_eq in Q. subst. exfalso. apply (lt_irr b L). }
    assert (Q2 : (0 <? vec2_cmp a b) = true).
    { destruct (Z.ltb_spec 0 (vec2_cmp a b)) as [Q|Q]; [reflexivity|]. assert (Q' : vec2_cmp a b < 0) by lia. apply vec2_cmp_lt in Q'. exfalso. apply (lt_irr a). eapply lt_tr; eauto. }
    assert (Q3 : lex_ltb a b = false).
    { destruct (lex_ltb a b) eqn:Q; [|reflexivity]. apply ltb_iff in Q. exfalso. apply (lt_irr a). eapply lt_tr; eauto. }
    assert (Q4 : vec2_eq a b = false) by (destruct (vec2_eq a b) eqn:Q; [apply vec2_eq_iff in Q; subst; exfalso; apply (lt_irr b L)|reflexivity]).
    rewrite Q1, Q2, Q3, Q4. apply AD; auto.
Qed.

Lemma add_edges_ok : forall l d m, coherent None d -> (forall s, In s l -> vec_int (fst s) /\ vec_int (snd s)) ->
  exists d', add_edges l m d = Some d' /\ coherent None d' /\ (forall i, on_line d' i = on_line d i)
  /\ (forall f, tot f (edges d') (count d') = N.lxor (tot f (edges d) (count d)) (xor_all (map (sum_of f m) l))).
Proof.
  induction l as [|[a b] l IH]; intros d m HC HI.
  - exists d. split; [reflexivity|]. split; [exact HC|]. split; [auto|]. intros f. simpl. rewrite N.lxor_0_r. reflexivity.
  - destruct (HI (a, b) (or_introl eq_refl)) as (I1 & I2). cbn [fst snd] in *.
    destruct (add_edge_ok d a b m HC I1 I2) as (d1 & R1 & K1 & K2 & K3).
    destruct (IH d1 m K1 (fun s S => HI s (or_intror S))) as (d2 & R2 & J1 & J2 & J3).
    exists d2. split; [simpl; unfold seq_op; rewrite R1; exact R2|]. split; [exact J1|]. split; [intros i; rewrite J2; apply K2|].
    intros f. rewrite J3, K3. simpl. apply N.lxor_assoc.
Qed.

Lemma path_edges_eq : forall l first, path_edges first l = combine l (tl l ++ [first]).
Proof.
  induction l as [|a l IH]; intros first; [reflexivity|]. destruct l as [|b l]; [reflexivity|].
  change (path_edges first (a :: b :: l)) with ((a, b) :: path_edges first (b :: l)). rewrite IH. reflexivity.
Qed.
Lemma add_path_edges : forall l m, add_path l m = add_edges (next_pairs l) m.
Proof. intros l m. unfold add_path, next_pairs. destruct l as [|a l]; [reflexivity|]. rewrite path_edges_eq. reflexivity. Qed.
Lemma add_edges_app : forall a b m d, add_edges (a ++ b) m d = (add_edges a m ;; add_edges b m) d.
Proof.
  induction a as [|[x y] a IH]; intros b m d; [reflexivity|]. simpl. unfold seq_op. destruct (add_edge x y m d); [|reflexivity]. rewrite IH. reflexivity.
Qed.
Lemma add_poly_edges : forall l m d, add_poly l m d = add_edges (flat_map next_pairs l) m d.
Proof.
  induction l as [|p l IH]; intros m d; [reflexivity|]. cbn [add_poly flat_map]. rewrite add_edges_app, add_path_edges. unfold seq_op.
  destruct (add_edges (next_pairs p) m d); [apply IH|reflexivity].
Qed.

(** Segments of length zero do not cover anything *)
Lemma sum_of_zero : forall f m, (forall a, f (mk_edge a a m) = false) -> forall s, sum_of f m s = term f (Some (Sweep_spec.edge_of m s)).
Proof.
  intros f m H [a b]. unfold sum_of, Sweep_spec.edge_of. cbn [fst snd]. destruct (vec2_eq a b) eqn:Q; [|reflexivity].
  apply vec2_eq_iff in Q. subst b. unfold term. destruct (lex_ltb a a); rewrite H; reflexivity.
Qed.
Lemma odd_members_terms : forall f l, odd_members f l = xor_all (map (fun e => term f (Some e)) l).
Proof.
  intros f l. unfold odd_members. induction l as [|e l IH]; [reflexivity|]. simpl. destruct (f e); simpl; rewrite IH; reflexivity.
Qed.
Lemma half_zero : forall p m a, on_half p (mk_edge a a m) = false.
Proof. intros p m a. unfold on_half. cbn [left rigt]. rewrite ltb_leb. destruct (lex_leb (scale (pd p) a) (pt p)); rewrite ?andb_false_r; reflexivity. Qed.
Lemma beneath_zero : forall p m a, beneath p (mk_edge a a m) = false.
Proof. intros p m a. unfold beneath. cbn [left rigt]. destruct (Z.leb_spec (pd p * fst a) (px p)), (Z.ltb_spec (px p) (pd p * fst a)); try lia; reflexivity. Qed.
Lemma ends_zero : forall x m a, ends_at x (mk_edge a a m) = false.
Proof. intros x m a. unfold ends_at. cbn [left rigt]. apply xorb_nilpotent. Qed.

Lemma next_pairs_in : forall l s, In s (next_pairs l) -> In (fst s) l /\ In (snd s) l.
Proof.
  intros l [a b] H. unfold next_pairs in H. destruct l as [|x l]; [destruct H|].
  pose proof (in_combine_l _ _ _ _ H) as L. pose proof (in_combine_r _ _ _ _ H) as R. cbn [fst snd]. split; [exact L|].
  apply in_app_or in R. destruct R as [R|[R|[]]]; [right; exact R|left; exact R].
Qed.

Lemma add_poly_ok : forall l d m, coherent None d -> (forall p v, In p l -> In v p -> vec_int v) ->
  exists d', add_poly l m d = Some d' /\ coherent None d' /\ (forall i, on_line d' i = on_line d i)
  /\ same_cover (edge_list d') (edge_list d ++ poly_edges m l).
Proof.
  intros l d m HC HI. rewrite add_poly_edges.
  destruct (add_edges_ok (flat_map next_pairs l) d m HC) as (d' & R & K1 & K2 & K3).
  - intros s S. apply in_flat_map in S. destruct S as (p & P & S). apply next_pairs_in in S. destruct S as (S1 & S2). split; eapply HI; eauto.
  - exists d'. split; [exact R|]. split; [exact K1|]. split; [exact K2|].
    assert (G : forall f, (forall a, f (mk_edge a a m) = false) -> odd_members f (edge_list d') = odd_members f (edge_list d ++ poly_edges m l)).
    { intros f Z. rewrite odd_tot, K3. unfold odd_members at 1. rewrite filter_app, map_app, xor_app. f_equal; [symmetry; apply odd_tot|].
      change (xor_all (map member (filter f (poly_edges m l)))) with (odd_members f (poly_edges m l)). rewrite odd_members_terms. unfold poly_edges.
      rewrite map_map. f_equal. apply map_ext. intros s. apply sum_of_zero, Z. }
    split; [|split]; intros; apply G; intros; [apply half_zero|apply beneath_zero|apply ends_zero].
Qed.

(** Each polygon is closed *)
Lemma ends_edge_of : forall x m s, term (ends_at x) (Some (Sweep_spec.edge_of m s)) = N.lxor (if same x (fst s) then m else 0%N) (if same x (snd s) then m else 0%N).
Proof.
  intros x m [a b]. unfold Sweep_spec.edge_of, term, ends_at. cbn [fst snd].
  destruct (lex_ltb a b); cbn [left rigt member]; destruct (same x a), (same x b); cbn [xorb]; rewrite ?N.lxor_nilpotent, ?N.lxor_0_r, ?N.lxor_0_l; reflexivity.
Qed.
Lemma pairs_sum : forall (h : vec2 -> N) l k, length l = length k ->
  xor_all (map (fun s => N.lxor (h (fst s)) (h (snd s))) (combine l k)) = N.lxor (xor_all (map h l)) (xor_all (map h k)).
Proof.
  intros h. induction l as [|a l IH]; intros k L; destruct k as [|b k]; try discriminate; [reflexivity|]. simpl. rewrite IH by (simpl in L; lia).
  generalize (h a), (h b), (xor_all (map h l)), (xor_all (map h k)). intros. xor_solve.
Qed.
Lemma path_closed : forall x m l, odd_members (ends_at x) (map (Sweep_spec.edge_of m) (next_pairs l)) = 0%N.
Proof.
  intros x m l. rewrite odd_members_terms, map_map.
  rewrite (map_ext _ (fun s => N.lxor ((fun v => if same x v then m else 0%N) (fst s)) ((fun v => if same x v then m else 0%N) (snd s)))) by (intros; apply ends_edge_of).
  unfold next_pairs. destruct l as [|a l]; [reflexivity|]. rewrite (pairs_sum (fun v => if same x v then m else 0%N)) by (rewrite app_length; simpl; lia).
  rewrite map_app, xor_app. simpl. generalize (if same x a then m else 0%N). intros. xor_solve.
Qed.
Lemma poly_closed : forall x m l, odd_members (ends_at x) (poly_edges m l) = 0%N.
Proof.
  intros x m l. unfold poly_edges. induction l as [|p l IH]; [reflexivity|]. cbn [flat_map]. rewrite map_app. unfold odd_members in *.
  rewrite filter_app, map_app, xor_app, IH, N.lxor_0_r. apply path_closed.
Qed.

(** Several polygons, and the whole first phase *)
Lemma cover_refl : forall a, same_cover a a. Proof. intros a. split; [|split]; reflexivity. Qed.
Lemma cover_trans : forall a b c, same_cover a b -> same_cover b c -> same_cover a c.
Proof. intros a b c (A1 & A2 & A3) (B1 & B2 & B3). split; [|split]; intros; [rewrite A1|rewrite A2|rewrite A3]; auto. Qed.
Lemma odd_app : forall f a b, odd_members f (a ++ b) = N.lxor (odd_members f a) (odd_members f b).
Proof. intros f a b. unfold odd_members. rewrite filter_app, map_app, xor_app. reflexivity. Qed.
Lemma cover_app : forall a b c, same_cover a b -> same_cover (a ++ c) (b ++ c).
Proof. intros a b c (A1 & A2 & A3). split; [|split]; intros; rewrite !odd_app; f_equal; auto. Qed.
Lemma coherent_new : coherent None sweep_new.
Proof. intros i. simpl. auto. Qed.

Lemma add_polys_ok : forall l d, coherent None d -> (forall m ps p v, In (m, ps) l -> In p ps -> In v p -> vec_int v) ->
  exists d', add_polys l d = Some d' /\ coherent None d' /\ same_cover (edge_list d') (edge_list d ++ polys_edges l).
Proof.
  induction l as [|[m ps] l IH]; intros d HC HI.
  - exists d. split; [reflexivity|]. split; [exact HC|]. unfold polys_edges. simpl. rewrite app_nil_r. apply cover_refl.
  - destruct (add_poly_ok ps d m HC (fun p v => HI m ps p v (or_introl eq_refl))) as (d1 & R1 & K1 & _ & K3).
    destruct (IH d1 K1 (fun m ps p v H => HI m ps p v (or_intror H))) as (d2 & R2 & J1 & J2).
    exists d2. split; [simpl; unfold seq_op; rewrite R1; exact R2|]. split; [exact J1|].
    eapply cover_trans; [exact J2|]. unfold polys_edges. cbn [flat_map fst snd]. rewrite app_assoc. apply cover_app, K3.
Qed.
Lemma polys_closed : forall x l, odd_members (ends_at x) (polys_edges l) = 0%N.
Proof.
  intros x l. unfold polys_edges. induction l as [|[m ps] l IH]; [reflexivity|]. cbn [flat_map fst snd]. rewrite odd_app, poly_closed, IH. reflexivity.
Qed.

(** The edges as a numbered set *)
Lemma live_edges : forall d, map (edge_at d) (live d) = edge_list d.
Proof.
  intros d. unfold live, edge_list. induction (seq 0 (count d)) as [|i l IH]; [reflexivity|]. simpl. unfold edge_at at 1.
  destruct (edges d i) eqn:E; simpl; [rewrite E; f_equal|]; exact IH.
Qed.
Lemma inside_odd : forall E ids p, inside E ids p = odd_members (beneath p) (map E ids).
Proof.
  intros E ids p. unfold inside, odd_members. f_equal. induction ids as [|i ids IH]; [reflexivity|]. simpl. destruct (beneath p (E i)); simpl; rewrite IH; reflexivity.
Qed.
Lemma ends_odd : forall (E : nat -> edge) ids x, odd_members (ends_at x) (map E ids)
  = N.lxor (xor_all (map (fun e => member (E e)) (filter (fun e => same x (left (E e))) ids)))
           (xor_all (map (fun e => member (E e)) (filter (fun e => same x (rigt (E e))) ids))).
Proof.
  intros E ids x. induction ids as [|i ids IH]; [reflexivity|]. unfold odd_members, ends_at in *. simpl.
  destruct (same x (left (E i))), (same x (rigt (E i))); cbn [xorb map fold_right filter]; simpl; rewrite ?IH;
  generalize (xor_all (map (fun e => member (E e)) (filter (fun e => same x (left (E e))) ids))), (xor_all (map (fun e => member (E e)) (filter (fun e => same x (rigt (E e))) ids))), (member (E i)); intros; xor_solve.
Qed.
Lemma closed_odd : forall (E : nat -> edge) ids, (forall x, odd_members (ends_at x) (map E ids) = 0%N) -> closed E ids.
Proof. intros E ids H x. specialize (H x). rewrite ends_odd in H. apply N.lxor_eq in H. exact H. Qed.

Lemma phase1_ok : forall l d d', add_polys l sweep_new = Some d -> (forall m ps p v, In (m, ps) l -> In p ps -> In v p -> vec_int v) ->
  ssteps d d' -> coherent None d' /\ same_cover (edge_list d') (polys_edges l).
Proof.
  intros l d d' A HI S. destruct (add_polys_ok l sweep_new coherent_new HI) as (d1 & R & K1 & K2). rewrite A in R. inversion R; subst d1.
  destruct (steps_ok d d' S K1) as (J1 & J2). split; [exact J1|]. eapply cover_trans; [apply same_tot_cover, J2|exact K2].
Qed.

Lemma add_edge_cover : forall d a b m, coherent None d -> vec_int a -> vec_int b ->
  exists d', add_edge a b m d = Some d' /\ coherent None d'
  /\ (forall f, a <> b -> odd_members f (edge_list d') = N.lxor (odd_members f (edge_list d)) (odd_members f [Sweep_spec.edge_of m (a, b)]))
  /\ (a = b -> d' = d) /\ same_cover (edge_list d') (edge_list d ++ [Sweep_spec.edge_of m (a, b)]).
Proof.
  intros d a b m HC Ia Ib. destruct (add_edge_ok d a b m HC Ia Ib) as (d' & R & K1 & _ & K3). exists d'. split; [exact R|]. split; [exact K1|].
  assert (ONE : forall f e, odd_members f [e] = term f (Some e)) by (intros f e; unfold odd_members, term; simpl; destruct (f e); simpl; rewrite ?N.lxor_0_r; reflexivity).
  split; [|split].
  - intros f NQ. rewrite !odd_tot, K3, ONE. f_equal. unfold sum_of. cbn [fst snd]. destruct (vec2_eq a b) eqn:Q; [apply vec2_eq_iff in Q; contradiction|reflexivity].
  - intros ->. unfold add_edge in R. rewrite (proj2 (Z.eqb_eq _ _)) in R by (apply vec2_cmp_eq; reflexivity). congruence.
  - assert (G : forall f, (forall a, f (mk_edge a a m) = false) -> odd_members f (edge_list d') = odd_members f (edge_list d ++ [Sweep_spec.edge_of m (a, b)])).
    { intros f Z. rewrite odd_app, ONE, !odd_tot, K3. f_equal. apply sum_of_zero, Z. }
    split; [|split]; intros; apply G; intros; [apply half_zero|apply beneath_zero|apply ends_zero].
Qed.
Lemma split_cover : forall d o oo v, coherent None d -> edges d o = Some oo -> on_line d o = true -> splits v oo -> vec_int v ->
  exists d', ev_split v o d = Some d' /\ coherent None d' /\ same_cover (edge_list d') (edge_list d)
  /\ edges d' o = Some (mk_edge (left oo) v (member oo)) /\ edges d' (count d) = Some (mk_edge v (rigt oo) (member oo)).
Proof.
  intros d o oo v HC Ho Hl HS IV. destruct (split_ok d o oo v HC Ho Hl HS IV) as (d' & R & K1 & K2 & _). exists d'. split; [exact R|]. split; [exact K1|].
  split; [apply same_tot_cover, K2|]. destruct HS as (SC & S1 & S2). destruct (active_facts d o oo HC Ho Hl) as (Oe & Lo & Io & B1 & B2).
  destruct (new_none None d HC) as (N1 & N2 & N3 & N4). assert (NO : o <> count d) by lia.
  pose proof (lex_cmp_true _ _ S1) as V1. pose proof (lex_cmp_true _ _ S2) as V2.
  revert R. go d. intros R. inversion R; subst d'. cbn [edges]. lk. auto.
Qed.
