(** Proofs about the construction of paths: the loop *)
From Coq Require Import ZArith List Bool Lia Arith Permutation ZifyBool.
From Verif Require Import List_model List_spec List_proofs Reduce_model Reduce_spec Poly_model Poly_spec Poly_proofs Poly_proofs2 Poly_proofs3.
Import ListNotations.
Open Scope Z_scope.

Lemma check_true : forall A b (x : outcome A) y, check b x = Done y -> b = true /\ x = Done y.
Proof. intros A [|] x y H; [auto|discriminate]. Qed.
Lemma bind_done : forall A B (x : outcome A) (f : A -> outcome B) y, bind x f = Done y -> exists a, x = Done a /\ f a = Done y.
Proof. intros A B [a| |] f y H; [eauto|discriminate|discriminate]. Qed.
Lemma succ_in : forall e l f, succ_of e l = Some f -> In e l /\ In f l.
Proof.
  intros e. induction l as [|x l IH]; intros f H; [discriminate|]. destruct l as [|y l]; [discriminate|].
  change (succ_of e (x :: y :: l)) with (if (x =? e)%nat then Some y else succ_of e (y :: l)) in H. destruct (Nat.eqb_spec x e) as [->|N].
  - injection H as <-. split; [left; reflexivity|right; left; reflexivity].
  - apply IH in H. destruct H. split; right; assumption.
Qed.
Lemma insert_parts : forall cmp l lo hi, insert_by cmp l = Some (lo, hi) -> l = lo ++ hi.
Proof.
  intros cmp. induction l as [|x l IH]; intros lo hi H; cbn [insert_by] in H; [injection H as <- <-; reflexivity|].
  destruct (cmp x =? 0); [discriminate|]. destruct (cmp x <? 0); [injection H as <- <-; reflexivity|].
  destruct (insert_by cmp l) as [[a b]|]; [|discriminate]. injection H as <- <-. cbn [app]. f_equal. apply IH. reflexivity.
Qed.
Lemma remove_in : forall e l x, In x (state_edge_remove e l) <-> In x l /\ x <> e.
Proof.
  intros e l x. unfold state_edge_remove. rewrite filter_In. destruct (Nat.eqb_spec x e) as [->|N]; cbn [negb]; split; intros (A & B); split; auto; congruence.
Qed.

Section Loop.
Variable E : nat -> edge.
Notation coord := (coord E).
Notation inv := (inv E).

Definition bottom_back (d : pdata) (ln : list nat) (e : nat) : bool := match pred_of e ln with None => true | Some er => negb (back d er) end.

(** What a pair of ends needs *)
Definition ext (s t : nat * bool) (d : pdata) : Prop :=
  coord s = coord t /\ fst s <> fst t /\
  match snd s, snd t with
  | true, false => In (fst s) (line d) /\ ~ In (fst t) (line d)
  | false, false => exists lo hi lo2 hi2, ~ In (fst s) (line d) /\ insert_by (tree_vertex_edge_cmp E (fst s)) (line d) = Some (lo, hi)
      /\ ~ In (fst t) (line d) /\ insert_by (tree_vertex_edge_cmp E (fst t)) (lo ++ fst s :: hi) = Some (lo2, hi2)
      /\ succ_of (fst s) (lo2 ++ fst t :: hi2) = Some (fst t)
  | true, true => xorb (back d (fst s)) (back d (fst t)) = true /\ succ_of (fst t) (line d) = Some (fst s)
  | false, true => False
  end.
Lemma ext_of : forall fuel s t d d', pair_event E fuel s t d = Done d' -> ext s t d.
Proof.
  intros fuel [es a] [et b] d d' H. unfold pair_event in H. cbn [fst snd] in *. unfold ext. cbn [fst snd].
  destruct (vec2_eq (coord (es, a)) (coord (et, b))) eqn:V; cbn [negb] in H; [|discriminate]. apply vec2_eq_iff in V. split; [exact V|].
  apply check_true in H. destruct H as (N & H). split; [lia|]. destruct a, b; cbn [xorb negb] in H.
  - apply check_true in H. destruct H as (X & H). apply andb_prop in X. destruct X as (X1 & X2). split; [exact X1|]. unfold opt_is in X2. destruct (succ_of et (line d)) as [z|]; [|discriminate].
    f_equal. lia.
  - apply check_true in H. destruct H as (_ & H). apply bind_done in H. destruct H as (d1 & H1 & H). unfold state_edge_replace in H1. apply check_true in H1. destruct H1 as (X & H1).
    apply andb_prop in X. destruct X as (X & X3). apply andb_prop in X. destruct X as (X1 & X2). apply member_In in X2. split; [exact X2|]. intros J. apply member_In in J. rewrite J in X3. discriminate.
  - apply check_true in H. destruct H as (X & _). discriminate.
  - apply bind_done in H. destruct H as (d1 & H1 & H). unfold state_edge_insert in H1. apply check_true in H1. destruct H1 as (X1 & H1).
    destruct (insert_by (tree_vertex_edge_cmp E es) (line d)) as [[lo hi]|] eqn:I1; [|discriminate]. injection H1 as <-.
    apply bind_done in H. destruct H as (d2 & H2 & H). unfold state_edge_insert in H2. apply check_true in H2. destruct H2 as (X2 & H2). cbn [line set_line] in *.
    destruct (insert_by (tree_vertex_edge_cmp E et) (lo ++ es :: hi)) as [[lo2 hi2]|] eqn:I2; [|discriminate]. injection H2 as <-.
    apply check_true in H. destruct H as (X & H). cbn [line set_line] in X. exists lo, hi, lo2, hi2.
    split; [intros J; apply member_In in J; rewrite J in X1; discriminate|]. split; [reflexivity|].
    split; [intros J; rewrite (insert_parts _ _ _ _ I1) in J; assert (J2 : In et (lo ++ es :: hi)) by (apply in_mid; auto); apply member_In in J2; rewrite J2 in X2; discriminate|]. split; [exact I2|].
    unfold opt_is in X. destruct (succ_of es (lo2 ++ et :: hi2)) as [z|]; [|discriminate]. f_equal. lia.
Qed.

(** The new sweep line and directions *)
Definition post (s t : nat * bool) (d d' : pdata) : Prop :=
  pidx d' = pidx d /\ points (out d') = points (out d) /\ pts d' = pts d /\
  match snd s, snd t with
  | true, false => line d' = map (fun x => if (x =? fst s)%nat then fst t else x) (line d) /\ (forall e, back d' e = if (e =? fst t)%nat then back d (fst s) else back d e)
  | false, false => exists lo hi lo2 hi2, insert_by (tree_vertex_edge_cmp E (fst s)) (line d) = Some (lo, hi)
      /\ insert_by (tree_vertex_edge_cmp E (fst t)) (lo ++ fst s :: hi) = Some (lo2, hi2) /\ line d' = lo2 ++ fst t :: hi2
      /\ (forall e, back d' e = if (e =? fst t)%nat then negb (bottom_back d (line d') (fst s)) else if (e =? fst s)%nat then bottom_back d (line d') (fst s) else back d e)
  | _, _ => line d' = state_edge_remove (fst t) (state_edge_remove (fst s) (line d)) /\ back d' = back d
  end.

Definition paired (P : list (nat * bool)) : Prop := forall e, In (e, RIGT) P -> In (e, LEFT) P.

Lemma size_bound : forall P seen R dn d ids, inv P seen R dn d -> (forall e, In (e, LEFT) P -> In e ids) -> (length (concat R ++ dn) <= length ids)%nat.
Proof.
  intros P seen R dn d ids I H. apply NoDup_incl_length; [apply (i_nodup _ _ _ _ _ _ I)|]. intros e Ie. apply H, (i_started _ _ _ _ _ _ I), Ie.
Qed.

Lemma pair_step : forall ids fuel P seen R dn d s t, inv P seen R dn d -> paired P -> (forall e, In (e, LEFT) P -> In e ids) ->
  (length ids <= fuel)%nat -> 2 * Z.of_nat (length ids) + 3 < 2 ^ 32 ->
  In s seen -> In t seen -> ~ In s P -> ~ In t P -> ext s t d ->
  exists R' dn' d', pair_event E fuel s t d = Done d' /\ inv (P ++ [s; t]) seen R' dn' d' /\ paired (P ++ [s; t]) /\ post s t d d'.
Proof.
  intros ids fuel P seen R dn d [es a] [et b] I PA HI FU SZ Ss St Ns Nt (V & NE & X). cbn [fst snd] in *.
  pose proof (size_bound _ _ _ _ _ ids I HI) as SB.
  assert (V' : vec2_eq (coord (es, a)) (coord (et, b)) = true) by (apply vec2_eq_iff; exact V).
  unfold pair_event, post. cbn [fst snd]. rewrite V'. cbn [negb]. assert (NE' : negb (es =? et)%nat = true) by lia. rewrite NE'. cbn [check]. clear V' NE'.
  destruct a, b; cbn [xorb negb].
  - (* END *)
    destruct X as (XB & SU). rewrite XB, SU. unfold opt_is. rewrite Nat.eqb_refl. cbn [andb check].
    destruct (succ_in _ _ _ SU) as (It & Is). pose proof (i_line _ _ _ _ _ _ I et It) as Pt. pose proof (i_line _ _ _ _ _ _ I es Is) as Ps.
    assert (M1 : member_of es (line d) = true) by (apply member_In; exact Is).
    assert (M2 : member_of et (state_edge_remove es (line d)) = true) by (apply member_In, remove_in; split; [exact It|congruence]).
    assert (LN : forall e, In e (state_edge_remove et (state_edge_remove es (line d))) -> In e (line d)).
    { intros e J. apply remove_in in J. destruct J as (J & _). apply remove_in in J. apply J. }
    assert (PA' : paired (P ++ [(es, true); (et, true)])).
    { intros e J. rewrite inP in *. destruct J as [J|[J|J]]; [left; apply PA, J|left; injection J as ->; exact Ps|left; injection J as ->; exact Pt]. }
    unfold Reduce_model.coord in V. cbn [fst snd] in V.
    set (ln := state_edge_remove et (state_edge_remove es (line d))) in *.
    assert (RM : bind (state_remove es d) (fun d => state_remove et d) = Done (set_line ln d)).
    { unfold state_remove. rewrite M1. cbn [check bind line set_line]. rewrite M2. reflexivity. }
    assert (RM1 : state_remove es d = Done (set_line (state_edge_remove es (line d)) d)) by (unfold state_remove; rewrite M1; reflexivity).
    assert (RM2 : state_remove et (set_line (state_edge_remove es (line d)) d) = Done (set_line ln d)) by (unfold state_remove; cbn [line set_line]; rewrite M2; reflexivity).
    rewrite !RM1. cbn [bind]. rewrite !RM2. cbn [bind]. change (rings (set_line ln d)) with (rings d). change (back (set_line ln d)) with (back d).
    assert (SZ2 : 2 * Z.of_nat (length (concat R ++ dn)) + 3 < 2 ^ 32) by lia.
    assert (FU2 : (length (concat R) <= fuel)%nat) by (rewrite app_length in SB; lia).
    destruct (back d et) eqn:Bt; destruct (back d es) eqn:Bs; try discriminate XB; unfold link.
    + (* et goes back *)
      destruct (Nat.eqb_spec (prev (rings d) et) es) as [Q|Q].
      * destruct (output_ok E P seen R dn d es et ln fuel (es, true) (et, true) es et I Ss St Ps Pt Ns Nt V Bs Bt (or_intror Q) LN) as (R' & dn' & d' & O & I' & N1 & N2 & L1 & L2 & L3 & L4 & L5 & _);
          [left; auto|exact FU2|exact SZ2|].
        exists R', dn', d'. rewrite N1, Nat.eqb_refl. cbn [check]. split; [exact O|]. split; [exact I'|]. split; [exact PA'|]. auto 8.
      * destruct (join_ok E P seen R dn d es et ln (es, true) (et, true) I Ss St Ps Pt Ns Nt V Bs Bt (or_intror Q) LN) as (R' & I' & N1 & N2 & N3 & N4); [left; auto|].
        exists R', dn, (set_rings (chain (rings d) es et) (set_line ln d)). split; [|split; [exact I'|split; [exact PA'|auto 8]]].
        unfold list_edge_merge. change (rings (set_line ln d)) with (rings d). change (back (set_line ln d)) with (back d). rewrite N1, N2, Bt, Bs, N4, Nat.eqb_refl.
        assert (VV : vec2_eq (rigt (E et)) (rigt (E es)) = true) by (apply vec2_eq_iff; auto). rewrite VV. reflexivity.
    + destruct (Nat.eqb_spec (next (rings d) et) es) as [Q|Q].
      * destruct (output_ok E P seen R dn d et es ln fuel (es, true) (et, true) es et I St Ss Pt Ps Nt Ns (eq_sym V) Bt Bs (or_introl Q) LN) as (R' & dn' & d' & O & I' & N1 & N2 & L1 & L2 & L3 & L4 & L5 & _);
          [right; auto|exact FU2|exact SZ2|].
        exists R', dn', d'. rewrite N2, Nat.eqb_refl. cbn [check]. split; [exact O|]. split; [exact I'|]. split; [exact PA'|]. auto 8.
      * destruct (join_ok E P seen R dn d et es ln (es, true) (et, true) I St Ss Pt Ps Nt Ns (eq_sym V) Bt Bs (or_introl Q) LN) as (R' & I' & N1 & N2 & N3 & N4); [right; auto|].
        exists R', dn, (set_rings (chain (rings d) et es) (set_line ln d)). split; [|split; [exact I'|split; [exact PA'|auto 8]]].
        unfold list_edge_merge. change (rings (set_line ln d)) with (rings d). change (back (set_line ln d)) with (back d). rewrite N1, N2, Bt, Bs, N3, Nat.eqb_refl.
        assert (VV : vec2_eq (rigt (E et)) (rigt (E es)) = true) by (apply vec2_eq_iff; auto). rewrite VV. reflexivity.
  - (* BEND *)
    destruct X as (Is & Nl). pose proof (i_line _ _ _ _ _ _ I es Is) as Ps.
    assert (Nrt : ~ In (et, RIGT) P) by (intros J; apply Nt, PA, J).
    unfold Reduce_model.coord in V. cbn [fst snd] in V.
    set (ln := map (fun x => if (x =? es)%nat then et else x) (line d)).
    destruct (bend_ok E P seen R dn d es et ln I Ss St NE Ps Nt Ns Nrt V) as (d' & R' & B & I' & L1 & L2 & L3 & L4 & L5).
    { intros e J. unfold ln in J. apply in_map_iff in J. destruct J as (x & Q & Ix). destruct (x =? es)%nat; subst; auto. }
    exists R', dn, d'. split.
    + cbn [andb check]. unfold state_edge_replace. assert (M1 : member_of es (line d) = true) by (apply member_In; exact Is).
      assert (M2 : member_of et (line d) = false) by (destruct (member_of et (line d)) eqn:M; [apply member_In in M; contradiction|reflexivity]).
      rewrite M1, M2. assert (NE' : negb (es =? et)%nat = true) by lia. rewrite NE'. cbn [andb negb check bind]. exact B.
    + split; [exact I'|]. split; [|rewrite L4; auto 8]. intros e J. rewrite inP in *. destruct J as [J|[J|J]]; [left; apply PA, J|injection J as ->; left; exact Ps|discriminate].
  - contradiction.
  - (* START *)
    destruct X as (lo & hi & lo2 & hi2 & N1 & I1 & N2 & I2 & SU).
    assert (Nrs : ~ In (es, RIGT) P) by (intros J; apply Ns, PA, J). assert (Nrt : ~ In (et, RIGT) P) by (intros J; apply Nt, PA, J).
    unfold Reduce_model.coord in V. cbn [fst snd] in V.
    set (ln := lo2 ++ et :: hi2) in *.
    destruct (start_ok E P seen R dn d es et (bottom_back d ln es) ln I Ss St NE Ns Nt Nrs Nrt V) as (d' & R' & B & I' & L1 & L2 & L3 & L4 & L5).
    { intros e J. unfold ln in J. apply in_mid in J. destruct J as [->|J]; [auto|]. rewrite <- (insert_parts _ _ _ _ I2) in J. apply in_mid in J. rewrite (insert_parts _ _ _ _ I1). tauto. }
    exists R', dn, d'. split.
    + unfold state_edge_insert. assert (M1 : member_of es (line d) = false) by (destruct (member_of es (line d)) eqn:M; [apply member_In in M; contradiction|reflexivity]).
      rewrite M1, I1. cbn [negb check bind line set_line].
      assert (M2 : member_of et (lo ++ es :: hi) = false).
      { destruct (member_of et (lo ++ es :: hi)) eqn:M; [|reflexivity]. apply member_In, in_mid in M. destruct M as [M|M]; [congruence|]. rewrite <- (insert_parts _ _ _ _ I1) in M. contradiction. }
      rewrite M2, I2. cbn [negb check bind line set_line]. fold ln. rewrite SU. unfold opt_is. rewrite Nat.eqb_refl. cbn [check].
      exact B.
    + split; [exact I'|]. split; [intros e J; rewrite inP in *; destruct J as [J|[J|J]]; [left; apply PA, J|discriminate|discriminate]|].
      rewrite L4. split; [exact L3|]. split; [reflexivity|]. split; [exact L5|]. exists lo, hi, lo2, hi2. rewrite L1. auto.
Qed.

(** ** Numbers of points *)
Definition pinv (seen : list (nat * bool)) (ps : list vec2) (st : pstate) : Prop :=
  match rev seen with
  | [] => ps = [] /\ st = point_idx_init
  | v :: _ => exists q, st = (coord v, None) /\ ps = q ++ [coord v] /\ forall x, In x q -> lex_lt x (coord v)
  end.
Lemma lex_lt_irrefl : forall a, ~ lex_lt a a.
Proof. intros a. unfold lex_lt. lia. Qed.
Lemma lex_trans : forall a b c, lex_lt a b -> lex_lt b c -> lex_lt a c.
Proof. intros a b c. unfold lex_lt. lia. Qed.

Lemma get_ok : forall P seen R dn d t, inv P seen R dn d -> pinv seen (points (out d)) (pts d) -> ~ In t seen ->
  (forall v, In v seen -> lex_le (coord v) (coord t)) -> Z.of_nat (length seen) + 1 < 2 ^ 32 - 1 -> (length (points (out d)) <= length seen)%nat ->
  exists r st i, point_idx_get (out d) (coord t) (pts d) = Done (r, st, i)
  /\ inv P (seen ++ [t]) R dn (mk_pdata (line d) (back d) (rings d) (vupd (pidx d) t i) r (offs d) st)
  /\ pinv (seen ++ [t]) (points r) st /\ (length (points r) <= length (seen ++ [t]))%nat.
Proof.
  intros P seen R dn d t I PV NI LE SZ LP.
  assert (G : exists r st i, point_idx_get (out d) (coord t) (pts d) = Done (r, st, i) /\ pinv (seen ++ [t]) (points r) st
    /\ nth_error (points r) i = Some (coord t) /\ NoDup (points r) /\ paths r = paths (out d) /\ (exists z, points r = points (out d) ++ z)
    /\ (forall p, ((p < length (points (out d)))%nat /\ aux r p = aux (out d) p) \/ (aux r p = 0 \/ (length (points r) <= p)%nat)) /\ (length (points r) <= length (seen ++ [t]))%nat).
  { unfold point_idx_get, pinv in *. rewrite rev_app_distr. cbn [rev app]. pose proof (i_pnodup _ _ _ _ _ _ I) as ND.
    destruct (rev seen) as [|v w] eqn:RS.
    - destruct PV as (P0 & ->). unfold point_idx_init. rewrite P0. cbn [length pt_search snd nth_error fst]. cbn [Nat.eqb orb]. cbn [points app length].
      cbn [Nat.ltb check]. exists (mk_gon [coord t] (Reduce_model.upd (aux (out d)) 0 0) (paths (out d))), (coord t, None), 0%nat.
      split; [reflexivity|]. cbn [points aux paths]. split; [exists []; split; [reflexivity|]; split; [reflexivity|]; intros x []|]. split; [reflexivity|]. split; [constructor; [intros []|constructor]|].
      split; [reflexivity|]. split; [exists [coord t]; reflexivity|]. split; [|rewrite app_length; cbn; lia].
      intros p. unfold Reduce_model.upd. cbn [length]. destruct (Nat.eqb_spec p 0); [auto|]. right. right. lia.
    - destruct PV as (q & Hst & Q & LQ). rewrite Hst.
      assert (SE : forall fuel, pt_search fuel (points (out d)) (coord t) (coord v, None) = ((coord v, None), None)) by (intros [|fuel]; reflexivity). rewrite SE.
      assert (IV : In v seen) by (apply in_rev; rewrite RS; left; reflexivity).
      assert (L0 : (length (points (out d)) =? 0)%nat = false) by (rewrite Q, app_length; cbn [length]; lia). rewrite L0. cbn [orb].
      destruct (vec2_eq (coord v) (coord t)) eqn:VE; cbn [negb].
      + apply vec2_eq_iff in VE. assert (C1 : (0 <? length (points (out d)))%nat = true) by lia. assert (C2 : (Z.of_nat (length (points (out d))) <? 2 ^ 32 - 1) = true) by lia.
        rewrite C1, C2. cbn [check]. exists (out d), (coord v, None), (length (points (out d)) - 1)%nat. split; [reflexivity|].
        split; [exists q; rewrite <- VE; auto|]. split; [rewrite Q, app_length; cbn [length]; rewrite nth_error_app2 by lia; replace (length q + 1 - 1 - length q)%nat with 0%nat by lia; rewrite <- VE; reflexivity|].
        split; [exact ND|]. split; [reflexivity|]. split; [exists []; rewrite app_nil_r; reflexivity|]. split; [|rewrite app_length; cbn; lia].
        intros p. destruct (Nat.ltb_spec p (length (points (out d)))); auto.
      + assert (NV : coord v <> coord t) by (intros J; apply vec2_eq_iff in J; congruence).
        assert (LT : lex_lt (coord v) (coord t)).
        { specialize (LE v IV). unfold lex_le, lex_lt in *. destruct (coord v) as [a b], (coord t) as [a' b']. cbn [fst snd] in *. assert (a < a' \/ a = a' /\ b < b' \/ (a = a' /\ b = b')) by lia. destruct H as [H|[H|H]]; [lia|lia|]. exfalso. apply NV. f_equal; lia. }
        cbn [points]. assert (LL : (length (points (out d) ++ [coord t]) = length (points (out d)) + 1)%nat) by (rewrite app_length; reflexivity).
        assert (C1 : (0 <? length (points (out d) ++ [coord t]))%nat = true) by lia. assert (C2 : (Z.of_nat (length (points (out d) ++ [coord t])) <? 2 ^ 32 - 1) = true) by lia.
        rewrite C1, C2. cbn [check]. eexists _, _, _. split; [reflexivity|]. cbn [points aux paths].
        split; [exists (points (out d)); split; [reflexivity|]; split; [reflexivity|]|].
        { intros x Ix. rewrite Q in Ix. apply in_app_or in Ix. destruct Ix as [Ix|[<-|[]]]; [eapply lex_trans; [apply LQ, Ix|exact LT]|exact LT]. }
        split; [rewrite nth_error_app2 by lia; replace (length (points (out d) ++ [coord t]) - 1 - length (points (out d)))%nat with 0%nat by lia; reflexivity|].
        split.
        { apply (Permutation_NoDup (Permutation_cons_append _ _)). constructor; [|exact ND]. rewrite Q. intros J. apply in_app_or in J. destruct J as [J|[J|[]]].
          - apply (lex_lt_irrefl (coord t)). eapply lex_trans; [apply LQ, J|exact LT].
          - contradiction. }
        split; [reflexivity|]. split; [exists [coord t]; reflexivity|]. split; [|rewrite LL, app_length; cbn; lia].
        intros p. unfold Reduce_model.upd. rewrite LL. destruct (Nat.eqb_spec p (length (points (out d)))); [auto|]. destruct (Nat.ltb_spec p (length (points (out d)))); [auto|]. right. right. lia. }
  destruct G as (r & st & i & G & PV' & NT & ND & PP & (z & PZ) & AX & LL). exists r, st, i. split; [exact G|]. split; [|auto].
  destruct I as [I1 I2 I3 I4 I5 I6 I7 I8 I9 I10 I11 I12].
  set (d' := mk_pdata _ _ _ _ _ _ _).
  assert (PX : forall v, In v seen -> pidx d' v = pidx d v) by (intros v Iv; unfold d'; cbn [pidx]; apply vupd_other; intros ->; contradiction).
  assert (DE : forall e, In e dn -> forall s, In (e, s) P).
  { intros e Ie [|]; [apply I3, Ie|]. apply I2, in_or_app. auto. }
  constructor; cbn [line out offs]; auto.
  - intros v Iv. apply in_or_app. left. apply I6, Iv.
  - intros v Iv. apply in_app_or in Iv. destruct Iv as [Iv|[<-|[]]].
    + rewrite PX by exact Iv. change (out d') with r. rewrite PZ. apply nth_app_some, I7, Iv.
    + unfold d'. cbn [pidx out]. rewrite vupd_same. exact NT.
  - unfold d'. cbn [out]. rewrite PP. exact I9.
  - unfold d' at 1. cbn [out]. rewrite PP, I10. rewrite (dirp_keep d d' dn); [apply Permutation_refl|reflexivity|]. intros e Ie s. apply PX, I6, DE, Ie.
  - unfold d'. cbn [out offs]. intros p Lp. destruct (AX p) as [(A1 & A)|[A|A]]; [rewrite A; apply I11, A1|rewrite A; lia|lia].
Qed.

Definition opt_list {A} (o : option A) : list A := match o with Some x => [x] | None => [] end.
Definition weakly (res : list (nat * bool)) : Prop := forall a b c v w, res = a ++ v :: b ++ w :: c -> lex_le (coord v) (coord w).

Lemma weakly_seen : forall res seen t l, weakly res -> res = seen ++ t :: l -> forall v, In v seen -> lex_le (coord v) (coord t).
Proof.
  intros res seen t l W Q v Iv. apply in_split in Iv. destruct Iv as (a & b & ->). apply (W a b l). rewrite Q, <- app_assoc. reflexivity.
Qed.

Lemma loop_partial : forall ids fuel res, NoDup res -> (forall e s, In (e, s) res -> In e ids) -> weakly res ->
  (length ids <= fuel)%nat -> 2 * Z.of_nat (length ids) + 3 < 2 ^ 32 -> Z.of_nat (length res) < 2 ^ 32 - 1 ->
  forall l s P seen R dn d d', res = seen ++ l -> seen = P ++ opt_list s -> inv P seen R dn d -> paired P -> pinv seen (points (out d)) (pts d) ->
  (length (points (out d)) <= length seen)%nat -> Nat.Even (length P) ->
  poly_loop E fuel l s d = Done d' ->
  exists P' R' dn', inv P' res R' dn' d' /\ Nat.Even (length P') /\ (P' = res \/ exists v, res = P' ++ [v]).
Proof.
  intros ids fuel res ND HI W FU SZ SR. induction l as [|t l IH]; intros s P seen R dn d d' HR HS I PA PV LP EV H.
  - cbn [poly_loop] in H. injection H as <-. exists P, R, dn. rewrite app_nil_r in HR. rewrite HR. split; [exact I|]. split; [exact EV|].
    destruct s as [v|]; cbn [opt_list] in *; [right; eauto|left; rewrite app_nil_r in HS; auto].
  - assert (NT : ~ In t seen /\ ~ In t l).
    { rewrite HR in ND. apply nodup_app in ND. destruct ND as (_ & N2 & N3). split; [intros J; exact (N3 t J (or_introl eq_refl))|inversion N2; assumption]. }
    assert (LS : (length seen + S (length l) = length res)%nat) by (rewrite HR, app_length; reflexivity).
    destruct (get_ok P seen R dn d t I PV (proj1 NT)) as (r & st & i & G & I' & PV' & LP').
    { eapply weakly_seen; eauto. }
    { lia. }
    { exact LP. }
    cbn [poly_loop] in H. rewrite G in H. cbn [bind] in H.
    set (d1 := mk_pdata (line d) (back d) (rings d) (vupd (pidx d) t i) r (offs d) st) in *.
    destruct s as [s|]; cbn [opt_list] in *.
    + apply bind_done in H. destruct H as (d2 & H2 & H).
      pose proof (ext_of _ _ _ _ _ H2) as X.
      assert (NS : ~ In s P /\ In s seen).
      { rewrite HS. split; [|apply in_or_app; right; left; reflexivity]. rewrite HR, HS, <- !app_assoc in ND. intros J. apply nodup_app in ND. destruct ND as (_ & _ & N3). apply (N3 s J). left. reflexivity. }
      destruct (pair_step ids fuel P (seen ++ [t]) R dn d1 s t I' PA) as (R2 & dn2 & d2' & A & I2 & PA2 & PO); auto.
      { intros e J. apply (HI e LEFT). rewrite HR, HS. apply in_or_app. left. apply in_or_app. left. exact J. }
      { apply in_or_app. left. apply NS. }
      { apply in_or_app. right. left. reflexivity. }
      { apply NS. }
      { intros J. apply (proj1 NT). rewrite HS. apply in_or_app. auto. }
      assert (d2' = d2) by congruence. subst d2'. destruct PO as (PO1 & PO2 & PO3 & _).
      apply (IH None (P ++ [s; t]) (seen ++ [t]) R2 dn2 d2 d'); auto.
      * rewrite HR, <- app_assoc. reflexivity.
      * rewrite HS, app_nil_r, <- app_assoc. reflexivity.
      * rewrite PO2, PO3. exact PV'.
      * rewrite PO2. exact LP'.
      * rewrite app_length. cbn [length]. destruct EV as (k & EV). exists (S k). lia.
    + rewrite app_nil_r in HS. subst P.
      apply (IH (Some t) seen (seen ++ [t]) R dn d1 d'); auto.
      rewrite HR, <- app_assoc. reflexivity.
Qed.
End Loop.

(** ** All of it *)
Lemma all_ends : forall ids (res : list (nat * bool)), NoDup ids -> NoDup res -> (forall e s, In (e, s) res <-> In e ids) ->
  Permutation res (flat_map (fun e => [(e, LEFT); (e, RIGT)]) ids).
Proof.
  intros ids res N1 N2 H. apply NoDup_Permutation; [exact N2| |].
  - clear - N1. induction ids as [|e ids IH]; [constructor|]. inversion N1; subst. cbn [flat_map app].
    assert (X : forall s, ~ In (e, s) (flat_map (fun e => [(e, LEFT); (e, RIGT)]) ids)).
    { intros s J. apply in_flat_map in J. destruct J as (x & Ix & [J|[J|[]]]); injection J as -> _; contradiction. }
    constructor; [|constructor; [apply X|apply IH; assumption]]. intros [J|J]; [discriminate|exact (X _ J)].
  - intros [e s]. rewrite H, in_flat_map. split; [intros J; exists e; split; [exact J|]; destruct s; cbn [In]; auto|].
    intros (x & Ix & [J|[J|[]]]); injection J as -> _; exact Ix.
Qed.
Lemma ends_length : forall ids (res : list (nat * bool)), NoDup ids -> NoDup res -> (forall e s, In (e, s) res <-> In e ids) -> length res = (2 * length ids)%nat.
Proof.
  intros ids res N1 N2 H. rewrite (Permutation_length (all_ends ids res N1 N2 H)). clear. induction ids; [reflexivity|]. cbn [flat_map app length]. lia.
Qed.

(** What has been reached at the end *)
Lemma inv_final : forall E ids res R dn d, NoDup ids -> (forall e s, In (e, s) res <-> In e ids) -> inv E res res R dn d ->
  R = [] /\ Permutation dn ids.
Proof.
  intros E ids res R dn d N H I.
  assert (R0 : R = []).
  { destruct R as [|r R]; [reflexivity|]. exfalso. destruct (i_rings _ _ _ _ _ _ I r (or_introl eq_refl)) as (_ & f & m & l & -> & _ & _ & Nf & _).
    apply Nf, H. apply (H f LEFT). apply (i_started _ _ _ _ _ _ I). left. reflexivity. }
  split; [exact R0|]. subst R. apply NoDup_Permutation; [apply (i_nodup _ _ _ _ _ _ I)|exact N|]. intros e. rewrite <- (H e LEFT). apply (i_started _ _ _ _ _ _ I).
Qed.

Lemma in_opn_fst : forall A (l : list A) a x, In x (a :: l) -> In x (map fst (cyc_pairs (a :: l))).
Proof.
  intros A l a x I. rewrite cyc_opn, map_app. cbn [map fst]. revert a I. induction l as [|b l IH]; intros a I.
  - destruct I as [<-|[]]. left. reflexivity.
  - destruct I as [<-|I]; [left; reflexivity|]. specialize (IH b I). cbn [opn map app]. right. cbn [fst]. apply in_app_or in IH. apply in_or_app. destruct IH as [IH|IH]; [left; exact IH|right].
    destruct l as [|c l]; [exact IH|]. change (last (b :: c :: l) a) with (last (c :: l) a). destruct IH as [<-|[]]. left. clear. revert c. induction l as [|d l IH]; intros c; [reflexivity|apply (IH d)].
Qed.

Lemma poly_edges_of : forall E ids res dn d, inv E res res [] dn d -> NoDup ids -> (forall e s, In (e, s) res <-> In e ids) ->
  NoDup (points (out d)) /\ Forall (fun w => NoDup w /\ w <> [] /\ forall i, In i w -> (i < length (points (out d)))%nat) (paths (out d))
  /\ Permutation (flat_map (fun w => cyc_pairs (coords (points (out d)) w)) (paths (out d))) (map (fun e => directed (E e) (back d e)) ids).
Proof.
  intros E ids res dn d I N H. destruct (inv_final E ids res [] dn d N H I) as (_ & PD).
  destruct I as [I1 I2 I3 I4 I5 I6 I7 I8 I9 I10 I11 I12].
  assert (DN : forall e s, In e dn -> nth_error (points (out d)) (pidx d (e, s)) = Some (coord E (e, s))).
  { intros e s Ie. apply I7, H. apply (Permutation_in _ PD), Ie. }
  split; [exact I8|]. split.
  - rewrite Forall_forall in *. intros w Iw. destruct (I9 w Iw) as (A & B). split; [exact A|]. split; [exact B|]. intros i Ii.
    assert (J : exists j, In (i, j) (map (dirp d) dn)).
    { assert (X : In i (map fst (cyc_pairs w))) by (destruct w as [|a w]; [destruct Ii|]; apply in_opn_fst, Ii). apply in_map_iff in X. destruct X as ([i' j] & Q & X). cbn [fst] in Q. subst i'.
      exists j. apply (Permutation_in _ I10), in_flat_map. eauto. }
    destruct J as (j & J). apply in_map_iff in J. destruct J as (e & Q & Ie). unfold dirp in Q. injection Q as Q _. rewrite <- Q. apply nth_error_Some. unfold source. rewrite DN by exact Ie. discriminate.
  - set (f := fun ij : nat * nat => (at_points (points (out d)) (fst ij), at_points (points (out d)) (snd ij))).
    assert (CM : forall l, map f (flat_map cyc_pairs l) = flat_map (fun w => cyc_pairs (coords (points (out d)) w)) l).
    { intros l. rewrite flat_map_concat_map, concat_map, map_map, <- flat_map_concat_map. apply flat_map_ext. intros w. unfold coords. destruct w as [|a w]; [reflexivity|].
      change (map (at_points (points (out d))) (a :: w)) with (at_points (points (out d)) a :: map (at_points (points (out d))) w). rewrite !cyc_opn, map_app.
      cbn [map f fst snd]. unfold f at 2. cbn [fst snd]. f_equal.
      - revert a. induction w as [|b w IH]; intros a; [reflexivity|]. cbn [opn map]. f_equal. apply IH.
      - f_equal. f_equal. revert a. induction w as [|b w IH]; intros a; [reflexivity|]. cbn [map]. destruct w as [|c w]; [reflexivity|]. apply (IH a). }
    rewrite <- CM. rewrite (Permutation_map f I10). rewrite map_map. rewrite <- (Permutation_map (fun e => directed (E e) (back d e)) PD).
    erewrite map_ext_in; [apply Permutation_refl|]. intros e Ie. unfold f, dirp, source, target, directed. cbn [fst snd]. unfold at_points.
    rewrite !(nth_error_nth _ _ _ (DN e _ Ie)). unfold coord. cbn [fst snd]. destruct (back d e); reflexivity.
Qed.

Lemma inv_init : forall E b0 h0 p0, inv E [] [] [] [] (mk_pdata [] b0 h0 p0 (mk_gon [] (fun _ => 0) []) 0 point_idx_init).
Proof.
  intros. constructor; cbn [concat app line out points paths aux offs flat_map map length]; try (intros; contradiction); try constructor; try (intros; lia); try (cbn; tauto).
  intros p Lp. cbn in Lp. lia.
Qed.

Theorem poly_partial : forall E ids res fuel b0 h0 p0 r, NoDup ids -> ends_of E ids res ->
  (length ids <= fuel)%nat -> 2 * Z.of_nat (length ids) + 3 < 2 ^ 32 ->
  poly E fuel b0 h0 p0 res = Done r ->
  exists b, NoDup (points r) /\ Forall (fun w => NoDup w /\ w <> [] /\ forall i, In i w -> (i < length (points r))%nat) (paths r)
  /\ Permutation (flat_map (fun w => cyc_pairs (coords (points r) w)) (paths r)) (map (fun e => directed (E e) (b e)) ids).
Proof.
  intros E ids res fuel b0 h0 p0 r N (N2 & HI & HO) FU SZ H. unfold poly in H. apply bind_done in H. destruct H as (d & H & Q). injection Q as <-.
  assert (LE : length res = (2 * length ids)%nat) by (apply ends_length; auto).
  assert (W : weakly E res).
  { intros a b c v w Q. destruct (HO a b c v w Q) as [L|(L & _)].
    - unfold lex_lt, lex_le, end_of, coord in *. destruct (snd v), (snd w); lia.
    - unfold end_of, lex_le, coord in *. destruct (snd v), (snd w); rewrite L; lia. }
  destruct (loop_partial E ids fuel res N2 (fun e s => proj1 (HI e s)) W FU SZ) with (l := res) (s := @None (nat * bool)) (P := @nil (nat * bool)) (seen := @nil (nat * bool)) (R := @nil (list nat)) (dn := @nil nat)
    (d := mk_pdata [] b0 h0 p0 (mk_gon [] (fun _ => 0) []) 0 point_idx_init) (d' := d) as (P' & R' & dn' & I & EV & PR); auto.
  - lia.
  - apply inv_init.
  - intros e [].
  - split; reflexivity.
  - exists 0%nat. reflexivity.
  - assert (P' = res).
    { destruct PR as [PR|(v & PR)]; [exact PR|]. exfalso. rewrite PR, app_length in LE. cbn [length] in LE. destruct EV as (k & EV). lia. }
    subst P'. destruct (inv_final E ids res R' dn' d N HI I) as (-> & _). exists (back d). eapply poly_edges_of; eauto.
Qed.
