(** C35: the simulation, for the parser *)
From Coq Require Import ZArith Bool List Lia Arith ZifyBool.
From Verif Require Import Syn_model Syn_spec Syn_proofs.
Import ListNotations.
Local Open Scope Z_scope.

Section Sim2.
Variable F : Type.
Variable strtod : list Z -> F.
Variable file : list Z.
Notation e := (length file).
Notation prel := (prel file). Notation from := (from file).
Notation P1 := (Z * mem)%type. Notation P2 := (Z * copy)%type.
Definition rr {A B} (view : list Z -> A -> B) (s : mem) (x : A * P1) (y : B * P2) : Prop :=
  from s (snd x) (snd y) /\ forall sf, ext (snd (snd x)) sf -> view (m_mem sf) (fst x) = fst y.
Lemma from_trans s p q p2 q2 : from s p q -> from (snd p) p2 q2 -> from s p2 q2.
Proof. intros (A & _) (B & C). split; [eauto using ext_trans|auto]. Qed.
Lemma from_prel s p q : from s p q -> prel p q. Proof. intros (_ & H). exact H. Qed.
Lemma prel_fst p q : prel p q -> fst p = fst q. Proof. intros (H & _). exact H. Qed.
Lemma word_view p q sf s : prel p q -> worded (fst p) = true -> ext (snd p) s -> ext s sf -> cstr (m_mem sf) (word (machine e) (snd p)) = word copying (snd q).
Proof. intros (E & H & W) T X Y. cbn. apply wrel_cstr. eapply wrel_ext; [apply W, T|eauto using ext_trans]. Qed.

Notation next1 := (next mem nat (machine e)). Notation next2 := (next copy (list Z) copying).
Lemma next_from fuel p q s : from s p q -> orel (from s) (next1 fuel p) (next2 fuel q).
Proof. intros H. eapply orel_imp; [apply next_sim, (from_prel _ _ _ H)|]. intros. eapply from_trans; eauto. Qed.
Lemma expect_sim fuel t p q s : from s p q -> orel (fun x y => fst x = fst y /\ from s (snd x) (snd y)) (expect mem nat (machine e) fuel t p) (expect copy (list Z) copying fuel t q).
Proof.
  intros H. unfold expect. rewrite (prel_fst _ _ (from_prel _ _ _ H)). destruct (fst q =? t); [|cbn; auto]. eapply orel_bind; [apply (next_from fuel _ _ _ H)|]. intros p1 q1 H1. cbn. auto.
Qed.
Lemma expect_err_sim fuel t p q s : from s p q -> orel (from s) (expect_err mem nat (machine e) fuel t p) (expect_err copy (list Z) copying fuel t q).
Proof.
  intros H. unfold expect_err. eapply orel_bind; [apply (expect_sim fuel t _ _ _ H)|]. intros (o, p1) (o', q1) (E & H1). cbn [fst snd] in *. subst o'. destruct o; cbn; auto.
Qed.
Lemma from_ext s p q : from s p q -> ext s (snd p). Proof. intros (H & _). exact H. Qed.
Lemma from_refl p q : prel p q -> from (snd p) p q. Proof. intros H. split; [apply ext_refl|auto]. Qed.
Lemma looking_sim s p q : from s p q -> looking_at_value mem p = looking_at_value copy q.
Proof. intros H. unfold looking_at_value. now rewrite (prel_fst _ _ (from_prel _ _ _ H)). Qed.

Lemma value_sim fuel : (forall p q s, from s p q -> orel (rr view_value s) (parse_value mem nat F (machine e) strtod fuel p) (parse_value copy (list Z) F copying strtod fuel q)) /\
  (forall p q s, from s p q -> orel (rr (fun m => map (view_value m)) s) (parse_elems mem nat F (machine e) strtod fuel p) (parse_elems copy (list Z) F copying strtod fuel q)).
Proof.
  induction fuel as [|fuel (IHv & IHe)]; [split; intros; exact I|]. split; intros p q s H; cbn [parse_value parse_elems].
  - pose proof (text_sim file _ _ (from_prel _ _ _ H)) as TX. pose proof (word_view p q) as WV.
    destruct p as (t, s0), q as (t', c0). assert (t = t') by apply (prel_fst _ _ (from_prel _ _ _ H)). subst t'. cbn [fst snd] in TX, WV.
    destruct (t =? T_INT) eqn:C1. { rewrite TX by (unfold worded, T_INT in *; lia). pose proof (next_from fuel _ _ _ (from_refl _ _ (from_prel _ _ _ H))) as N. eapply orel_bind; [exact N|]. intros p1 q1 H1. cbn. split; [cbn [snd]; eauto using from_trans|]. cbn. auto. }
    destruct (t =? T_FLOAT) eqn:C2. { rewrite TX by (unfold worded, T_FLOAT in *; lia). pose proof (next_from fuel _ _ _ (from_refl _ _ (from_prel _ _ _ H))) as N. eapply orel_bind; [exact N|]. intros p1 q1 H1. cbn. split; [cbn [snd]; eauto using from_trans|]. cbn. auto. }
    destruct (t =? T_STRING) eqn:C3. { pose proof (next_from fuel _ _ _ (from_refl _ _ (from_prel _ _ _ H))) as N. eapply orel_bind; [exact N|]. intros p1 q1 H1. cbn [orel]. split; [cbn [snd]; eauto using from_trans|]. cbn [fst snd view_value]. intros sf X. f_equal. eapply WV; [eapply from_prel; eauto|unfold worded, T_STRING in *; lia|apply (from_ext _ _ _ H1)|exact X]. }
    destruct (t =? T_ID) eqn:C4. { pose proof (next_from fuel _ _ _ (from_refl _ _ (from_prel _ _ _ H))) as N. eapply orel_bind; [exact N|]. intros p1 q1 H1. cbn [orel]. split; [cbn [snd]; eauto using from_trans|]. cbn [fst snd view_value]. intros sf X. f_equal. eapply WV; [eapply from_prel; eauto|unfold worded, T_ID in *; lia|apply (from_ext _ _ _ H1)|exact X]. }
    clear TX WV. destruct (t =? 91); [|exact I].
    eapply orel_bind; [apply (next_from fuel _ _ _ H)|]. intros p1 q1 H1. eapply orel_bind; [apply (expect_sim fuel 93 _ _ _ H1)|]. intros (o, p2) (o', q2) (E & H2). cbn [fst snd] in E, H2. subst o'. destruct o. { cbn. split; cbn; auto. }
    eapply orel_bind; [apply (IHv _ _ _ H2)|]. intros (v, p3) (v', q3) (H3 & V3). cbn [fst snd] in H3, V3. eapply orel_bind; [apply (expect_sim fuel 58 _ _ _ (from_refl _ _ (from_prel _ _ _ H3)))|]. intros (o, p4) (o', q4) (E & H4). cbn [fst snd] in E, H4. subst o'. destruct o.
    + eapply orel_bind; [apply (IHv _ _ _ (from_refl _ _ (from_prel _ _ _ H4)))|]. intros (w, p5) (w', q5) (H5 & V5). cbn [fst snd] in H5, V5. eapply orel_bind; [apply (expect_sim fuel 58 _ _ _ (from_refl _ _ (from_prel _ _ _ H5)))|]. intros (o, p6) (o', q6) (E & H6). cbn [fst snd] in E, H6. subst o'. destruct o.
      * eapply orel_bind; [apply (IHv _ _ _ (from_refl _ _ (from_prel _ _ _ H6)))|]. intros (x, p7) (x', q7) (H7 & V7). cbn [fst snd] in H7, V7. eapply orel_bind; [apply (expect_err_sim fuel 93 _ _ _ (from_refl _ _ (from_prel _ _ _ H7)))|]. intros p8 q8 H8. cbn [orel]. split; cbn [fst snd]; [eauto 10 using from_trans|]. intros sf X. cbn [view_value].
        pose proof (from_ext _ _ _ H8). pose proof (from_ext _ _ _ H7). pose proof (from_ext _ _ _ H6). pose proof (from_ext _ _ _ H5). pose proof (from_ext _ _ _ H4). rewrite V3, V5, V7 by eauto 7 using ext_trans. reflexivity.
      * eapply orel_bind; [apply (expect_err_sim fuel 93 _ _ _ H6)|]. intros p8 q8 H8. cbn [orel]. split; cbn [fst snd]; [eauto 10 using from_trans|]. intros sf X. cbn [view_value].
        pose proof (from_ext _ _ _ H8). pose proof (from_ext _ _ _ H6). pose proof (from_ext _ _ _ H5). pose proof (from_ext _ _ _ H4). rewrite V3, V5 by eauto 7 using ext_trans. reflexivity.
    + eapply orel_bind; [apply (IHe _ _ _ H4)|]. intros (l, p5) (l', q5) (H5 & V5). cbn [fst snd] in H5, V5. eapply orel_bind; [apply (expect_err_sim fuel 93 _ _ _ (from_refl _ _ (from_prel _ _ _ H5)))|]. intros p8 q8 H8. cbn [orel]. split; cbn [fst snd]; [eauto 10 using from_trans|]. intros sf X. cbn [view_value map].
      pose proof (from_ext _ _ _ H8). pose proof (from_ext _ _ _ H5). pose proof (from_ext _ _ _ H4). rewrite V3, V5 by eauto 7 using ext_trans. reflexivity.
  - eapply orel_bind; [apply (expect_sim fuel 44 _ _ _ H)|]. intros (o, p1) (o', q1) (E & H1). cbn [fst snd] in E, H1. subst o'. rewrite (looking_sim _ _ _ H1). destruct (o && looking_at_value copy q1); [|cbn; split; cbn; auto].
    eapply orel_bind; [apply (IHv _ _ _ H1)|]. intros (v, p3) (v', q3) (H3 & V3). cbn [fst snd] in H3, V3. eapply orel_bind; [apply (IHe _ _ _ (from_refl _ _ (from_prel _ _ _ H3)))|]. intros (l, p5) (l', q5) (H5 & V5). cbn [fst snd] in H5, V5. cbn [orel]. split; cbn [fst snd]; [eauto using from_trans|]. intros sf X. cbn [map]. pose proof (from_ext _ _ _ H5). rewrite V3, V5 by eauto using ext_trans. reflexivity.
Qed.
Lemma arg_sim fuel p q s : from s p q -> orel (rr view_arg s) (parse_arg mem nat F (machine e) strtod fuel p) (parse_arg copy (list Z) F copying strtod fuel q).
Proof.
  intros H. pose proof (word_view p q) as WV. unfold parse_arg. rewrite (prel_fst _ _ (from_prel _ _ _ H)) in *. destruct (fst q =? T_ID) eqn:C.
  - cbv zeta. eapply orel_bind; [apply (next_from fuel _ _ _ (from_refl _ _ (from_prel _ _ _ H)))|]. intros p1 q1 H1. eapply orel_bind; [apply (expect_sim fuel 61 _ _ _ H1)|]. intros (o, p2) (o', q2) (E & H2). cbn [fst snd] in E, H2. subst o'. destruct o.
    + eapply orel_bind; [apply (proj1 (value_sim fuel) _ _ _ H2)|]. intros (v, p3) (v', q3) (H3 & V3). cbn [fst snd] in H3, V3. cbn [orel]. split; cbn [fst snd]; [eauto using from_trans|]. intros sf X. unfold view_arg. cbn [fst snd option_map]. rewrite V3 by auto. do 2 f_equal. eapply WV; [eapply from_prel; eauto|unfold worded, T_ID in *; lia|apply (from_ext _ _ _ H3)|exact X].
    + cbn [orel]. split; cbn [fst snd]; [eauto using from_trans|]. intros sf X. unfold view_arg. cbn [fst snd option_map view_value]. do 2 f_equal. eapply WV; [eapply from_prel; eauto|unfold worded, T_ID in *; lia|apply (from_ext _ _ _ H2)|exact X].
  - eapply orel_bind; [apply (proj1 (value_sim fuel) _ _ _ H)|]. intros (v, p3) (v', q3) (H3 & V3). cbn [fst snd] in H3, V3. cbn [orel]. split; cbn [fst snd]; [auto|]. intros sf X. unfold view_arg. cbn. now rewrite V3.
Qed.
Lemma args_sim fuel : forall p q s, from s p q -> orel (rr (fun m => map (view_arg m)) s) (parse_args mem nat F (machine e) strtod fuel p) (parse_args copy (list Z) F copying strtod fuel q).
Proof.
  induction fuel as [|fuel IH]; intros p q s H; cbn [parse_args]; [exact I|]. rewrite (looking_sim _ _ _ H), (prel_fst _ _ (from_prel _ _ _ H)). destruct (negb _); [cbn; split; cbn; auto|].
  eapply orel_bind; [apply (arg_sim fuel _ _ _ H)|]. intros (v, p3) (v', q3) (H3 & V3). cbn [fst snd] in H3, V3. rewrite (prel_fst _ _ (from_prel _ _ _ H3)). destruct (fst q3 =? 41); [cbn [orel]; split; cbn [fst snd]; auto; intros sf X; cbn; now rewrite V3|].
  eapply orel_bind; [apply (expect_err_sim fuel 44 _ _ _ (from_refl _ _ (from_prel _ _ _ H3)))|]. intros p4 q4 H4. eapply orel_bind; [apply (IH _ _ _ (from_refl _ _ (from_prel _ _ _ H4)))|]. intros (l, p5) (l', q5) (H5 & V5). cbn [fst snd] in H5, V5. cbn [orel]. split; cbn [fst snd]; [eauto using from_trans|]. intros sf X. cbn [map]. pose proof (from_ext _ _ _ H5). pose proof (from_ext _ _ _ H4). rewrite V3, V5 by eauto using ext_trans. reflexivity.
Qed.
Lemma mod_sim fuel : forall m p q s, from s p q -> orel (fun x y => fst x = fst y /\ from s (snd x) (snd y)) (parse_modifier mem nat (machine e) fuel m p) (parse_modifier copy (list Z) copying fuel m q).
Proof.
  induction fuel as [|fuel IH]; intros m p q s H; cbn [parse_modifier]; [exact I|]. rewrite (prel_fst _ _ (from_prel _ _ _ H)). destruct (mod_bits (fst q)); [|cbn; auto]. eapply orel_bind; [apply (next_from fuel _ _ _ H)|]. intros p1 q1 H1. apply IH. exact H1.
Qed.
Lemma sieve_from s p q : from s p q -> from s (sieve mem nat (machine e) p) (sieve copy (list Z) copying q).
Proof. intros (X & P). destruct (sieve_sim _ _ _ P) as (A & B). split; [now rewrite B|auto]. Qed.
Lemma item_sim fuel : (forall p q s, from s p q -> orel (rr view_item s) (parse_item mem nat F (machine e) strtod fuel p) (parse_item copy (list Z) F copying strtod fuel q)) /\
  (forall p q s, from s p q -> orel (rr (fun m => map (view_item m)) s) (push_item mem nat F (machine e) strtod fuel p) (push_item copy (list Z) F copying strtod fuel q)) /\
  (forall p q s, from s p q -> orel (rr (fun m => map (view_item m)) s) (parse_items mem nat F (machine e) strtod fuel p) (parse_items copy (list Z) F copying strtod fuel q)).
Proof.
  induction fuel as [|fuel (IHi & IHp & IHl)]; [repeat split; intros; exact I|]. split; [|split]; intros p q s H; cbn [parse_item push_item parse_items].
  - eapply (orel_bind (rr (fun m h => (option_map (cstr m) (fst (fst h)), map (view_arg m) (snd (fst h)), snd h)) s)).
    { rewrite (prel_fst _ _ (from_prel _ _ _ H)). destruct (fst q =? 123); [cbn; split; cbn; auto|]. eapply orel_bind; [apply (mod_sim fuel 0 _ _ _ H)|]. intros (m, p1) (m', q1) (E & H1). cbn [fst snd] in E, H1. subst m'. cbv zeta.
      assert (WV : forall s' sf, worded (fst p1) = true -> ext (snd p1) s' -> ext s' sf -> cstr (m_mem sf) (word (machine e) (snd p1)) = word copying (snd q1)) by (intros; eapply word_view; eauto; eapply from_prel; eauto).
      assert (K : orel (fun x y => from (snd p1) x y /\ fst p1 = T_ID) (expect_err mem nat (machine e) fuel T_ID p1) (expect_err copy (list Z) copying fuel T_ID q1)).
      { pose proof (expect_err_sim fuel T_ID _ _ _ (from_refl _ _ (from_prel _ _ _ H1))) as K. unfold expect_err, expect in *. destruct (fst p1 =? T_ID) eqn:C; [|rewrite <- (prel_fst _ _ (from_prel _ _ _ H1)), C in *; cbn; auto]. rewrite <- (prel_fst _ _ (from_prel _ _ _ H1)), C in *. eapply orel_imp; [exact K|]. cbn. intros a b Hab. split; [auto|lia]. }
      eapply orel_bind; [exact K|]. intros p2 q2 (H2 & TI). eapply orel_bind; [apply (expect_err_sim fuel 40 _ _ _ H2)|]. intros p3 q3 H3. eapply orel_bind; [apply (args_sim fuel _ _ _ H3)|]. intros (l, p4) (l', q4) (H4 & V4). cbn [fst snd] in H4, V4. eapply orel_bind; [apply (expect_err_sim fuel 41 _ _ _ (from_refl _ _ (from_prel _ _ _ H4)))|]. intros p5 q5 H5. cbn [orel]. split; cbn [fst snd]; [eauto 7 using from_trans|]. intros sf X. cbn [option_map].
      pose proof (from_ext _ _ _ H4). pose proof (from_ext _ _ _ H5). rewrite V4 by eauto using ext_trans. rewrite (WV (snd p4)) by (rewrite ?TI; eauto using ext_trans). reflexivity. }
    intros (((f, a), m), p1) (((f', a'), m'), q1) (H1 & V1). cbn [fst snd] in H1, V1. rewrite (prel_fst _ _ (from_prel _ _ _ H1)). destruct (fst q1 =? 123).
    + eapply orel_bind; [apply (expect_sim fuel 123 _ _ _ (from_refl _ _ (from_prel _ _ _ H1)))|]. intros (o, p2) (o', q2) (E & H2). cbn [fst snd] in E, H2. eapply orel_bind; [apply (IHl _ _ _ H2)|]. intros (l, p4) (l', q4) (H4 & V4). cbn [fst snd] in H4, V4. eapply orel_bind; [apply (expect_err_sim fuel 125 _ _ _ (from_refl _ _ (from_prel _ _ _ H4)))|]. intros p5 q5 H5. cbn [orel]. split; cbn [fst snd]; [eauto 7 using from_trans|]. intros sf X. cbn [view_item].
      pose proof (from_ext _ _ _ H4). pose proof (from_ext _ _ _ H5). assert (Y : ext (snd p1) sf) by eauto using ext_trans. specialize (V1 sf Y). inversion V1; subst. rewrite V4 by eauto using ext_trans. reflexivity.
    + eapply orel_bind; [apply (IHp _ _ _ (from_refl _ _ (from_prel _ _ _ H1)))|]. intros (l, p4) (l', q4) (H4 & V4). cbn [fst snd] in H4, V4. cbn [orel]. split; cbn [fst snd]; [eauto using from_trans|]. intros sf X. cbn [view_item].
      pose proof (from_ext _ _ _ H4). assert (Y : ext (snd p1) sf) by eauto using ext_trans. specialize (V1 sf Y). inversion V1; subst. rewrite V4 by eauto using ext_trans. reflexivity.
  - eapply orel_bind; [apply (expect_sim fuel 59 _ _ _ H)|]. intros (o, p2) (o', q2) (E & H2). cbn [fst snd] in E, H2. subst o'. destruct o; [cbn; split; cbn; auto|]. cbv zeta. apply sieve_from in H2. rewrite (prel_fst _ _ (from_prel _ _ _ H2)). destruct (_ =? K_INCLUDE); [exact I|].
    eapply orel_bind; [apply (IHi _ _ _ H2)|]. intros (l, p4) (l', q4) (H4 & V4). cbn [fst snd] in H4, V4. cbn [orel]. split; cbn [fst snd]; auto. intros sf X. cbn. now rewrite V4.
  - cbv zeta. apply sieve_from in H. unfold looking_at_stmt_item, looking_at_modifier. rewrite (prel_fst _ _ (from_prel _ _ _ H)). destruct (negb _); [cbn; split; cbn; auto|].
    eapply orel_bind; [apply (IHp _ _ _ H)|]. intros (v, p3) (v', q3) (H3 & V3). cbn [fst snd] in H3, V3. eapply orel_bind; [apply (IHl _ _ _ (from_refl _ _ (from_prel _ _ _ H3)))|]. intros (l, p5) (l', q5) (H5 & V5). cbn [fst snd] in H5, V5. cbn [orel]. split; cbn [fst snd]; [eauto using from_trans|]. intros sf X. pose proof (from_ext _ _ _ H5). rewrite map_app, V3, V5 by eauto using ext_trans. reflexivity.
Qed.
Lemma use_sim fuel p q s : from s p q -> orel (rr view s) (parse_use mem nat F (machine e) fuel p) (parse_use copy (list Z) F copying fuel q).
Proof.
  intros H. unfold parse_use. eapply (orel_bind (fun x y => fst x = fst y /\ from s (snd x) (snd y) /\ (fst y = true -> fresh (snd y)))).
  { unfold expect. rewrite (prel_fst _ _ (from_prel _ _ _ H)). destruct (fst q =? K_USE) eqn:C; [|cbn; split; [auto|]; split; [auto|discriminate]]. pose proof (next_from fuel _ _ _ H) as N. destruct (next2 fuel q) as [q1| | | |] eqn:En; destruct (next1 fuel p) as [p1| | | |]; cbn in N |- *; try contradiction; auto. split; [auto|]. split; [auto|]. intros _. eapply next_fresh; [exact En|]. unfold K_USE in C. lia. }
  intros (o, p2) (o', q2) (E & H2 & Fr). cbn [fst snd] in E, H2, Fr. subst o'. destruct o; cbn [negb]; [|exact I]. specialize (Fr eq_refl). eapply orel_bind; [apply (path_sim file fuel _ _ (from_prel _ _ _ H2) Fr)|]. intros p3 q3 H3. cbv zeta.
  unfold expect. rewrite (prel_fst _ _ (from_prel _ _ _ H3)). destruct (fst q3 =? T_PATH) eqn:C; [|exact I]. pose proof (next_from fuel _ _ _ (from_refl _ _ (from_prel _ _ _ H3))) as N. destruct (next2 fuel q3) as [q4| | | |]; destruct (next1 fuel p3) as [p4| | | |]; cbn [orel] in N; try contradiction; cbn [bind orel]; auto.
  split; cbn [fst snd]; [eauto using from_trans|]. intros sf X. cbn [view]. f_equal. eapply word_view; [eapply from_prel; eauto| |apply (from_ext _ _ _ N)|exact X]. rewrite (prel_fst _ _ (from_prel _ _ _ H3)). unfold worded, T_PATH in *. lia.
Qed.
Lemma stmts_sim fuel : forall p q s, from s p q -> orel (rr (fun m => map (view m)) s) (parse_stmts mem nat F (machine e) strtod fuel p) (parse_stmts copy (list Z) F copying strtod fuel q).
Proof.
  induction fuel as [|fuel IH]; intros p q s H; cbn [parse_stmts]; [exact I|]. cbv zeta. apply sieve_from in H. unfold looking_at_stmt_item, looking_at_modifier. rewrite (prel_fst _ _ (from_prel _ _ _ H)). destruct (negb _); [cbn; split; cbn; auto|]. destruct (_ =? K_USE).
  - eapply orel_bind; [apply (use_sim fuel _ _ _ H)|]. intros (v, p3) (v', q3) (H3 & V3). cbn [fst snd] in H3, V3. eapply orel_bind; [apply (IH _ _ _ (from_refl _ _ (from_prel _ _ _ H3)))|]. intros (l, p5) (l', q5) (H5 & V5). cbn [fst snd] in H5, V5. cbn [orel]. split; cbn [fst snd]; [eauto using from_trans|]. intros sf X. cbn [map]. pose proof (from_ext _ _ _ H5). rewrite V3, V5 by eauto using ext_trans. reflexivity.
  - destruct (is_key _); [cbn; split; cbn; auto|]. eapply orel_bind; [apply (proj1 (proj2 (item_sim fuel)) _ _ _ H)|]. intros (v, p3) (v', q3) (H3 & V3). cbn [fst snd] in H3, V3. eapply orel_bind; [apply (IH _ _ _ (from_refl _ _ (from_prel _ _ _ H3)))|]. intros (l, p5) (l', q5) (H5 & V5). cbn [fst snd] in H5, V5. cbn [orel]. split; cbn [fst snd]; [eauto using from_trans|]. intros sf X. pose proof (from_ext _ _ _ H5). specialize (V3 sf ltac:(eauto using ext_trans)). rewrite map_app, map_map. cbn [view]. rewrite V5 by auto. f_equal. rewrite <- V3, map_map. reflexivity.
Qed.
Lemma parse_sim fuel : orel (fun x y => map (view (m_mem (snd x))) (fst x) = fst y) (syn_parse strtod fuel file) (copy_parse strtod fuel file).
Proof.
  unfold syn_parse, copy_parse, parse.
  assert (H : prel (0, mk_mem (nth 0 (file ++ [0]) 0) 0 0 (file ++ [0])) (0, mk_copy file false [] [])).
  { split; [auto|]. split; [|discriminate]. cbn [snd]. constructor; cbn; try lia; try discriminate; [destruct file; reflexivity|rewrite app_length; cbn; lia|destruct file; reflexivity]. }
  eapply orel_bind; [apply (next_from fuel _ _ _ (from_refl _ _ H))|]. intros p1 q1 H1. eapply orel_bind; [apply (stmts_sim fuel _ _ _ H1)|]. intros (l, p2) (l', q2) (H2 & V2). cbn [fst snd] in H2, V2. rewrite (prel_fst _ _ (from_prel _ _ _ H2)). destruct (_ =? T_EOF); [|exact I]. cbn. apply V2, ext_refl.
Qed.
End Sim2.
