(** C35: what is in the grammar is accepted *)
From Coq Require Import ZArith Bool List Lia Arith ZifyBool.
From Verif Require Import Syn_model Syn_spec Syn_proofs3 Syn_proofs4 Syn_proofs5 Syn_proofs6.
Import ListNotations.
Local Open Scope Z_scope.

Section Complete.
Context {F : Type}.
Variable strtod : list Z -> F.
Variable B : nat.
Definition len (c : copy) : nat := length (c_rest c).
Definition ready (l : list tok) (c : copy) : Prop :=
  posl (c_rest c) /\ lexes (c_rest c) l /\ (c_dirty c = true -> apart (c_rest c)) /\ (len c <= B)%nat.
(** [p] is at the first of the tokens *)
Definition on (l : list tok) (p : pst) : Prop :=
  match l with
  | [] => fst p = T_EOF
  | TP x :: r => fst p = x /\ punct x /\ ready r (snd p)
  | TId s :: r => fst p = T_ID /\ c_txt (snd p) = s /\ ready r (snd p)
  | TInt s :: r => fst p = T_INT /\ c_txt (snd p) = s /\ ready r (snd p)
  | TFloat s :: r => fst p = T_FLOAT /\ c_txt (snd p) = s /\ ready r (snd p)
  | TStr s :: r => fst p = T_STRING /\ c_txt (snd p) = s /\ ready r (snd p)
  | TPath s :: r => fst p = 60 /\ c_dirty (snd p) = false /\ exists l, c_rest (snd p) = s ++ 62 :: l /\ ~ In 62 s /\ ~ In 0 s /\ posl l /\ lexes l r /\ (length s + S (length l) <= B)%nat
  end.
Lemma number_start s t fl : number s t fl -> exists y l, s = y :: l /\ num_start y = true.
Proof.
  intros [d f x D Hf Hx N|d f x D Hf Hx|d f x D Hf Hx]; [|eauto|eauto]. destruct d as [|y d].
  - destruct Hf as [->|(d' & -> & _)]; [now elim N|]. cbn. eauto.
  - inversion D as [|? ? Y]; subst. cbn. exists y, (d ++ f ++ x). split; [auto|]. unfold num_start, is_digit, dig in *. lia.
Qed.
Lemma apart_not y l r : (num_start y = true \/ id_start y = true) -> apart ((y :: l) ++ r) -> False.
Proof. intros H A. apply apart_stop in A. destruct A as (A1 & A2). cbn in A1, A2. destruct H; congruence. Qed.
Lemma go fuel l t c : ready l c -> t <> T_ERROR -> (B + 2 <= fuel)%nat -> exists q, cnext fuel (t, c) = Ok q /\ on l q.
Proof.
  intros (P & L & A & LB) T Fu. unfold len in LB. assert (N0 : ~ In 0 (c_rest c)) by (intros I; apply P in I; lia).
  assert (W : forall w r, blank w -> c_rest c = w ++ r -> exists t' c' f', cnext fuel (t, c) = cnext (S f') (t', c') /\ t' <> T_ERROR /\ c_rest c' = r /\ (c_dirty c' = true -> w = [] /\ c_dirty c = true) /\ (length r < f')%nat).
  { intros w r Bw E. destruct (next_blank w Bw ltac:(intros I; apply N0; rewrite E, in_app_iff; auto) t c fuel r T E ltac:(lia)) as (t' & c' & f' & Q & T' & E' & D1 & D2 & L'). destruct f' as [|f']; [lia|]. exists t', c', f'. split; [auto|]. split; [auto|]. split; [auto|]. split; [|lia]. intros D. destruct w; [rewrite (D1 eq_refl) in D; auto|rewrite D2 in D; discriminate]. }
  inversion L as [w LBl E|w x r l' Bw X Lr E|w s r l' Bw I Ar Lr E|w s tx fl r l' Bw I Ar Lr E|w s r l' Bw I Lr E|w s r l' Bw I Lr E]; subst.
  - destruct LBl as [w Bw|w b Bw Nb].
    + destruct (W w [] Bw ltac:(now rewrite app_nil_r)) as (t' & c' & f' & Q & T' & E' & _ & L'). destruct (fwd_end f' t' c' T' E' ltac:(cbn in L'; lia)) as (c2 & Q2 & E2). exists (0, c2). split; [congruence|reflexivity].
    + destruct (W w ([47; 47] ++ b) Bw eq_refl) as (t' & c' & f' & Q & T' & E' & _ & L'). destruct (next_line f' t' c' b [] T') as (acc & Q2); auto; [now rewrite app_nil_r|intros I; apply N0; rewrite in_app_iff; right; right; right; auto|rewrite E'; lia|].
      cbn in L'. destruct f' as [|f']; [lia|]. destruct (fwd_end f' T_LCOM (mk_copy [] false acc (c_txt c')) ltac:(discriminate) eq_refl ltac:(lia)) as (c2 & Q3 & E2). exists (0, c2). split; [congruence|reflexivity].
  - destruct (W w (x :: r) Bw (eq_sym E)) as (t' & c' & f' & Q & T' & E' & _ & L'). destruct (fwd_char f' t' c' x r T' E') as (c2 & Q2 & E2 & D2); try (unfold punct in X; cbn [In] in X; unfold is_space, num_start, id_start, is_digit, is_alpha; lia). exists (x, c2). split; [congruence|]. cbn [on fst snd]. split; [auto|]. split; [auto|]. rewrite <- E in P, LB. apply posl_app in P. destruct P as (_ & P). rewrite app_length in LB. cbn in LB. unfold ready, len. rewrite E2, D2. split; [intros y Hy; apply P; now right|]. split; [auto|]. split; [discriminate|lia].
  - destruct (W w (s ++ r) Bw (eq_sym E)) as (t' & c' & f' & Q & T' & E' & D' & L'). assert (Dc : c_dirty c' = false). { destruct (c_dirty c'); [|auto]. exfalso. destruct (D' eq_refl) as (-> & Dc). specialize (A Dc). rewrite <- E in A. cbn in A. destruct (ident_split s I) as (y & l2 & -> & Y & _). eapply apart_not; eauto. }
    destruct (fwd_id f' t' c' s r T' E' Dc I) as (c2 & Q2 & E2 & D2 & X2); [apply apart_stop in Ar; unfold stop, num_start, id_start, id_char in *; lia|rewrite E'; lia|]. exists (T_ID, c2). split; [congruence|]. cbn [on fst snd]. split; [auto|]. split; [auto|]. rewrite <- E in P, LB. apply posl_app in P. destruct P as (_ & P). apply posl_app in P. destruct P as (_ & P). rewrite !app_length in LB. unfold ready, len. rewrite E2. split; [auto|]. split; [auto|]. split; [auto|lia].
  - destruct (W w (s ++ r) Bw (eq_sym E)) as (t' & c' & f' & Q & T' & E' & D' & L'). assert (Dc : c_dirty c' = false). { destruct (c_dirty c'); [|auto]. exfalso. destruct (D' eq_refl) as (-> & Dc). specialize (A Dc). rewrite <- E in A. cbn in A. destruct (number_start _ _ _ I) as (y & l2 & -> & Y). eapply apart_not; eauto. }
    destruct (fwd_num f' t' c' s tx fl r T' E' Dc I) as (c2 & Q2 & E2 & D2 & X2); [now apply apart_stop|rewrite E'; lia|]. exists ((if fl then T_FLOAT else T_INT), c2). split; [congruence|]. rewrite <- E in P, LB. apply posl_app in P. destruct P as (_ & P). apply posl_app in P. destruct P as (_ & P). rewrite !app_length in LB.
    assert (R : ready l' c2) by (unfold ready, len; rewrite E2; split; [auto|]; split; [auto|]; split; [auto|lia]). destruct fl; cbn; auto.
  - destruct (W w (34 :: s ++ 34 :: r) Bw (eq_sym E)) as (t' & c' & f' & Q & T' & E' & D' & L'). destruct (fwd_str f' t' c' s r T' E' I) as (c2 & Q2 & E2 & D2 & X2); [intros J; apply N0; rewrite <- E, in_app_iff; right; right; rewrite in_app_iff; auto|rewrite E'; lia|]. exists (T_STRING, c2). split; [congruence|]. cbn [on fst snd]. split; [auto|]. split; [auto|]. rewrite <- E in P, LB. apply posl_app in P. destruct P as (_ & P). rewrite app_length in LB. cbn in LB. rewrite app_length in LB. cbn in LB. unfold ready, len. rewrite E2, D2. split; [intros y Hy; apply P; right; rewrite in_app_iff; right; now right|]. split; [auto|]. split; [discriminate|lia].
  - destruct (W w (60 :: s ++ 62 :: r) Bw (eq_sym E)) as (t' & c' & f' & Q & T' & E' & _ & L'). destruct (fwd_char f' t' c' 60 (s ++ 62 :: r) T' E') as (c2 & Q2 & E2 & D2); try reflexivity; try lia; try discriminate. exists (60, c2). split; [congruence|]. cbn [on fst snd]. split; [auto|]. split; [auto|]. rewrite <- E in P, LB. apply posl_app in P. destruct P as (_ & P). rewrite app_length in LB. cbn in LB. rewrite app_length in LB. cbn in LB. exists r. split; [auto|]. split; [auto|]. split; [intros J; apply N0; rewrite <- E, in_app_iff; right; right; rewrite in_app_iff; auto|]. split; [intros y Hy; apply P; right; rewrite in_app_iff; right; now right|]. split; [auto|lia].
Qed.
Definition notpath (k : tok) : Prop := match k with TPath _ => False | _ => True end.
Lemma on_next fuel k l p : on (k :: l) p -> notpath k -> (B + 2 <= fuel)%nat -> exists q, cnext fuel p = Ok q /\ on l q.
Proof.
  destruct p as (t, c). intros H N Fu. destruct k; cbn [on fst snd] in H; try (destruct H as (-> & _ & R); apply go; auto; discriminate); [destruct N|].
  destruct H as (-> & X & R). apply go; auto. apply punct_lt in X. unfold T_ERROR. lia.
Qed.
Lemma on_punct fuel x l p : on (TP x :: l) p -> (B + 2 <= fuel)%nat -> exists q, cnext fuel p = Ok q /\ on l q /\ fst p = x.
Proof. intros H Fu. destruct (on_next fuel _ _ _ H I Fu) as (q & Q & O). exists q. split; [auto|]. split; [auto|]. apply H. Qed.
Lemma expect_yes fuel x l p : on (TP x :: l) p -> (B + 2 <= fuel)%nat -> exists q, cexpect fuel x p = Ok (true, q) /\ on l q.
Proof. intros H Fu. destruct (on_punct fuel _ _ _ H Fu) as (q & Q & O & E). exists q. unfold expect. rewrite E, Z.eqb_refl, Q. auto. Qed.
Lemma expect_err_yes fuel x l p : on (TP x :: l) p -> (B + 2 <= fuel)%nat -> exists q, cexpect_err fuel x p = Ok q /\ on l q.
Proof. intros H Fu. destruct (expect_yes fuel _ _ _ H Fu) as (q & Q & O). exists q. unfold expect_err. rewrite Q. auto. Qed.
Lemma expect_no fuel x p : fst p <> x -> cexpect fuel x p = Ok (false, p).
Proof. intros H. unfold expect. now replace (fst p =? x) with false by lia. Qed.

Notation pvalue := (parse_value copy (list Z) F copying strtod). Notation pelems := (parse_elems copy (list Z) F copying strtod).
Notation pargs := (parse_args copy (list Z) F copying strtod). Notation parg := (parse_arg copy (list Z) F copying strtod).
Notation pmod := (parse_modifier copy (list Z) copying).
Notation pitem := (parse_item copy (list Z) F copying strtod). Notation ppush := (push_item copy (list Z) F copying strtod). Notation pitems := (parse_items copy (list Z) F copying strtod).
Notation pstmts := (parse_stmts copy (list Z) F copying strtod). Notation puse := (parse_use copy (list Z) F copying).
Lemma pvalue_S fuel p : pvalue (S fuel) p =
    let '(t, s) := p in
    if t =? T_INT then do p <- cnext fuel p; Ok (VInt (strtoll (text copying s)), p)
    else if t =? T_FLOAT then do p <- cnext fuel p; Ok (VFloat (strtod (text copying s)), p)
    else if t =? T_STRING then do p <- cnext fuel p; Ok (VString (word copying s), p)
    else if t =? T_ID then do p <- cnext fuel p; Ok (VId (word copying s), p)
    else if t =? 91 then
      do p <- cnext fuel p;
      do (e, p) <- cexpect fuel 93 p;
      if e then Ok (VArray [], p) else
      do (v, p) <- pvalue fuel p;
      do (r, p) <- cexpect fuel 58 p;
      if r then
        do (w, p) <- pvalue fuel p;
        do (r, p) <- cexpect fuel 58 p;
        if r then do (x, p) <- pvalue fuel p; do p <- cexpect_err fuel 93 p; Ok (VRange v x (Some w), p)
        else do p <- cexpect_err fuel 93 p; Ok (VRange v w None, p)
      else
        do (l, p) <- pelems fuel p;
        do p <- cexpect_err fuel 93 p; Ok (VArray (v :: l), p)
    else Err.
Proof. reflexivity. Qed.
Lemma pelems_S fuel p : pelems (S fuel) p =
    do (c, p) <- cexpect fuel 44 p;
    if c && looking_at_value copy p then do (v, p) <- pvalue fuel p; do (l, p) <- pelems fuel p; Ok (v :: l, p) else Ok ([], p).
Proof. reflexivity. Qed.
Lemma pitem_S fuel p : pitem (S fuel) p =
    do (h, p) <- (if fst p =? 123 then Ok ((None, [], 0), p) else
      do (m, p) <- pmod fuel 0 p;
      let w := word copying (snd p) in
      do p <- cexpect_err fuel T_ID p;
      do p <- cexpect_err fuel 40 p;
      do (a, p) <- pargs fuel p;
      do p <- cexpect_err fuel 41 p;
      Ok ((Some w, a, m), p));
    let '(f, a, m) := h in
    if fst p =? 123 then
      do (ok, p) <- cexpect fuel 123 p;
      do (b, p) <- pitems fuel p;
      do p <- cexpect_err fuel 125 p;
      Ok (Item f a b m, p)
    else do (b, p) <- ppush fuel p; Ok (Item f a b m, p).
Proof. reflexivity. Qed.
Lemma ppush_S fuel p : ppush (S fuel) p =
    do (ok, p) <- cexpect fuel 59 p;
    if ok then Ok ([], p) else
    let p := csieve p in
    if fst p =? K_INCLUDE then Inc else
    do (i, p) <- pitem fuel p; Ok ([i], p).
Proof. reflexivity. Qed.
Lemma pitems_S fuel p : pitems (S fuel) p =
    let p := csieve p in
    if negb (looking_at_stmt_item copy p) then Ok ([], p) else
    do (l, p) <- ppush fuel p; do (r, p) <- pitems fuel p; Ok (l ++ r, p).
Proof. reflexivity. Qed.
Scheme val_mut := Induction for val Sort Prop with vals_mut := Induction for vals Sort Prop.
Combined Scheme val_vals_ind from val_mut, vals_mut.
Definition vstart (k : tok) : Prop := match k with TPath _ => False | TP x => x = 91 | _ => True end.
Lemma val_start : (forall t v, val strtod t v -> exists k l, t = k :: l /\ vstart k /\ (forall s, k = TId s -> l = [] /\ v = VId s)) /\ (forall t l, vals strtod t l -> exists k r, t = k :: r /\ vstart k).
Proof.
  apply val_vals_ind; intros; try (do 2 eexists; split; [reflexivity|]; split; [exact I || reflexivity|]; intros ? Q; inversion Q; auto; fail).
  - destruct H as (k & l & -> & S & _). eauto.
  - destruct H as (k & l & -> & S & _). cbn. eauto.
  - destruct H as (k & l' & -> & S & _). cbn. eauto.
Qed.
Lemma vstart_on k l p : on (k :: l) p -> vstart k -> looking_at_value copy p = true /\ fst p <> 93 /\ fst p <> 41 /\ fst p <> 58.
Proof. destruct k; cbn; intros (H & _) S; try contradiction; unfold looking_at_value; rewrite H; try rewrite S; repeat split; try reflexivity; discriminate. Qed.
Lemma value_complete :
  (forall t v, val strtod t v -> forall r p fuel, on (t ++ r) p -> (2 * length t + B + 3 <= fuel)%nat -> exists q, pvalue fuel p = Ok (v, q) /\ on r q) /\
  (forall t l, vals strtod t l -> forall r p fuel, on (t ++ TP 93 :: r) p -> (2 * length t + B + 4 <= fuel)%nat ->
     exists v l' p1 p2, l = v :: l' /\ pvalue fuel p = Ok (v, p1) /\ (fst p1 = 44 \/ fst p1 = 93) /\ pelems fuel p1 = Ok (l', p2) /\ on (TP 93 :: r) p2).
Proof.
  apply val_vals_ind.
  - intros s r p [|fuel] O L; [cbn in L; lia|]. cbn [app] in O. destruct (on_next fuel _ _ _ O I ltac:(cbn in L; lia)) as (q & Q & O2). destruct p as (t, c). destruct O as (E & X & _). cbn in E, X. subst t s. exists q. rewrite pvalue_S. cbn [Z.eqb T_ID T_INT T_FLOAT T_STRING Pos.eqb]. rewrite Q. auto.
  - intros s n V r p [|fuel] O L; [cbn in L; lia|]. cbn [app] in O. destruct (on_next fuel _ _ _ O I ltac:(cbn in L; lia)) as (q & Q & O2). destruct p as (t, c). destruct O as (E & X & _). cbn in E, X. subst t s. exists q. rewrite pvalue_S. cbn [Z.eqb T_ID T_INT T_FLOAT T_STRING Pos.eqb]. rewrite Q. rewrite (value_strtoll _ _ V). auto.
  - intros s r p [|fuel] O L; [cbn in L; lia|]. cbn [app] in O. destruct (on_next fuel _ _ _ O I ltac:(cbn in L; lia)) as (q & Q & O2). destruct p as (t, c). destruct O as (E & X & _). cbn in E, X. subst t s. exists q. rewrite pvalue_S. cbn [Z.eqb T_ID T_INT T_FLOAT T_STRING Pos.eqb]. rewrite Q. auto.
  - intros s r p [|fuel] O L; [cbn in L; lia|]. cbn [app] in O. destruct (on_next fuel _ _ _ O I ltac:(cbn in L; lia)) as (q & Q & O2). destruct p as (t, c). destruct O as (E & X & _). cbn in E, X. subst t s. exists q. rewrite pvalue_S. cbn [Z.eqb T_ID T_INT T_FLOAT T_STRING Pos.eqb]. rewrite Q. auto.
  - intros r p [|fuel] O L; [cbn in L; lia|]. cbn [app] in O. cbn in L. destruct (on_punct fuel _ _ _ O ltac:(lia)) as (p1 & Q & O2 & E). destruct (expect_yes fuel _ _ _ O2 ltac:(lia)) as (p2 & Q2 & O3). destruct p as (t, c). cbn in E. subst t. exists p2. rewrite pvalue_S. cbn [Z.eqb T_ID T_INT T_FLOAT T_STRING Pos.eqb]. rewrite Q. cbn [bind]. rewrite Q2. auto.
  - intros t l V IH r p [|fuel] O L; [lia|]. cbn [app length] in O, L. rewrite app_length in L. cbn in L. rewrite <- app_assoc in O. cbn [app] in O. destruct (on_punct fuel _ _ _ O ltac:(lia)) as (p1 & Q & O2 & E). destruct (proj2 val_start _ _ V) as (k & l2 & Et & Sk). pose proof O2 as O2'. rewrite Et in O2'. destruct (vstart_on _ _ _ O2' Sk) as (_ & N93 & _).
    destruct (IH r p1 fuel O2 ltac:(lia)) as (v & l' & p2 & p3 & -> & Q3 & E3 & Q4 & O4). destruct (expect_err_yes fuel _ _ _ O4 ltac:(lia)) as (p4 & Q5 & O5). destruct p as (t1, c). cbn in E. subst t1. exists p4. rewrite pvalue_S. cbn [Z.eqb T_ID T_INT T_FLOAT T_STRING Pos.eqb]. rewrite Q. cbn [bind]. rewrite expect_no by auto. cbn [bind]. rewrite Q3. cbn [bind]. rewrite expect_no by lia. cbn [bind]. rewrite Q4. cbn [bind]. rewrite Q5. auto.
  - intros t a u b Va IHa Vb IHb r p [|fuel] O L; [lia|]. cbn [app length] in O, L. rewrite app_length in L. cbn in L. rewrite app_length in L. cbn in L. rewrite <- app_assoc in O. cbn [app] in O. rewrite <- app_assoc in O. cbn [app] in O. destruct (on_punct fuel _ _ _ O ltac:(lia)) as (p1 & Q & O2 & E). destruct (proj1 val_start _ _ Va) as (k & l2 & Et & Sk & _). pose proof O2 as O2'. rewrite Et in O2'. destruct (vstart_on _ _ _ O2' Sk) as (_ & N93 & _).
    destruct (IHa _ p1 fuel O2 ltac:(lia)) as (p2 & Q3 & O3). destruct (expect_yes fuel _ _ _ O3 ltac:(lia)) as (p3 & Q4 & O4). destruct (IHb _ p3 fuel O4 ltac:(lia)) as (p4 & Q5 & O5). destruct (expect_err_yes fuel _ _ _ O5 ltac:(lia)) as (p5 & Q6 & O6). destruct p as (t1, c). cbn in E. subst t1. exists p5. rewrite pvalue_S. cbn [Z.eqb T_ID T_INT T_FLOAT T_STRING Pos.eqb]. rewrite Q. cbn [bind]. rewrite expect_no by auto. cbn [bind]. rewrite Q3. cbn [bind]. rewrite Q4. cbn [bind]. rewrite Q5. cbn [bind]. rewrite expect_no by (destruct O5 as (-> & _); discriminate). cbn [bind]. rewrite Q6. auto.
  - intros t a u i w b Va IHa Vi IHi Vb IHb r p [|fuel] O L; [lia|]. cbn [app length] in O, L. rewrite app_length in L. cbn in L. rewrite app_length in L. cbn in L. rewrite app_length in L. cbn in L. rewrite <- app_assoc in O. cbn [app] in O. rewrite <- app_assoc in O. cbn [app] in O. rewrite <- app_assoc in O. cbn [app] in O. destruct (on_punct fuel _ _ _ O ltac:(lia)) as (p1 & Q & O2 & E). destruct (proj1 val_start _ _ Va) as (k & l2 & Et & Sk & _). pose proof O2 as O2'. rewrite Et in O2'. destruct (vstart_on _ _ _ O2' Sk) as (_ & N93 & _).
    destruct (IHa _ p1 fuel O2 ltac:(lia)) as (p2 & Q3 & O3). destruct (expect_yes fuel _ _ _ O3 ltac:(lia)) as (p3 & Q4 & O4). destruct (IHi _ p3 fuel O4 ltac:(lia)) as (p4 & Q5 & O5). destruct (expect_yes fuel _ _ _ O5 ltac:(lia)) as (p5 & Q6 & O6). destruct (IHb _ p5 fuel O6 ltac:(lia)) as (p6 & Q7 & O7). destruct (expect_err_yes fuel _ _ _ O7 ltac:(lia)) as (p7 & Q8 & O8). destruct p as (t1, c). cbn in E. subst t1. exists p7. rewrite pvalue_S. cbn [Z.eqb T_ID T_INT T_FLOAT T_STRING Pos.eqb]. rewrite Q. cbn [bind]. rewrite expect_no by auto. cbn [bind]. rewrite Q3. cbn [bind]. rewrite Q4. cbn [bind]. rewrite Q5. cbn [bind]. rewrite Q6. cbn [bind]. rewrite Q7. cbn [bind]. rewrite Q8. auto.
  - intros t v V IH r p fuel O L. destruct (IH _ p fuel O ltac:(lia)) as (p1 & Q & O1). exists v, [], p1, p1. assert (E : fst p1 = 93) by apply O1. split; [auto|]. split; [auto|]. split; [auto|]. split; [|auto]. destruct fuel as [|fuel]; [lia|]. rewrite pelems_S. rewrite expect_no by lia. reflexivity.
  - intros t v V IH r p fuel O L. rewrite app_length in L. cbn in L. rewrite <- app_assoc in O. cbn [app] in O. destruct (IH _ p fuel O ltac:(lia)) as (p1 & Q & O1). destruct fuel as [|fuel]; [lia|]. destruct (expect_yes fuel _ _ _ O1 ltac:(lia)) as (p2 & Q2 & O2). exists v, [], p1, p2. split; [auto|]. split; [auto|]. split; [left; apply O1|]. split; [|auto]. rewrite pelems_S. rewrite Q2. cbn [bind]. assert (E : looking_at_value copy p2 = false) by (unfold looking_at_value; destruct O2 as (-> & _); reflexivity). rewrite E. reflexivity.
  - intros t v u l V IH Vl IHl r p fuel O L. rewrite app_length in L. cbn in L. rewrite <- app_assoc in O. cbn [app] in O. destruct (IH _ p fuel O ltac:(lia)) as (p1 & Q & O1). destruct fuel as [|fuel]; [lia|]. destruct (expect_yes fuel _ _ _ O1 ltac:(lia)) as (p2 & Q2 & O2). destruct (IHl r p2 fuel O2 ltac:(lia)) as (v2 & l2 & p3 & p4 & -> & Q3 & E3 & Q4 & O4). exists v, (v2 :: l2), p1, p4. split; [auto|]. split; [auto|]. split; [left; apply O1|]. split; [|auto]. rewrite pelems_S. rewrite Q2. cbn [bind].
    destruct (proj2 val_start _ _ Vl) as (k & l3 & Et & Sk). pose proof O2 as O2'. rewrite Et in O2'. destruct (vstart_on _ _ _ O2' Sk) as (LV & _). rewrite LV. cbn [andb]. rewrite Q3. cbn [bind]. rewrite Q4. reflexivity.
Qed.
Lemma arg_complete t a r p fuel : argument strtod t a -> on (t ++ r) p -> (exists x l, r = TP x :: l /\ x <> 61) -> (2 * length t + B + 4 <= fuel)%nat -> exists q, parg fuel p = Ok (a, q) /\ on r q.
Proof.
  intros A O (x & l & -> & X) L. destruct A as [t v V|k t v V].
  - destruct (proj1 val_start _ _ V) as (k & l2 & Et & Sk & I). unfold parse_arg. destruct (fst p =? T_ID) eqn:C.
    + assert (K : exists s, k = TId s). { rewrite Et in O. destruct k; cbn in O; try (exfalso; destruct O as (O1 & _); unfold T_ID, T_INT, T_FLOAT, T_STRING in *; lia); [eauto|]. exfalso. destruct O as (O1 & O2 & _). apply punct_lt in O2. unfold T_ID in C. lia. }
      destruct K as (s & ->). destruct (I s eq_refl) as (-> & ->). subst t. cbn [app] in O. destruct (on_next fuel _ _ _ O Logic.I ltac:(lia)) as (q & Q & O2). exists q. rewrite Q. cbn [bind]. rewrite expect_no by (destruct O2 as (-> & _); auto). cbn. destruct O as (_ & <- & _). auto.
    + destruct (proj1 value_complete _ _ V _ p fuel O ltac:(lia)) as (q & Q & O2). exists q. rewrite Q. auto.
  - cbn [app length] in O, L. unfold parse_arg. assert (E : fst p = T_ID) by apply O. assert (X2 : c_txt (snd p) = k) by apply O. rewrite E. cbn [Z.eqb T_ID Pos.eqb]. destruct (on_next fuel _ _ _ O Logic.I ltac:(lia)) as (q & Q & O2). rewrite Q. cbn [bind]. destruct (expect_yes fuel _ _ _ O2 ltac:(lia)) as (q2 & Q2 & O3). rewrite Q2. cbn [bind]. destruct (proj1 value_complete _ _ V _ q2 fuel O3 ltac:(lia)) as (q3 & Q3 & O4). rewrite Q3. exists q3. cbn. rewrite X2. auto.
Qed.
Lemma arg_start t a : argument strtod t a -> exists k l, t = k :: l /\ vstart k.
Proof. intros [t' v V|k t' v V]; [destruct (proj1 val_start _ _ V) as (k & l & -> & S & _); eauto|exists (TId k), (TP 61 :: t'); split; [auto|exact I]]. Qed.
Lemma args_complete t l : arguments strtod t l -> forall r p fuel, on (t ++ TP 41 :: r) p -> (2 * length t + B + 5 <= fuel)%nat -> exists q, pargs fuel p = Ok (l, q) /\ on (TP 41 :: r) q.
Proof.
  induction 1 as [|t a A|t a u l A H IH]; intros r p [|fuel] O L; try lia; cbn [parse_args].
  - exists p. split; [|auto]. destruct O as (E & _). unfold looking_at_value. rewrite E. reflexivity.
  - destruct (arg_start _ _ A) as (k & l & Et & S). pose proof O as O'. rewrite Et in O'. destruct (vstart_on _ _ _ O' S) as (LV & _). rewrite LV, orb_true_r. cbn [negb]. destruct (arg_complete t a _ p fuel A O) as (q & Q & O2); [do 2 eexists; split; [reflexivity|lia]|lia|]. rewrite Q. cbn [bind]. exists q. assert (E : fst q = 41) by apply O2. rewrite E. auto.
  - rewrite app_length in L. cbn in L. rewrite <- app_assoc in O. cbn [app] in O. destruct (arg_start _ _ A) as (k & l2 & Et & S). pose proof O as O'. rewrite Et in O'. destruct (vstart_on _ _ _ O' S) as (LV & _). rewrite LV, orb_true_r. cbn [negb]. destruct (arg_complete t a _ p fuel A O) as (q & Q & O2); [do 2 eexists; split; [reflexivity|lia]|lia|]. rewrite Q. cbn [bind]. assert (E : fst q = 44) by apply O2. rewrite E. cbn [Z.eqb Pos.eqb]. destruct (expect_err_yes fuel _ _ _ O2 ltac:(lia)) as (q2 & Q2 & O3). rewrite Q2. cbn [bind]. destruct (IH r q2 fuel O3 ltac:(lia)) as (q3 & Q3 & O4). rewrite Q3. exists q3. auto.
Qed.
Lemma mods_complete t b : mods t b -> forall f r p m fuel, on (t ++ TId f :: r) p -> (length t + B + 3 <= fuel)%nat -> exists q, pmod fuel m p = Ok (Z.lor m b, q) /\ on (TId f :: r) q.
Proof.
  induction 1 as [|c b t m' I H IH]; intros f r p m [|fuel] O L; try lia; cbn [parse_modifier].
  - assert (E : fst p = T_ID) by apply O. exists p. rewrite E. cbn. rewrite Z.lor_0_r. auto.
  - cbn in L. cbn [app] in O. destruct (on_punct fuel _ _ _ O ltac:(lia)) as (q & Q & O2 & E). assert (M : mod_bits (fst p) = Some b) by (rewrite E; cbn [In] in I; destruct I as [I|[I|[I|[I|[]]]]]; inversion I; reflexivity). rewrite M, Q. cbn [bind]. destruct (IH f r q (Z.lor m b) fuel O2 ltac:(lia)) as (q2 & Q2 & O3). exists q2. rewrite Q2. now rewrite Z.lor_assoc.
Qed.
Lemma mods_start t b k l : mods t b -> t = k :: l -> exists c, k = TP c /\ (c = 33 \/ c = 42 \/ c = 37 \/ c = 35).
Proof. intros [|c b' t' m I H] Q; [discriminate|]. inversion Q; subst. exists c. split; [auto|]. cbn [In] in I. destruct I as [I|[I|[I|[I|[]]]]]; inversion I; auto. Qed.
Lemma itm_start t l : itm strtod t l -> exists k u, t = k :: u /\ ((exists s, k = TId s /\ ~ In s keywords) \/ (exists c, k = TP c /\ (c = 59 \/ c = 123 \/ c = 33 \/ c = 42 \/ c = 37 \/ c = 35))).
Proof.
  intros [|t' l' H|m b f t' a u l' M K A C]; [do 2 eexists; split; [reflexivity|right; eauto]|do 2 eexists; split; [reflexivity|right; eauto]|]. destruct m as [|k m]; [cbn; do 2 eexists; split; [reflexivity|left; eauto]|]. cbn. do 2 eexists. split; [reflexivity|]. right. destruct (mods_start _ _ _ _ M eq_refl) as (c & -> & Hc). exists c. split; [auto|]. lia.
Qed.
Lemma itm_on t l r p : itm strtod t l -> on (t ++ r) p -> csieve p = p /\ looking_at_stmt_item copy p = true /\ is_key (fst p) = false /\ fst p <> K_INCLUDE /\ fst p <> K_USE.
Proof.
  intros I O. destruct (itm_start _ _ I) as (k & u & -> & [(s & -> & N)|(c & -> & C)]); cbn [app on] in O; destruct p as (t, q); cbn [fst snd] in O.
  - destruct O as (-> & X & _). unfold sieve. cbn [Z.eqb T_ID Pos.eqb text copying]. rewrite X. destruct (sieve_cases s) as [(K & _)|(_ & ->)]; [tauto|]. repeat split; discriminate.
  - destruct O as (-> & _ & _). unfold sieve, looking_at_stmt_item, looking_at_modifier, is_key. cbn [fst]. destruct C as [-> | [-> | [-> | [-> | [-> | ->]]]]]; repeat split; try reflexivity; discriminate.
Qed.
Definition tail (fuel : nat) (f : option (list Z)) (a : list (arg (list Z) F)) (m : Z) (p : pst) : res (item (list Z) F * pst) :=
  if fst p =? 123 then
    do (ok, p) <- cexpect fuel 123 p;
    do (b, p) <- pitems fuel p;
    do p <- cexpect_err fuel 125 p;
    Ok (Item f a b m, p)
  else do (b, p) <- ppush fuel p; Ok (Item f a b m, p).
Scheme itm_mut := Induction for itm Sort Prop with calls_mut := Induction for calls Sort Prop with itms_mut := Induction for itms Sort Prop.
Combined Scheme itm_all_ind from itm_mut, calls_mut, itms_mut.
Definition closed (r : list tok) : Prop := r = [] \/ exists l, r = TP 125 :: l.
Lemma item_complete :
  (forall t l, itm strtod t l -> forall r p fuel, on (t ++ r) p -> (3 * length t + B + 5 <= fuel)%nat -> exists q, ppush fuel p = Ok (l, q) /\ on r q) /\
  (forall t l, calls strtod t l -> forall r p fuel f a m, on (t ++ r) p -> (3 * length t + B + 5 <= fuel)%nat -> exists q, tail fuel f a m p = Ok (Item f a l m, q) /\ on r q) /\
  (forall t l, itms strtod t l -> forall r p fuel, on (t ++ r) p -> closed r -> (3 * length t + B + 6 <= fuel)%nat -> exists q, pitems fuel p = Ok (l, q) /\ on r q).
Proof.
  apply itm_all_ind.
  - intros r p [|fuel] O L; [lia|]. cbn in L. cbn [app] in O. destruct (expect_yes fuel _ _ _ O ltac:(lia)) as (q & Q & O2). exists q. rewrite ppush_S. rewrite Q. auto.
  - intros t l H IH r p fuel O L. pose proof (itm_on _ _ _ _ (i_group strtod t l H) O) as (S & _ & _ & NI & _). destruct fuel as [|[|fuel]]; [lia|lia|]. rewrite ppush_S. cbn [app length] in O, L. rewrite app_length in L. cbn in L. rewrite <- app_assoc in O. cbn [app] in O. assert (E : fst p = 123) by apply O. rewrite expect_no by lia. cbn [bind]. rewrite S. replace (fst p =? K_INCLUDE) with false by lia. rewrite pitem_S. rewrite E. cbn [Z.eqb Pos.eqb bind]. rewrite E. cbn [Z.eqb Pos.eqb].
    destruct (expect_yes fuel _ _ _ O ltac:(lia)) as (q & Q & O2). rewrite Q. cbn [bind]. destruct (IH (TP 125 :: r) q fuel O2 ltac:(right; eauto) ltac:(lia)) as (q2 & Q2 & O3). rewrite Q2. cbn [bind]. destruct (expect_err_yes fuel _ _ _ O3 ltac:(lia)) as (q3 & Q3 & O4). rewrite Q3. cbn [bind]. exists q3. auto.
  - intros m b f t a u l M K A C IH r p fuel O L. pose proof (itm_on _ _ _ _ (i_call strtod m b f t a u l M K A C) O) as (S & _ & _ & NI & _). destruct fuel as [|[|fuel]]; [lia|lia|]. rewrite ppush_S. rewrite app_length in L. cbn in L. rewrite app_length in L. cbn in L. rewrite <- app_assoc in O. cbn [app] in O. rewrite <- app_assoc in O. cbn [app] in O.
    assert (E : fst p <> 59 /\ fst p <> 123). { destruct m as [|k m]; [cbn in O; destruct O as (-> & _); split; discriminate|]. destruct (mods_start _ _ _ _ M eq_refl) as (c & -> & Hc). cbn in O. destruct O as (-> & _). lia. }
    rewrite expect_no by lia. cbn [bind]. rewrite S. replace (fst p =? K_INCLUDE) with false by lia. rewrite pitem_S. replace (fst p =? 123) with false by lia. destruct (mods_complete _ _ M f _ p 0 fuel O ltac:(lia)) as (p1 & Q1 & O1). rewrite Q1. cbn [bind]. assert (E1 : fst p1 = T_ID) by apply O1. assert (X1 : c_txt (snd p1) = f) by apply O1. cbn zeta.
    destruct (on_next fuel _ _ _ O1 I ltac:(lia)) as (p2 & Q2 & O2). unfold expect_err at 1. unfold expect at 1. rewrite E1. cbn [Z.eqb T_ID Pos.eqb]. rewrite Q2. cbn [bind]. destruct (expect_err_yes fuel _ _ _ O2 ltac:(lia)) as (p3 & Q3 & O3). rewrite Q3. cbn [bind]. destruct (args_complete _ _ A _ p3 fuel O3 ltac:(lia)) as (p4 & Q4 & O4). rewrite Q4. cbn [bind]. destruct (expect_err_yes fuel _ _ _ O4 ltac:(lia)) as (p5 & Q5 & O5). rewrite Q5. cbn [bind word copying]. rewrite X1, Z.lor_0_l.
    destruct (IH r p5 fuel (Some f) a b O5 ltac:(lia)) as (p6 & Q6 & O6). unfold tail in Q6. rewrite Q6. cbn [bind]. exists p6. auto.
  - intros t l H IH r p fuel f a m O L. cbn [app length] in O, L. rewrite app_length in L. cbn in L. rewrite <- app_assoc in O. cbn [app] in O. assert (E : fst p = 123) by apply O. unfold tail. rewrite E. cbn [Z.eqb Pos.eqb]. destruct (expect_yes fuel _ _ _ O ltac:(lia)) as (q & Q & O2). rewrite Q. cbn [bind]. destruct (IH (TP 125 :: r) q fuel O2 ltac:(right; eauto) ltac:(lia)) as (q2 & Q2 & O3). rewrite Q2. cbn [bind]. destruct (expect_err_yes fuel _ _ _ O3 ltac:(lia)) as (q3 & Q3 & O4). rewrite Q3. cbn [bind]. exists q3. auto.
  - intros t l H IH N r p fuel f a m O L. assert (E : fst p <> 123). { destruct (itm_start _ _ H) as (k & u & -> & [(s & -> & _)|(c & -> & C)]); cbn in O, N; destruct O as (-> & _); [discriminate|]. intros ->. now apply N. } unfold tail. replace (fst p =? 123) with false by lia. destruct (IH r p fuel O L) as (q & Q & O2). rewrite Q. exists q. auto.
  - intros r p [|fuel] O Cl L; [lia|]. rewrite pitems_S. cbn [app] in *. cbn zeta. assert (E : csieve p = p /\ looking_at_stmt_item copy p = false). { destruct p as (t, c). destruct Cl as [->|(l & ->)]; cbn in O; [rewrite O|destruct O as (-> & _)]; split; reflexivity. } destruct E as (-> & ->). cbn. eauto.
  - intros t l u r' H IH Hs IHs r p [|fuel] O Cl L; [lia|]. rewrite app_length in L. rewrite <- app_assoc in O. rewrite pitems_S. cbn zeta. pose proof (itm_on _ _ _ _ H O) as (S & LA & _). rewrite S, LA. cbn [negb]. destruct (itm_start _ _ H) as (k & u0 & Et & _). assert (Lt : (1 <= length t)%nat) by (rewrite Et; cbn; lia).
    destruct (IH _ p fuel O ltac:(lia)) as (q & Q & O2). rewrite Q. cbn [bind]. destruct (IHs r q fuel O2 Cl ltac:(lia)) as (q2 & Q2 & O3). rewrite Q2. exists q2. auto.
Qed.
Lemma stmts_complete t l : program strtod t l -> forall p fuel, on t p -> (3 * length t + B + 6 <= fuel)%nat -> exists q, pstmts fuel p = Ok (l, q) /\ fst q = T_EOF.
Proof.
  induction 1 as [|s t l H IH|t l u r I H IH]; intros p [|fuel] O L; try lia; cbn [parse_stmts]; cbn zeta.
  - destruct p as (t, c). cbn in O. subst t. cbn. eauto.
  - cbn in L. destruct p as (t0, c). cbn [on fst snd] in O. destruct O as (-> & X & R). unfold sieve. cbn [Z.eqb T_ID Pos.eqb text copying]. rewrite X. change (sieve_id s_use) with K_USE. cbn [fst]. replace (negb _) with false by reflexivity. cbn [Z.eqb K_USE Pos.eqb].
    destruct (go fuel _ K_USE c R ltac:(discriminate) ltac:(lia)) as (p1 & Q1 & O1). unfold parse_use, expect at 1. cbn [fst Z.eqb K_USE Pos.eqb]. change 514 with K_USE. rewrite Q1. cbn [bind negb]. destruct p1 as (t1, c1). cbn [on fst snd] in O1. destruct O1 as (-> & D1 & r & Er & N62 & N0 & P & Lr & LB). unfold tok_path. cbn [Z.eqb Pos.eqb negb]. rewrite (path_loop_eq s N62 N0 r) by (auto; lia). cbn [bind negb cut copying step]. rewrite (step_eq 62 r) by reflexivity. cbn [bind].
    unfold expect at 1. cbn [fst Z.eqb T_PATH Pos.eqb]. destruct (go fuel t T_PATH (adv [62] r (mk_copy (c_rest (adv s (62 :: r) (mark copying c1))) true (c_acc (adv s (62 :: r) (mark copying c1))) (rev (c_acc (adv s (62 :: r) (mark copying c1)))))) ltac:(unfold ready, len; cbn; repeat split; auto; try discriminate; lia) ltac:(discriminate) ltac:(lia)) as (p2 & Q2 & O2). change 262 with T_PATH. rewrite Q2. cbn [bind]. destruct (IH p2 fuel O2 ltac:(lia)) as (q & Q & E). rewrite Q. cbn [bind]. exists q. cbn [word copying snd adv c_txt mark c_acc]. rewrite app_nil_r, rev_involutive. auto.
  - pose proof (itm_on _ _ _ _ I O) as (S & LA & K & _ & NU). rewrite S, LA, K. cbn [orb negb]. replace (fst p =? K_USE) with false by lia. rewrite app_length in L. destruct (itm_start _ _ I) as (k & u0 & Et & _). assert (Lt : (1 <= length t)%nat) by (rewrite Et; cbn; lia). destruct (proj1 item_complete _ _ I _ p fuel O ltac:(lia)) as (q & Q & O2). rewrite Q. cbn [bind]. destruct (IH q fuel O2 ltac:(lia)) as (q2 & Q2 & E). rewrite Q2. exists q2. auto.
Qed.
End Complete.
Lemma lexes_length l toks : lexes l toks -> (length toks <= length l)%nat.
Proof.
  induction 1 as [w|w x r l Bw X H IH|w s r l Bw I Ar H IH|w s tx fl r l Bw I Ar H IH|w s r l Bw I H IH|w s r l Bw I H IH]; cbn; rewrite ?app_length; cbn; rewrite ?app_length; cbn; try lia.
  - destruct (ident_split s I) as (y & l2 & -> & _). cbn. lia.
  - destruct (number_start _ _ _ I) as (y & l2 & -> & _). cbn. lia.
Qed.
Lemma parse_complete {F} (strtod : list Z -> F) fuel file tree : posl file -> source strtod file tree -> (4 * length file + 10 <= fuel)%nat -> exists c, copy_parse strtod fuel file = Ok (tree, c).
Proof.
  intros P (toks & L & PR) Fu. pose proof (lexes_length _ _ L) as LT. unfold copy_parse, parse. destruct (go (length file) fuel toks 0 (mk_copy file false [] [])) as (q & Q & O); [unfold ready, len; cbn; repeat split; auto; discriminate|discriminate|lia|].
  rewrite Q. cbn [bind]. destruct (stmts_complete strtod (length file) _ _ PR q fuel O ltac:(lia)) as (q2 & Q2 & E). rewrite Q2. cbn [bind]. rewrite E. cbn. eauto.
Qed.
