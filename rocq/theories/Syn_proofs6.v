(** C35: soundness of the parser *)
From Coq Require Import ZArith Bool List Lia Arith ZifyBool.
From Verif Require Import Syn_model Syn_spec Syn_proofs3 Syn_proofs4 Syn_proofs5.
Import ListNotations.
Local Open Scope Z_scope.

(** ** Numbers *)
Lemma atoi_app s c : atoi (s ++ [c]) = 10 * atoi s + (c - 48).
Proof. unfold atoi. now rewrite fold_left_app. Qed.
Lemma dec_atoi s : digs s -> dec s (atoi s).
Proof.
  induction s as [|c s IH] using rev_ind; intros D; [constructor|]. apply Forall_app in D. destruct D as (D & C). inversion C; subst. rewrite atoi_app. constructor; auto.
Qed.
Lemma dec_inv s v : dec s v -> digs s /\ v = atoi s.
Proof. induction 1 as [|s c v H (D & ->) C]; [split; [constructor|reflexivity]|]. split; [apply Forall_app; split; auto; repeat constructor; auto|now rewrite atoi_app]. Qed.
Lemma clamp_eq v : clamp v = Z.max (- 2 ^ 63) (Z.min (2 ^ 63 - 1) v).
Proof. unfold clamp. destruct (v <? - 2 ^ 63) eqn:A; destruct (2 ^ 63 - 1 <? v) eqn:B; lia. Qed.
Definition inttxt (s : list Z) : Prop := exists d, digs d /\ (s = d \/ s = 45 :: d).
Lemma digs_strtoll d : digs d -> strtoll d = clamp (atoi d).
Proof.
  intros D. rewrite clamp_eq. unfold strtoll. destruct d as [|c d]; [reflexivity|]. inversion D as [|? ? C _]; subst. unfold dig in C. destruct c as [|p|p]; try reflexivity. do 6 (destruct p; try reflexivity); lia.
Qed.
Lemma strtoll_value s : inttxt s -> int_value s (strtoll s).
Proof.
  intros (d & D & [-> | ->]).
  - rewrite digs_strtoll by auto. constructor. now apply dec_atoi.
  - change (strtoll (45 :: d)) with (Z.max (- 2 ^ 63) (Z.min (2 ^ 63 - 1) (- atoi d))). rewrite <- clamp_eq. apply iv_minus. now apply dec_atoi.
Qed.
Lemma value_strtoll s n : int_value s n -> n = strtoll s.
Proof.
  intros [s' v D|s' v D]; apply dec_inv in D; destruct D as (D & ->); [now rewrite digs_strtoll|]. change (strtoll (45 :: s')) with (Z.max (- 2 ^ 63) (Z.min (2 ^ 63 - 1) (- atoi s'))). now rewrite <- clamp_eq.
Qed.
Lemma equ_true a b : equ a b = true <-> a = b. Proof. unfold equ. destruct (list_eq_dec _ a b); split; congruence. Qed.
Lemma number_int s t : number s t false -> inttxt t.
Proof.
  intros H. inversion H as [d f x D Hf Hx N E1 E2 E3|d f x D Hf Hx E1 E2 E3|d f x D Hf Hx E1 E2 E3]; subst; destruct (equ (f ++ x) []) eqn:Q; try discriminate; apply equ_true in Q; apply app_eq_nil in Q; destruct Q; subst; cbn; rewrite ?app_nil_r; exists d; auto.
Qed.

(** ** Invariant of the states *)
Definition good (p : pst) : Prop :=
  fst p = T_ERROR \/ (posl (c_rest (snd p)) /\ (fst p = T_INT -> inttxt (c_txt (snd p))) /\ (fst p = K_USE -> c_txt (snd p) = s_use) /\ fst p <> T_PATH /\ (fst p = 60 -> c_dirty (snd p) = false)).
Lemma next_good1 fuel t c q : posl (c_rest c) -> t <> T_ERROR -> cnext fuel (t, c) = Ok q -> good q.
Proof.
  intros P T N. destruct q as (t', c'). destruct (next_any _ _ _ _ _ N T P) as [E|(S & _)]; [now left|]. right. cbn [fst snd]. destruct S as [w r _ El S1|w b _ _ _ E0 Er].
  - rewrite El in P. apply posl_app in P. destruct P as (_ & P). inversion S1 as [c2 E1 E2|y r' c2 E1 X1 X2 X3 X4 X5 X6 R D|s r' c2 E1 I2 A R D Tx|s tx fl r' c2 E1 I2 R D Tx F|s r' c2 E1 I2 R D Tx]; subst.
    + rewrite E2. repeat split; try discriminate. intros x [].
    + split; [intros y Hy; apply P; now right|]. unfold T_INT, K_USE, T_PATH. repeat split; try lia.
    + apply posl_app in P. destruct P as (_ & P). repeat split; auto; discriminate.
    + apply posl_app in P. destruct P as (_ & P). destruct fl; repeat split; auto; try discriminate. intros _. eapply number_int; eauto.
    + repeat split; auto; try discriminate. intros x I. apply P. right. rewrite in_app_iff. right. now right.
  - subst t'. rewrite Er. repeat split; try discriminate. intros x [].
Qed.
Lemma next_good fuel p q : good p -> cnext fuel p = Ok q -> good q.
Proof.
  destruct p as (t, c). intros G N. destruct (Z.eq_dec t T_ERROR) as [->|T]; [apply next_error in N; subst; now left|]. destruct G as [G|(P & _)]; [cbn in G; tauto|]. eapply next_good1; eauto.
Qed.
Lemma sieve_cases s : (In s keywords /\ idset (sieve_id s) /\ sieve_id s <> T_ID /\ (sieve_id s = K_USE -> s = s_use)) \/ (~ In s keywords /\ sieve_id s = T_ID).
Proof.
  unfold sieve_id, equ, keywords, idset. cbn [In]. repeat match goal with |- context [list_eq_dec Z.eq_dec s ?x] => destruct (list_eq_dec Z.eq_dec s x) as [->|]; [left; cbn; unfold s_use; repeat split; try discriminate; tauto|] end.
  right. split; [intros [Q|[Q|[Q|[Q|[]]]]]; unfold s_use in *; congruence|auto].
Qed.
Notation csieve := (sieve copy (list Z) copying).
Definition sieved (p : pst) : Prop := fst p = T_ID -> ~ In (c_txt (snd p)) keywords.
Lemma sieve_ok p : good p -> peq p (csieve p) /\ good (csieve p) /\ sieved (csieve p).
Proof.
  destruct p as (t, c). intros G. unfold sieve. destruct (t =? T_ID) eqn:E; [|split; [apply peq_refl|split; [auto|unfold sieved; cbn; lia]]]. replace t with T_ID in * by lia. cbn [text copying].
  destruct G as [G|(P & _)]; [discriminate|]. destruct (sieve_cases (c_txt c)) as [(K & I & N & U)|(K & ->)].
  - split; [split; [auto|right; cbn; split; [now left|auto]]|]. split; [|unfold sieved; cbn; congruence]. right. cbn [fst snd] in *. repeat split; auto; intros Q; try (apply idset_ne in I; unfold T_PATH, idset, T_INT, T_ID, K_INCLUDE, K_USE, K_MODULE, K_FUNCTION in *; lia).
    unfold idset, T_PATH, T_ID, K_INCLUDE, K_USE, K_MODULE, K_FUNCTION in *; lia.
  - split; [apply peq_refl|]. split; [right; cbn [fst snd] in *; repeat split; auto; discriminate|unfold sieved; auto].
Qed.
Notation cexpect := (expect copy (list Z) copying). Notation cexpect_err := (expect_err copy (list Z) copying).
Lemma expect_true fuel t p q : cexpect fuel t p = Ok (true, q) -> fst p = t /\ cnext fuel p = Ok q.
Proof. unfold expect. destruct (fst p =? t) eqn:E; [|discriminate]. destruct (cnext fuel p) eqn:N; cbn; try discriminate. intros H. inversion H; subst. split; [lia|auto]. Qed.
Lemma expect_false fuel t p q : cexpect fuel t p = Ok (false, q) -> q = p /\ fst p <> t.
Proof. unfold expect. destruct (fst p =? t) eqn:E; [destruct (cnext fuel p) eqn:N; cbn; discriminate|]. intros H. inversion H; subst. split; [auto|lia]. Qed.
Lemma expect_err_ok fuel t p q : cexpect_err fuel t p = Ok q -> fst p = t /\ cnext fuel p = Ok q.
Proof. unfold expect_err. destruct (cexpect fuel t p) as [(b, q')| | | |] eqn:E; cbn [bind]; try discriminate. destruct b; [|discriminate]. intros H. inversion H; subst. now apply expect_true in E. Qed.

Ltac binv H y E := match type of H with bind ?x _ = Ok _ => destruct x as [y| | | |] eqn:E; cbn [bind] in H; try discriminate end.
Ltac pu := unfold punct; cbn [In]; tauto.
Section Sound.
Context {F : Type}.
Variable strtod : list Z -> F.
Notation pvalue := (parse_value copy (list Z) F copying strtod). Notation pelems := (parse_elems copy (list Z) F copying strtod).
Notation pargs := (parse_args copy (list Z) F copying strtod). Notation parg := (parse_arg copy (list Z) F copying strtod).
Notation pmod := (parse_modifier copy (list Z) copying).
Notation pitem := (parse_item copy (list Z) F copying strtod). Notation ppush := (push_item copy (list Z) F copying strtod). Notation pitems := (parse_items copy (list Z) F copying strtod).
Notation pstmts := (parse_stmts copy (list Z) F copying strtod). Notation puse := (parse_use copy (list Z) F copying).

Lemma value_sound fuel :
  (forall p v q, good p -> pvalue fuel p = Ok (v, q) -> exists t, takes p t q /\ val strtod t v /\ good q) /\
  (forall p l q, good p -> pelems fuel p = Ok (l, q) -> exists t, takes p t q /\ good q /\ forall t0 v0, val strtod t0 v0 -> vals strtod (t0 ++ t) (v0 :: l)).
Proof.
  induction fuel as [|fuel (IHv & IHe)]; [split; intros; discriminate|]. split.
  - intros p v q G H. cbn [parse_value] in H. destruct p as (t, s). destruct (t =? T_INT) eqn:C1.
    { binv H p1 E. inversion H; subst. exists [TInt (c_txt s)]. split; [apply takes_one; apply (t1_next _ _ _ fuel); auto; apply (to_int (t, s)); cbn; lia|]. split; [|eapply next_good; eauto]. constructor. apply strtoll_value. destruct G as [G|(_ & G & _)]; cbn in G; [unfold T_INT, T_ERROR in *; lia|]. apply G. lia. }
    destruct (t =? T_FLOAT) eqn:C2.
    { binv H p1 E. inversion H; subst. exists [TFloat (c_txt s)]. split; [apply takes_one; apply (t1_next _ _ _ fuel); auto; apply (to_float (t, s)); cbn; lia|]. split; [|eapply next_good; eauto]. constructor. }
    destruct (t =? T_STRING) eqn:C3.
    { binv H p1 E. inversion H; subst. exists [TStr (c_txt s)]. split; [apply takes_one; apply (t1_next _ _ _ fuel); auto; apply (to_str (t, s)); cbn; lia|]. split; [|eapply next_good; eauto]. constructor. }
    destruct (t =? T_ID) eqn:C4.
    { binv H p1 E. inversion H; subst. exists [TId (c_txt s)]. split; [apply takes_one; apply (t1_next _ _ _ fuel); auto; apply (to_id (t, s)); left; cbn; lia|]. split; [|eapply next_good; eauto]. constructor. }
    destruct (t =? 91) eqn:C5; [|discriminate]. binv H p1 E1. assert (T1 : takes (t, s) [TP 91] p1) by (eapply punct_takes; eauto; [cbn; lia|pu]). pose proof (next_good _ _ _ G E1) as G1.
    binv H y E2. destruct y as (e, p2). destruct e.
    { inversion H; subst. apply expect_true in E2. destruct E2 as (E2 & N2). exists [TP 91; TP 93]. split; [apply (takes_app _ [TP 91] p1 [TP 93]); auto; eapply punct_takes; eauto; pu|]. split; [constructor|eapply next_good; eauto]. }
    apply expect_false in E2. destruct E2 as (-> & _). binv H y E3. destruct y as (v1, p3). destruct (IHv _ _ _ G1 E3) as (t3 & T3 & V3 & G3). binv H y E4. destruct y as (r, p4). destruct r.
    + apply expect_true in E4. destruct E4 as (E4 & N4). pose proof (next_good _ _ _ G3 N4) as G4. assert (T4 : takes p3 [TP 58] p4) by (eapply punct_takes; eauto; pu). binv H y E5. destruct y as (v5, p5). destruct (IHv _ _ _ G4 E5) as (t5 & T5 & V5 & G5). binv H y E6. destruct y as (r, p6). destruct r.
      * apply expect_true in E6. destruct E6 as (E6 & N6). pose proof (next_good _ _ _ G5 N6) as G6. assert (T6 : takes p5 [TP 58] p6) by (eapply punct_takes; eauto; pu). binv H y E7. destruct y as (v7, p7). destruct (IHv _ _ _ G6 E7) as (t7 & T7 & V7 & G7). binv H p8 E8. inversion H; subst. apply expect_err_ok in E8. destruct E8 as (E8 & N8).
        exists (TP 91 :: t3 ++ TP 58 :: t5 ++ TP 58 :: t7 ++ [TP 93]). split; [|split; [now constructor|eapply next_good; eauto]].
        apply (takes_app _ [TP 91] p1); auto. apply (takes_app _ t3 p3); auto. apply (takes_app _ [TP 58] p4); auto. apply (takes_app _ t5 p5); auto. apply (takes_app _ [TP 58] p6); auto. apply (takes_app _ t7 p7); auto. eapply punct_takes; eauto; pu.
      * apply expect_false in E6. destruct E6 as (-> & _). binv H p8 E8. inversion H; subst. apply expect_err_ok in E8. destruct E8 as (E8 & N8).
        exists (TP 91 :: t3 ++ TP 58 :: t5 ++ [TP 93]). split; [|split; [now constructor|eapply next_good; eauto]].
        apply (takes_app _ [TP 91] p1); auto. apply (takes_app _ t3 p3); auto. apply (takes_app _ [TP 58] p4); auto. apply (takes_app _ t5 p5); auto. eapply punct_takes; eauto; pu.
    + apply expect_false in E4. destruct E4 as (-> & _). binv H y E5. destruct y as (l, p5). destruct (IHe _ _ _ G3 E5) as (t5 & T5 & G5 & V5). binv H p8 E8. inversion H; subst. apply expect_err_ok in E8. destruct E8 as (E8 & N8).
      exists (TP 91 :: (t3 ++ t5) ++ [TP 93]). split; [|split; [constructor; auto|eapply next_good; eauto]].
      rewrite <- app_assoc. apply (takes_app _ [TP 91] p1); auto. apply (takes_app _ t3 p3); auto. apply (takes_app _ t5 p5); auto. eapply punct_takes; eauto; pu.
  - intros p l q G H. cbn [parse_elems] in H. binv H y E1. destruct y as (e, p1). destruct e; cbn [andb] in H.
    + apply expect_true in E1. destruct E1 as (E1 & N1). pose proof (next_good _ _ _ G N1) as G1. assert (T1 : takes p [TP 44] p1) by (eapply punct_takes; eauto; pu). destruct (looking_at_value copy p1) eqn:L.
      * binv H y E3. destruct y as (v3, p3). destruct (IHv _ _ _ G1 E3) as (t3 & T3 & V3 & G3). binv H y E4. destruct y as (l4, p4). destruct (IHe _ _ _ G3 E4) as (t4 & T4 & G4 & V4). inversion H; subst. exists (TP 44 :: t3 ++ t4). split; [apply (takes_app _ [TP 44] p1); auto; apply (takes_app _ t3 p3); auto|]. split; [auto|]. intros t0 v0 V0. apply vs_cons; auto.
      * inversion H; subst. exists [TP 44]. split; [auto|]. split; [auto|]. intros. now constructor.
    + apply expect_false in E1. destruct E1 as (-> & _). inversion H; subst. exists []. split; [apply takes_refl|]. split; [auto|]. intros. rewrite app_nil_r. now constructor.
Qed.
Lemma arg_sound fuel p a q : good p -> parg fuel p = Ok (a, q) -> exists t, takes p t q /\ argument strtod t a /\ good q.
Proof.
  intros G H. unfold parse_arg in H. destruct (fst p =? T_ID) eqn:C.
  - binv H p1 E1. pose proof (next_good _ _ _ G E1) as G1. assert (T1 : takes p [TId (c_txt (snd p))] p1) by (apply takes_one; apply (t1_next _ _ _ fuel); auto; apply to_id; left; lia). binv H y E2. destruct y as (e, p2). destruct e.
    + apply expect_true in E2. destruct E2 as (E2 & N2). pose proof (next_good _ _ _ G1 N2) as G2. assert (T2 : takes p1 [TP 61] p2) by (eapply punct_takes; eauto; pu). binv H y E3. destruct y as (v, p3). inversion H; subst. destruct (proj1 (value_sound fuel) _ _ _ G2 E3) as (t & T & V & G3). exists (TId (c_txt (snd p)) :: TP 61 :: t). split; [|split; [now constructor|auto]]. apply (takes_app _ [TId (c_txt (snd p))] p1); auto. apply (takes_app _ [TP 61] p2); auto.
    + apply expect_false in E2. destruct E2 as (-> & _). inversion H; subst. eexists. split; [exact T1|]. split; [|auto]. constructor. constructor.
  - binv H y E3. destruct y as (v, p3). inversion H; subst. destruct (proj1 (value_sound fuel) _ _ _ G E3) as (t & T & V & G3). exists t. split; [auto|]. split; [now constructor|auto].
Qed.
Lemma args_sound fuel : forall p l q, good p -> pargs fuel p = Ok (l, q) -> exists t, takes p t q /\ arguments strtod t l /\ good q.
Proof.
  induction fuel as [|fuel IH]; intros p l q G H; [discriminate|]. cbn [parse_args] in H. destruct (negb _).
  { inversion H; subst. exists []. split; [apply takes_refl|]. split; [constructor|auto]. }
  binv H y E1. destruct y as (a, p1). destruct (arg_sound _ _ _ _ G E1) as (t1 & T1 & A1 & G1). destruct (fst p1 =? 41). { inversion H; subst. exists t1. split; [auto|]. split; [now constructor|auto]. }
  binv H p2 E2. apply expect_err_ok in E2. destruct E2 as (E2 & N2). pose proof (next_good _ _ _ G1 N2) as G2. assert (T2 : takes p1 [TP 44] p2) by (eapply punct_takes; eauto; pu). binv H y E3. destruct y as (l3, p3). inversion H; subst. destruct (IH _ _ _ G2 E3) as (t3 & T3 & A3 & G3).
  exists (t1 ++ TP 44 :: t3). split; [|split; [now constructor|auto]]. apply (takes_app _ t1 p1); auto. apply (takes_app _ [TP 44] p2); auto.
Qed.
Lemma mod_sound fuel : forall m p m' q, good p -> pmod fuel m p = Ok (m', q) -> exists t b, takes p t q /\ mods t b /\ m' = Z.lor m b /\ good q /\ (t = [] -> q = p) /\ (forall c l, t = TP c :: l -> c <> 123).
Proof.
  induction fuel as [|fuel IH]; intros m p m' q G H; [discriminate|]. cbn [parse_modifier] in H. destruct (mod_bits (fst p)) as [b|] eqn:M.
  - binv H p1 E1. pose proof (next_good _ _ _ G E1) as G1. destruct (IH _ _ _ _ G1 H) as (t & b' & T & B & -> & G2 & _ & _). exists (TP (fst p) :: t), (Z.lor b b').
    assert (I : In (fst p, b) [(33, 68); (42, 130); (37, 35); (35, 17)]). { unfold mod_bits in M. cbn [In]. destruct (fst p =? 33) eqn:?; [inversion M; left; f_equal; lia|]. destruct (fst p =? 42) eqn:?; [inversion M; right; left; f_equal; lia|]. destruct (fst p =? 37) eqn:?; [inversion M; right; right; left; f_equal; lia|]. destruct (fst p =? 35) eqn:?; [inversion M; right; right; right; left; f_equal; lia|]. discriminate. }
    assert (K : fst p = 33 \/ fst p = 42 \/ fst p = 37 \/ fst p = 35) by (cbn [In] in I; destruct I as [I|[I|[I|[I|[]]]]]; inversion I; auto).
    split; [apply (takes_app _ [TP (fst p)] p1); auto; eapply punct_takes; eauto; unfold punct; cbn [In]; lia|]. split; [now constructor|]. split; [now rewrite Z.lor_assoc|]. split; [auto|]. split; [discriminate|]. intros c l Q. inversion Q; subst. lia.
  - inversion H; subst. exists [], 0. split; [apply takes_refl|]. split; [constructor|]. split; [now rewrite Z.lor_0_r|]. split; [auto|]. split; [auto|]. discriminate.
Qed.
Lemma item_sound fuel :
  (forall p i q, good p -> sieved p -> pitem fuel p = Ok (i, q) -> exists t, takes p t q /\ itm strtod t [i] /\ good q /\ (fst p <> 123 -> hd (TP 59) t <> TP 123)) /\
  (forall p l q, good p -> ppush fuel p = Ok (l, q) -> exists t, takes p t q /\ itm strtod t l /\ good q /\ (fst p <> 123 -> hd (TP 59) t <> TP 123)) /\
  (forall p l q, good p -> pitems fuel p = Ok (l, q) -> exists t, takes p t q /\ itms strtod t l /\ good q).
Proof.
  induction fuel as [|fuel (IHi & IHp & IHl)]; [repeat split; intros; discriminate|]. split; [|split].
  - intros p i q G S H. cbn [parse_item] in H. destruct (fst p =? 123) eqn:C.
    + cbn [bind] in H. rewrite C in H. binv H y E1. destruct y as (ok, p1). unfold expect in E1. rewrite C in E1. binv E1 p1' N1. inversion E1; subst. pose proof (next_good _ _ _ G N1) as G1. assert (T1 : takes p [TP 123] p1) by (eapply punct_takes; eauto; [lia|pu]). clear E1.
      binv H y E2. destruct y as (b, p2). destruct (IHl _ _ _ G1 E2) as (t2 & T2 & L2 & G2). binv H p3 E3. apply expect_err_ok in E3. destruct E3 as (E3 & N3). inversion H; subst. exists (TP 123 :: t2 ++ [TP 125]). split; [|split; [now constructor|split; [eapply next_good; eauto|lia]]].
      apply (takes_app _ [TP 123] p1); auto. apply (takes_app _ t2 p2); auto. eapply punct_takes; eauto; pu.
    + binv H y E0. destruct y as (((f, a), m), p5). binv E0 y E1. destruct y as (m1, p1). destruct (mod_sound _ _ _ _ _ G E1) as (tm & b & Tm & Mm & -> & G1 & Em & Hm). cbn zeta in E0. binv E0 p2 E2. apply expect_err_ok in E2. destruct E2 as (E2 & N2). pose proof (next_good _ _ _ G1 N2) as G2. binv E0 p3 E3. apply expect_err_ok in E3. destruct E3 as (E3 & N3). pose proof (next_good _ _ _ G2 N3) as G3.
      binv E0 y E4. destruct y as (a4, p4). destruct (args_sound _ _ _ _ G3 E4) as (t4 & T4 & A4 & G4). binv E0 p5' E5. apply expect_err_ok in E5. destruct E5 as (E5 & N5). pose proof (next_good _ _ _ G4 N5) as G5. inversion E0; subst f a m p5'. clear E0.
      assert (T2 : takes p1 [TId (c_txt (snd p1))] p2) by (apply takes_one; apply (t1_next _ _ _ fuel); auto; apply to_id; left; auto). assert (T3 : takes p2 [TP 40] p3) by (eapply punct_takes; eauto; pu). assert (T5 : takes p4 [TP 41] p5) by (eapply punct_takes; eauto; pu).
      assert (TT : forall u z, takes p5 u z -> takes p (tm ++ TId (c_txt (snd p1)) :: TP 40 :: t4 ++ TP 41 :: u) z). { intros u z Tz. apply (takes_app _ tm p1); auto. apply (takes_app _ [TId (c_txt (snd p1))] p2); auto. apply (takes_app _ [TP 40] p3); auto. apply (takes_app _ t4 p4); auto. apply (takes_app _ [TP 41] p5); auto. }
      assert (KW : tm = [] -> ~ In (c_txt (snd p1)) keywords) by (intros Q; specialize (Em Q); subst p1; apply S; auto).
      assert (HD : forall u, hd (TP 59) (tm ++ TId (c_txt (snd p1)) :: TP 40 :: u) <> TP 123) by (intros u Q; destruct tm as [|k tm]; cbn in Q; [discriminate|]; subst k; eapply Hm; eauto).
      cbn [bind] in H. destruct (fst p5 =? 123) eqn:C5.
      * binv H y E6. destruct y as (ok, p6). unfold expect in E6. rewrite C5 in E6. binv E6 p6' N6. inversion E6; subst. clear E6. pose proof (next_good _ _ _ G5 N6) as G6. assert (T6 : takes p5 [TP 123] p6) by (eapply punct_takes; eauto; [lia|pu]).
        binv H y E7. destruct y as (l7, p7). destruct (IHl _ _ _ G6 E7) as (t7 & T7 & L7 & G7). binv H p8 E8. apply expect_err_ok in E8. destruct E8 as (E8 & N8). inversion H; subst. exists (tm ++ TId (c_txt (snd p1)) :: TP 40 :: t4 ++ TP 41 :: TP 123 :: t7 ++ [TP 125]). split; [|split; [|split; [eapply next_good; eauto|auto]]].
        -- apply TT. apply (takes_app _ [TP 123] p6); auto. apply (takes_app _ t7 p7); auto. eapply punct_takes; eauto; pu.
        -- apply i_call; auto. now constructor.
      * binv H y E6. destruct y as (l6, p6). destruct (IHp _ _ _ G5 E6) as (t6 & T6 & L6 & G6 & H6). inversion H; subst. exists (tm ++ TId (c_txt (snd p1)) :: TP 40 :: t4 ++ TP 41 :: t6). split; [auto|]. split; [|auto]. apply i_call; auto. apply ca_itm; auto. apply H6. lia.
  - intros p l q G H. cbn [push_item] in H. binv H y E1. destruct y as (ok, p1). destruct ok.
    + apply expect_true in E1. destruct E1 as (E1 & N1). inversion H; subst. exists [TP 59]. split; [eapply punct_takes; eauto; pu|]. split; [constructor|]. split; [eapply next_good; eauto|]. discriminate.
    + apply expect_false in E1. destruct E1 as (-> & _). cbn zeta in H. destruct (sieve_ok p G) as (P1 & G1 & S1). destruct (fst (csieve p) =? K_INCLUDE); [discriminate|]. binv H y E2. destruct y as (i, p2). inversion H; subst. destruct (IHi _ _ _ G1 S1 E2) as (t & T & I & G2 & HD). exists t. split; [eapply takes_peq; [apply peq_sym, P1|exact T]|]. split; [auto|]. split; [auto|]. intros N. apply HD. destruct P1 as (_ & [P1|(_ & P1)]); [congruence|]. apply idset_ne in P1. lia.
  - intros p l q G H. cbn [parse_items] in H. cbn zeta in H. destruct (sieve_ok p G) as (P1 & G1 & S1). destruct (negb _). { inversion H; subst. exists []. split; [now constructor|]. split; [constructor|auto]. }
    binv H y E1. destruct y as (l1, p1). destruct (IHp _ _ _ G1 E1) as (t1 & T1 & L1 & G2 & _). binv H y E2. destruct y as (r, p2). destruct (IHl _ _ _ G2 E2) as (t2 & T2 & L2 & G3). inversion H; subst. exists (t1 ++ t2). split; [eapply takes_peq; [apply peq_sym, P1|]; eapply takes_app; eauto|]. split; [now constructor|auto].
Qed.
Lemma use_sound fuel p u q : good p -> puse fuel p = Ok (u, q) -> exists s, u = SUse s /\ takes p [TId s_use; TPath s] q /\ good q.
Proof.
  intros G H. unfold parse_use in H. binv H y E1. destruct y as (ok, p1). destruct ok; [|discriminate]. cbn [negb] in H. apply expect_true in E1. destruct E1 as (E1 & N1). pose proof (next_good _ _ _ G N1) as G1. binv H p2 E2. cbn zeta in H. binv H y E3. destruct y as (ok, p3). destruct ok; [|discriminate]. apply expect_true in E3. destruct E3 as (E3 & N3). inversion H; subst. exists (c_txt (snd p2)).
  split; [reflexivity|]. assert (C : fst p1 = 60). { destruct (Z.eq_dec (fst p1) 60) as [C|C]; [auto|]. exfalso. unfold tok_path in E2. destruct p1 as (t1, c1). cbn in C. replace (negb (t1 =? 60)) with true in E2 by lia. inversion E2; subst p2. cbn in E3. destruct G1 as [G1|(_ & _ & _ & G1 & _)]; cbn in G1; [subst; discriminate|auto]. }
  split.
  - apply (takes_app _ [TId s_use] p1 [TPath (c_txt (snd p2))]); apply takes_one.
    + apply (t1_next _ _ _ fuel); auto. destruct G as [G|(_ & _ & U & _)]; [rewrite E1 in G; discriminate|]. rewrite <- (U E1). apply to_id. unfold idset. auto.
    + apply (t1_path _ _ _ fuel fuel p2); auto.
  - destruct G1 as [G1|(P1 & _ & _ & _ & D1)]; [rewrite C in G1; discriminate|]. destruct p1 as (t1, c1). cbn [fst snd] in *. subst t1. unfold tok_path in E2. cbn [Z.eqb Pos.eqb negb] in E2. binv E2 y PL. destruct y as (ok, c2). destruct ok; cbn [negb] in E2; [|inversion E2; subst; discriminate].
    destruct (path_loop_inv _ _ _ _ PL (D1 eq_refl) P1 eq_refl) as (s & r & Er & Ns & ->). cbn [c_rest mark copying] in Er. cbn [cut copying bind step] in E2. rewrite (step_eq 62 r) in E2 by reflexivity. inversion E2; subst p2. eapply next_good1; [| |exact N3]; [|discriminate]. cbn. rewrite Er in P1. apply posl_app in P1. destruct P1 as (_ & P1). intros x I. apply P1. now right.
Qed.
Lemma stmts_sound fuel : forall p l q, good p -> pstmts fuel p = Ok (l, q) -> fst q = T_EOF -> exists t, takes p t q /\ program strtod t l.
Proof.
  induction fuel as [|fuel IH]; intros p l q G H E; [discriminate|]. cbn [parse_stmts] in H. cbn zeta in H. destruct (sieve_ok p G) as (P1 & G1 & S1). destruct (negb _). { inversion H; subst. exists []. split; [now constructor|constructor]. }
  destruct (fst (csieve p) =? K_USE) eqn:C.
  - binv H y E1. destruct y as (u, p1). destruct (use_sound _ _ _ _ G1 E1) as (s & -> & T1 & G2). binv H y E2. destruct y as (r, p2). inversion H; subst. destruct (IH _ _ _ G2 E2 E) as (t & T & PR). exists ([TId s_use; TPath s] ++ t). split; [eapply takes_peq; [apply peq_sym, P1|]; eapply takes_app; eauto|]. now constructor.
  - destruct (is_key (fst (csieve p))) eqn:K. { inversion H; subst. rewrite E in K. discriminate. }
    binv H y E1. destruct y as (l1, p1). destruct (proj1 (proj2 (item_sound fuel)) _ _ _ G1 E1) as (t1 & T1 & L1 & G2 & _). binv H y E2. destruct y as (r, p2). inversion H; subst. destruct (IH _ _ _ G2 E2 E) as (t & T & PR). exists (t1 ++ t). split; [eapply takes_peq; [apply peq_sym, P1|]; eapply takes_app; eauto|]. now constructor.
Qed.
Lemma parse_sound fuel file tree c : posl file -> copy_parse strtod fuel file = Ok (tree, c) -> source strtod file tree.
Proof.
  intros P H. unfold copy_parse, parse in H. binv H p E1. binv H y E2. destruct y as (l, q). destruct (fst q =? T_EOF) eqn:C; [|discriminate]. inversion H; subst. assert (Q : fst q = T_EOF) by lia. assert (G : good p) by (eapply next_good1; [| |exact E1]; [exact P|discriminate]).
  destruct (stmts_sound _ _ _ _ G E2 Q) as (t & T & PR). exists t. split; [|auto]. destruct p as (t1, c1). destruct (next_any _ _ _ _ _ E1 ltac:(discriminate) P) as [S|(S & _)].
  - exfalso. destruct (takes_error _ _ _ T S) as (S2 & _). rewrite Q in S2. discriminate.
  - eapply takes_lexes; eauto.
Qed.
End Sound.
