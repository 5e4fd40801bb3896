(** The parser ends: the recursion is bounded by the length of the file *)
From Coq Require Import ZArith Bool List Lia Arith ZifyBool.
From Verif Require Import Utf8_model Xml_model Xml_spec Xml_proofs Xml_proofs2.
Import ListNotations.
Local Open Scope Z_scope.

Section End.
Variables (m0 : list Z) (e : nat).
Hypothesis L0 : length m0 = S e.
Hypothesis E0 : nth_error m0 e = Some 0.
Hypothesis B0 : bytes m0.
Definition good (p : state) : Prop := srel m0 e p p.
Definition adv (p q : state) : Prop := good q /\ (q = p \/ (loc p < loc q)%nat).
Lemma adv_refl p : good p -> adv p p.
Proof. split; auto. Qed.
Lemma adv_trans p q r : adv p q -> adv q r -> adv p r.
Proof. intros (A & B) (C & D). split; auto. destruct B as [->|B]; auto. destruct D as [->|D]; auto. right. lia. Qed.
Lemma adv_le p q : adv p q -> (loc p <= loc q)%nat.
Proof. intros (_ & [->|]); lia. Qed.
Definition ends {A} (P : A -> Prop) (x : xres A) : Prop := match x with Ok a => P a | NoFuel => False | _ => True end.
Lemma ends_bind {A B} (P : A -> Prop) (Q : B -> Prop) x f : ends P x -> (forall a, P a -> ends Q (f a)) -> ends Q (bind x f).
Proof. destruct x; cbn; auto. Qed.
Lemma ends_weak {A} (P Q : A -> Prop) x : ends P x -> (forall a, P a -> Q a) -> ends Q x.
Proof. destruct x; cbn; auto. Qed.
Lemma good_le p : good p -> (loc p <= e)%nat.
Proof. intros G. pose proof (loc_nxt m0 e L0 _ _ G). lia. Qed.
Lemma lex_fuel p : lex_next e p <> NoFuel.
Proof. unfold lex_next. destruct (decode _ _) as [(c, i)| |]; try discriminate. destruct (error i); discriminate. Qed.
Lemma lex_end p : good p -> ends (fun q => adv p q /\ (cur p <> 0 -> (loc p < loc q)%nat)) (lex_next e p).
Proof.
  intros G. pose proof (lex_sim m0 e L0 E0 B0 p p G) as H. pose proof (lex_fuel p) as NF. unfold orel in H. destruct (lex_next e p) as [q| | | | |]; cbn; try tauto. destruct H as (A & F & M & L).
  assert (Q : good q). { unfold good. destruct A as [A1 A2 A3 A4 A5 A6 A7 A8]. constructor; auto. }
  assert (N : cur p <> 0 -> (loc p < loc q)%nat). { intros N. pose proof (nonzero_adv m0 e L0 _ _ G N). lia. }
  split; [|exact N]. split; [exact Q|]. destruct (Z.eq_dec (cur p) 0) as [C|C]; [|right; auto]. left.
  destruct (s_char _ _ _ _ G) as [(_ & C2 & _ & C4)|(C1 & _)]; [|congruence]. destruct (s_char _ _ _ _ Q) as [(D1 & D2 & _)|(D1 & _ & _ & D4 & _ & D6)].
  - destruct p, q; cbn in *; congruence.
  - pose proof (clen4 m0 e L0 (cur q)). destruct (D6 (loc q) ltac:(lia)) as (b & Hb & Zb). rewrite L, <- C2 in Hb. congruence.
Qed.
Lemma same_refl p : same p p = true.
Proof. unfold same. now rewrite Z.eqb_refl, !Nat.eqb_refl. Qed.
Lemma adv_same p q : adv p q -> same p q = false -> (loc p < loc q)%nat.
Proof. intros (_ & [->|]); auto. now rewrite same_refl. Qed.

Lemma skip_space_end fuel : forall p, good p -> (e - loc p < fuel)%nat -> ends (adv p) (skip_space e fuel p).
Proof.
  induction fuel as [|fuel IH]; intros p G L; [lia|]. cbn. destruct (is_space (cur p)) eqn:C; [|now apply adv_refl].
  eapply ends_bind; [apply lex_end, G|]. intros q (A & N). specialize (N ltac:(intros Z; rewrite Z in C; discriminate)). eapply ends_weak; [apply IH; [apply A|pose proof (good_le q (proj1 A)); lia]|]. intros r. now apply adv_trans.
Qed.
Lemma expect_end s : forall p, good p -> Forall (fun c => c <> 0) s -> ends (fun q => adv p q /\ (s <> [] -> (loc p < loc q)%nat)) (expect e s p).
Proof.
  induction s as [|c s IH]; intros p G Z; cbn. { split; [now apply adv_refl|tauto]. }
  inversion Z; subst. destruct (cur p =? c) eqn:C; cbn; [|exact I]. eapply ends_bind; [apply lex_end, G|]. intros q (A & N). specialize (N ltac:(lia)). eapply ends_weak; [apply IH; [apply A|auto]|]. intros r (R & _).
  split; [eapply adv_trans; eauto|]. intros _. pose proof (adv_le _ _ R). lia.
Qed.
Lemma expect_adv s p : good p -> Forall (fun c => c <> 0) s -> ends (adv p) (expect e s p).
Proof. intros G Z. eapply ends_weak; [now apply expect_end|]. intros a H. apply H. Qed.
Lemma read_num_end fuel : forall base n p, good p -> base <= 16 -> (e - loc p < fuel)%nat -> ends (fun x => adv p (snd x)) (read_num e fuel base n p).
Proof.
  induction fuel as [|fuel IH]; intros base n p G B L; [lia|]. cbn. destruct (base <=? digit_val (cur p)) eqn:C; [now apply adv_refl|].
  eapply ends_bind; [apply lex_end, G|]. intros q (A & N). specialize (N ltac:(intros Z; rewrite Z in C; cbn in C; lia)). eapply ends_weak; [apply IH; [apply A|auto|pose proof (good_le q (proj1 A)); lia]|]. intros r. now apply adv_trans.
Qed.
Local Ltac fz := repeat constructor; discriminate.
Lemma entity_end fuel p : good p -> (e - loc p <= fuel)%nat -> cur p = 38 -> ends (fun x => adv p (snd x)) (entity e fuel p).
Proof.
  intros G L C. unfold entity. eapply ends_bind; [apply lex_end, G|]. intros q (A & N). specialize (N ltac:(lia)).
  eapply ends_bind with (P := fun x => adv p (snd x)).
  2: { intros (c, r) R. destruct (negb _); [exact I|exact R]. }
  assert (X : forall w c s, adv p s -> Forall (fun c => c <> 0) w -> ends (fun x : Z * state => adv p (snd x)) (do s <- expect e w s; Ok (c, s))).
  { intros w c s S Z. eapply ends_bind; [apply expect_adv; [apply S|exact Z]|]. intros r R. cbn. eapply adv_trans; eauto. }
  destruct (cur q =? 113); [apply X; [auto|fz]|]. destruct (cur q =? 108); [apply X; [auto|fz]|]. destruct (cur q =? 103); [apply X; [auto|fz]|].
  destruct (cur q =? 97). { eapply ends_bind; [apply lex_end, A|]. intros r (R & _). assert (adv p r) by (eapply adv_trans; eauto). destruct (cur r =? 109); apply X; auto; fz. }
  destruct (cur q =? 35) eqn:C5; [|exact I]. eapply ends_bind; [apply lex_end, A|]. intros r (R & NR). specialize (NR ltac:(lia)). assert (PR : adv p r) by (eapply adv_trans; eauto).
  assert (Y : forall base s, base <= 16 -> adv p s -> (loc q < loc s)%nat -> ends (fun x => adv p (snd x)) (read_num e fuel base 0 s)).
  { intros base s B S LS. pose proof (good_le s (proj1 S)). eapply ends_weak; [apply read_num_end; [apply S|auto|lia]|]. intros x X'. eapply adv_trans; eauto. }
  destruct (_ || _); [|apply Y; auto; lia]. eapply ends_bind; [apply lex_end, R|]. intros s (S & _). pose proof (adv_le _ _ S). apply Y; [lia|eapply adv_trans; eauto|lia].
Qed.
Lemma text_end fuel : forall delim p, good p -> (e - loc p < fuel)%nat -> ends (fun x => adv p (snd x) /\ (cur p <> delim -> cur p <> 60 -> cur p <> 0 -> (loc p < loc (snd x))%nat)) (c_text e fuel delim p).
Proof.
  induction fuel as [|fuel IH]; intros delim p G L; [lia|]. cbn [c_text]. destruct (_ || _) eqn:Stop. { cbn. split; [now apply adv_refl|lia]. }
  eapply ends_bind with (P := fun x => adv p (snd x) /\ (snd x = p \/ loc p < loc (snd x))%nat).
  { destruct (cur p =? 38) eqn:C; [|cbn; split; [now apply adv_refl|auto]]. eapply ends_weak; [apply entity_end; [auto|lia|lia]|]. intros x X. split; [auto|apply X]. }
  intros (c, q) (A & D). cbn [fst snd] in *. destruct (negb _); [exact I|]. destruct (encode 4 c); try exact I.
  eapply ends_bind; [apply lex_end, A|]. intros r (R & NR). assert (LR : (loc p < loc r)%nat). { pose proof (adv_le _ _ R). destruct D as [->|D]; [apply NR; lia|lia]. }
  pose proof (good_le r (proj1 R)). assert (PR : adv p r) by (eapply adv_trans; eauto). eapply ends_bind; [apply IH; [apply R|lia]|]. intros (t, s) (S & _). cbn in *. split; [eapply adv_trans; eauto|]. intros. pose proof (adv_le _ _ S). lia.
Qed.
Lemma tag_loop_end fuel : forall p, good p -> (e - loc p < fuel)%nat -> ends (adv p) (tag_loop e fuel p).
Proof.
  induction fuel as [|fuel IH]; intros p G L; [lia|]. cbn. destruct (is_tag_char (cur p)); [|now apply adv_refl]. eapply ends_bind; [apply lex_end, G|]. intros q (A & _). destruct (same p q) eqn:S; [exact I|].
  pose proof (adv_same _ _ A S). pose proof (good_le q (proj1 A)). eapply ends_weak; [apply IH; [apply A|lia]|]. intros r. now apply adv_trans.
Qed.
Lemma comment_end fuel : forall p, good p -> (e - loc p < fuel)%nat -> ends (adv p) (skip_comment e fuel p).
Proof.
  induction fuel as [|fuel IH]; intros p G L; [lia|]. cbn [skip_comment]. eapply ends_bind with (P := fun _ => True). { destruct (cur p =? 45); [|exact I]. unfold peek. destruct (nth_error (mem p) (nxt p)); exact I. }
  intros [|] _. { apply expect_adv; [auto|fz]. } eapply ends_bind; [apply lex_end, G|]. intros q (A & _). destruct (same p q) eqn:S; [exact I|].
  pose proof (adv_same _ _ A S). pose proof (good_le q (proj1 A)). eapply ends_weak; [apply IH; [apply A|lia]|]. intros r. now apply adv_trans.
Qed.
Lemma doctype_end fuel : forall p, good p -> (e - loc p < fuel)%nat -> ends (adv p) (doctype_loop e fuel p).
Proof.
  induction fuel as [|fuel IH]; intros p G L; [lia|]. cbn. destruct (cur p =? 62); [now apply adv_refl|]. destruct (cur p =? 0) eqn:C; [exact I|]. eapply ends_bind; [apply lex_end, G|]. intros q (A & N). specialize (N ltac:(lia)).
  pose proof (good_le q (proj1 A)). eapply ends_weak; [apply IH; [apply A|lia]|]. intros r. now apply adv_trans.
Qed.
Lemma tag_end fuel p : good p -> (e - loc p < fuel)%nat -> ends (fun x => adv p (snd x)) (c_tag e fuel p).
Proof.
  intros G L. unfold c_tag. eapply ends_bind with (P := adv p). { destruct (maybe_tag_begin _); [now apply tag_loop_end|now apply adv_refl]. } intros q A. exact A.
Qed.
Lemma name_end fuel p : good p -> (e - loc p < fuel)%nat -> ends (fun x => adv p (snd x)) (c_scoped_name e fuel p).
Proof.
  intros G L. unfold c_scoped_name. eapply ends_bind; [now apply tag_end|]. intros (n, q) A. cbn [snd] in A. destruct (cur q =? 58); [|exact A]. eapply ends_bind; [apply lex_end, A|]. intros r (R & _).
  assert (PR : adv p r) by (eapply adv_trans; eauto). pose proof (adv_le _ _ PR). eapply ends_bind; [apply tag_end; [apply R|lia]|]. intros (n', s) S. cbn in *. eapply adv_trans; eauto.
Qed.
Lemma attr_end fuel p : good p -> (e - loc p < fuel)%nat -> ends (fun x => adv p (snd x)) (c_attr e fuel p).
Proof.
  intros G L. unfold c_attr. eapply ends_bind; [now apply skip_space_end|]. intros q A. pose proof (adv_le _ _ A). destruct (_ || _); [exact A|].
  eapply ends_bind; [apply name_end; [apply A|lia]|]. intros ((n, n'), r) R. cbn [snd] in R. assert (PR : adv p r) by (eapply adv_trans; eauto). destruct (negb _); [exact PR|].
  eapply ends_bind; [apply lex_end, R|]. intros s (S & _). cbv zeta. destruct (_ && _); [exact I|]. assert (PS : adv p s) by (eapply adv_trans; eauto).
  eapply ends_bind; [apply lex_end, S|]. intros u (U & _). assert (PU : adv p u) by (eapply adv_trans; eauto). pose proof (adv_le _ _ PU).
  eapply ends_bind; [apply text_end; [apply U|lia]|]. intros (v, w) (W & _). cbn [snd] in W. destruct (negb _); [exact I|]. assert (PW : adv p w) by (eapply adv_trans; eauto).
  eapply ends_bind; [apply lex_end, W|]. intros z (Z & _). cbn. eapply adv_trans; eauto.
Qed.
Lemma attr_list_end fuel : forall c p, good p -> (e - loc p + 1 < fuel)%nat -> ends (fun x => adv p (snd x)) (c_attr_list e fuel c p).
Proof.
  induction fuel as [|fuel IH]; intros c p G L; [lia|]. cbn [c_attr_list]. eapply ends_bind; [apply attr_end; [auto|lia]|]. intros (a, q) A. cbn [snd] in A. destruct a as [((n, n'), v)|]; [|exact A].
  destruct (same p q) eqn:S; [exact I|]. pose proof (adv_same _ _ A S). pose proof (good_le q (proj1 A)).
  assert (K : forall c, ends (fun x => adv p (snd x)) (c_attr_list e fuel c q)). { intros c'. eapply ends_weak; [apply IH; [apply A|lia]|]. intros x. now apply adv_trans. }
  destruct (match n with Some _ => _ | None => _ end); [apply K|]. destruct (match n with Some _ => _ | None => _ end); [destruct v; [apply K|exact I]|].
  eapply ends_bind; [apply K|]. intros ((r, c'), s) R. exact R.
Qed.
Lemma ns_end c n b : ends (fun _ => True) (c_ns c n b).
Proof. unfold c_ns. destruct n as [n|]; [|exact I]. induction (t_map c) as [|(k, v) l IH]; cbn; [exact I|]. destruct (equ k n); [destruct v; exact I|exact IH]. Qed.
Lemma attrs_end c l : ends (fun _ => True) (c_attrs c l).
Proof. induction l as [|a l IH]; cbn; [exact I|]. eapply ends_bind; [apply ns_end|]. intros ns _. eapply ends_bind; [exact IH|]. intros r _. exact I. Qed.
Definition strok (s : str) : Prop := Forall (fun c => c <> 0) s.
Definition tagok (x : option (option str * str)) : Prop := match x with Some (q, n) => match q with Some q => strok q | None => True end /\ strok n | None => True end.
Definition rec_ends (l : nat) (rec : tctxt -> option (option str * str) -> state -> xres (list tnode * state)) : Prop :=
  forall c x p, good p -> (l <= loc p)%nat -> tagok x -> ends (fun y => adv p (snd y)) (rec c x p).
Lemma tag_strok fuel p : good p -> ends (fun x => strok (fst x)) (c_tag e fuel p) \/ c_tag e fuel p = NoFuel.
Proof.
  intros G. pose proof (tag_sim m0 e L0 E0 B0 fuel p p G) as H. destruct (parse_tag e fuel p) as [(n, q)| | | | |], (c_tag e fuel p) as [(s, r)| | | | |]; cbn in *; try tauto.
  left. destruct H as (_ & Z). apply Forall_forall. apply Z.
Qed.
Lemma name_strok fuel p : good p -> (e - loc p < fuel)%nat -> ends (fun x => tagok (Some (fst x))) (c_scoped_name e fuel p).
Proof.
  intros G L. pose proof (name_end fuel p G L) as N. pose proof (name_sim m0 e L0 E0 B0 fuel p p G) as H. destruct (parse_scoped_name e fuel p) as [((q, n), st)| | | | |], (c_scoped_name e fuel p) as [((q', n'), st')| | | | |]; cbn in *; try tauto.
  destruct H as (_ & Z1 & Z2). split; [|apply Forall_forall; apply Z2]. destruct q, q'; cbn in Z1; try tauto. apply Forall_forall. apply Z1.
Qed.
Lemma ends_and {A} (P Q : A -> Prop) x : ends P x -> ends Q x -> ends (fun a => P a /\ Q a) x.
Proof. destruct x; cbn; auto. Qed.
Lemma elem_end rec fuel c p : rec_ends (S (loc p)) rec -> good p -> (e - loc p + 1 < fuel)%nat -> ends (fun x => adv p (snd x)) (c_elem e rec fuel c p).
Proof.
  intros RC G L. unfold c_elem. eapply ends_bind; [apply ends_and; [apply name_end; [auto|lia]|apply name_strok; [auto|lia]]|]. intros ((q, n), a) (A & T). cbn [fst snd] in *. pose proof (adv_le _ _ A).
  eapply ends_bind; [apply attr_list_end; [apply A|lia]|]. intros ((l, c'), b) B. cbn [snd] in B. assert (PB : adv p b) by (eapply adv_trans; eauto).
  eapply ends_bind; [apply ns_end|]. intros ns _. eapply ends_bind; [apply attrs_end|]. intros at' _. destruct (cur b =? 47).
  - eapply ends_bind; [apply expect_adv; [apply B|fz]|]. intros r R. cbn. eapply adv_trans; eauto.
  - eapply ends_bind; [apply expect_end; [apply B|fz]|]. intros r (R & N). specialize (N ltac:(discriminate)). assert (PR : adv p r) by (eapply adv_trans; eauto). pose proof (adv_le _ _ PB).
    eapply ends_bind; [apply RC; [apply R|lia|exact T]|]. intros (ch, s) S. cbn in *. eapply adv_trans; eauto.
Qed.
Lemma content_end rec fuel : forall c p, rec_ends (S (loc p)) rec -> good p -> (e - loc p + 1 < fuel)%nat ->
  ends (fun x => adv p (snd x) /\ (fst x <> None -> (loc p < loc (snd x))%nat)) (c_content e rec fuel c p).
Proof.
  induction fuel as [|fuel IH]; intros c p RC G L; [lia|]. cbn [c_content]. destruct (cur p =? 0) eqn:C0. { cbn. split; [now apply adv_refl|tauto]. }
  destruct (cur p =? 60) eqn:C60.
  - eapply ends_bind; [apply lex_end, G|]. intros q (A & N). specialize (N ltac:(lia)). pose proof (good_le q (proj1 A)). destruct (cur q =? 33).
    + eapply ends_bind; [apply expect_adv; [apply A|fz]|]. intros r R. pose proof (adv_le _ _ R). eapply ends_bind; [apply comment_end; [apply R|lia]|]. intros s S. pose proof (adv_le _ _ S). pose proof (good_le s (proj1 S)).
      assert (PS : adv p s) by (eapply adv_trans; [exact A|eapply adv_trans; eauto]).
      eapply ends_weak; [apply IH; [|apply S|lia]|]. { intros c' x p' G' L' T'. apply RC; auto. lia. } intros x (X & _). split; [eapply adv_trans; eauto|]. intros _. pose proof (adv_le _ _ X). lia.
    + eapply ends_bind; [apply elem_end; [|apply A|lia]|]. { intros c' x p' G' L' T'. apply RC; auto. lia. } intros (n, r) R. cbn in *. split; [eapply adv_trans; eauto|]. intros _. pose proof (adv_le _ _ R). lia.
  - eapply ends_bind; [apply text_end; [auto|lia]|]. intros (t, q) (A & N). cbn in *. split; [exact A|]. intros _. apply N; lia.
Qed.
Lemma list_end fuel : forall c x p, good p -> tagok x -> (e - loc p + 2 < fuel)%nat -> ends (fun y => adv p (snd y)) (c_content_list e fuel c x p).
Proof.
  induction fuel as [|fuel IH]; intros c x p G T L; [lia|]. cbn [c_content_list].
  eapply ends_bind with (P := fun d => d = true -> exists q, x = Some q). { destruct x as [q|]; [|cbn; discriminate]. destruct (cur p =? 60); [|cbn; discriminate]. unfold peek. destruct (nth_error (mem p) (nxt p)); cbn; eauto. }
  assert (K : ends (fun y => adv p (snd y)) (do (n, st) <- c_content e (c_content_list e fuel) fuel c p; match n with None => match x with Some _ => Err | None => Ok ([], st) end | Some n => do (r, st) <- c_content_list e fuel c x st; Ok (n :: r, st) end)).
  { eapply ends_bind. { apply content_end; [|auto|lia]. intros c' x' p' G' L' T'. pose proof (good_le p' G'). apply IH; auto. lia. }
    intros (n, q) (A & N). cbn [fst snd] in *. destruct n as [n|]; [|destruct x; [exact I|exact A]]. specialize (N ltac:(discriminate)). pose proof (good_le q (proj1 A)). eapply ends_bind; [apply IH; [apply A|auto|lia]|]. intros (r, s) S. cbn in *. eapply adv_trans; eauto. }
  intros [|] D; [|exact K]. destruct (D eq_refl) as ((q, n) & ->). clear K D. cbn in T. destruct T as (T1 & T2).
  eapply ends_bind; [apply lex_end, G|]. intros a (A & _). eapply ends_bind; [apply lex_end, A|]. intros b (B & _). assert (PB : adv p b) by (eapply adv_trans; eauto).
  eapply ends_bind with (P := adv b). { destruct q as [q|]; [|now apply adv_refl, B]. eapply ends_bind; [apply expect_adv; [apply B|exact T1]|]. intros d D. eapply ends_weak; [apply expect_adv; [apply D|fz]|]. intros f. now apply adv_trans. }
  intros d D. assert (PD : adv p d) by (eapply adv_trans; eauto). eapply ends_bind; [apply expect_adv; [apply D|exact T2]|]. intros f F. assert (PF : adv p f) by (eapply adv_trans; eauto). pose proof (adv_le _ _ PF).
  eapply ends_bind; [apply skip_space_end; [apply F|lia]|]. intros g Gg. assert (PG : adv p g) by (eapply adv_trans; eauto). eapply ends_bind; [apply expect_adv; [apply Gg|fz]|]. intros h H'. cbn. eapply adv_trans; eauto.
Qed.
Lemma doc_end fuel p : good p -> (e - loc p + 2 < fuel)%nat -> ends (fun _ => True) (c_doc e fuel p).
Proof.
  intros G L. unfold c_doc. eapply ends_bind with (P := adv p). { destruct (cur p =? 65279); [|now apply adv_refl]. eapply ends_weak; [apply lex_end, G|]. intros a A. apply A. }
  intros q A. cbv zeta. eapply ends_bind with (P := fun _ => True). { destruct (cur q =? 60); [|exact I]. unfold peek. destruct (nth_error (mem q) (nxt q)); exact I. } intros d _.
  eapply ends_bind with (P := fun x => adv p (snd x)).
  { destruct d; [|exact A]. eapply ends_bind; [apply lex_end, A|]. intros a (A1 & _). eapply ends_bind; [apply lex_end, A1|]. intros b (B & _). assert (PB : adv p b) by (eapply adv_trans; [exact A|eapply adv_trans; eauto]). pose proof (adv_le _ _ PB).
    eapply ends_bind; [apply tag_end; [apply B|lia]|]. intros (t, f) F. cbn [snd] in F. destruct (negb _); [exact I|]. assert (PF : adv p f) by (eapply adv_trans; eauto). pose proof (adv_le _ _ PF).
    eapply ends_bind; [apply attr_list_end; [apply F|lia]|]. intros ((l, c), g) Gg. cbn [snd] in Gg. eapply ends_bind; [apply expect_adv; [apply Gg|fz]|]. intros h H'. cbn. eapply adv_trans; [exact PF|eapply adv_trans; eauto]. }
  intros ((c, l), a) A1. cbn [snd] in A1. pose proof (adv_le _ _ A1). eapply ends_bind; [apply skip_space_end; [apply A1|lia]|]. intros b B. assert (PB : adv p b) by (eapply adv_trans; eauto). pose proof (adv_le _ _ PB).
  eapply ends_bind with (P := adv p).
  { destruct (_ && _); [|exact PB]. eapply ends_bind; [apply expect_adv; [apply B|fz]|]. intros d1 D1. assert (PD : adv p d1) by (eapply adv_trans; eauto). pose proof (adv_le _ _ PD).
    eapply ends_bind; [apply doctype_end; [apply D1|lia]|]. intros f F. assert (PF : adv p f) by (eapply adv_trans; eauto). eapply ends_bind; [apply lex_end, F|]. intros g (Gg & _). assert (PG : adv p g) by (eapply adv_trans; eauto). pose proof (adv_le _ _ PG).
    eapply ends_weak; [apply skip_space_end; [apply Gg|lia]|]. intros h. now apply adv_trans. }
  intros g Gg. pose proof (adv_le _ _ Gg). eapply ends_bind; [apply list_end; [apply Gg|exact I|lia]|]. intros (n, h) _. exact I.
Qed.
End End.

(** * Files *)
Lemma file_ok f : bytes f -> length (f ++ [0]) = S (length f) /\ nth_error (f ++ [0]) (length f) = Some 0 /\ bytes (f ++ [0]).
Proof.
  intros B. split; [rewrite app_length; cbn; lia|]. split; [rewrite nth_error_app2, Nat.sub_diag by lia; reflexivity|]. intros c I. apply in_app_or in I as [I|[<-|[]]]; [auto|lia].
Qed.
Lemma parse_sim fuel f : bytes f ->
  orel (fun x y => map (view_attr (mem (snd x))) (fst (fst x)) = fst y /\ map (view (mem (snd x))) (snd (fst x)) = snd y) (xml_parse fuel f) (copy_parse fuel f).
Proof.
  intros B. destruct (file_ok f B) as (L & E & B'). unfold xml_parse, copy_parse.
  eapply orel_bind. { apply (lex_sim0 (f ++ [0]) (length f) L E B'); cbn; auto. lia. }
  intros a b (A & F & _). pose proof (doc_sim (f ++ [0]) (length f) L E B' fuel a b A F) as D.
  destruct (parse_doc (length f) fuel a) as [((x, y), z)| | | | |], (c_doc (length f) fuel b) as [((x', y'), z')| | | | |]; cbn in *; tauto.
Qed.
Lemma parse_end fuel f : bytes f -> (length f + 2 < fuel)%nat -> copy_parse fuel f <> NoFuel.
Proof.
  intros B Lf. destruct (file_ok f B) as (L & E & B'). unfold copy_parse.
  assert (X := lex_sim0 (f ++ [0]) (length f) L E B' (mk_state 0 0 0 (f ++ [0])) (mk_state 0 0 0 (f ++ [0]))). cbn [mem nxt] in X. specialize (X eq_refl eq_refl L ltac:(lia) (fun _ _ => eq_refl)).
  pose proof (lex_fuel (length f) (mk_state 0 0 0 (f ++ [0]))) as NF. destruct (lex_next _ _) as [q| | | | |]; cbn in X; try discriminate; try contradiction; try congruence. cbn [bind]. destruct X as (A & _).
  assert (D := doc_end (f ++ [0]) (length f) L E B' fuel q). specialize (D ltac:(destruct A; constructor; auto) ltac:(lia)). destruct (c_doc _ _ _) as [((x, y), z)| | | | |]; cbn in *; try discriminate. contradiction.
Qed.
