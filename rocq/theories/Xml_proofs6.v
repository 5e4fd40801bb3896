(** The parser accepts the well-formed part of the language, and finds what it means *)
From Coq Require Import ZArith Bool List Lia Arith ZifyBool.
From Verif Require Import Utf8_model Utf8_spec Utf8_proofs Xml_model Xml_spec Xml_spec2 Xml_proofs4 Xml_proofs5.
Import ListNotations.
Local Open Scope Z_scope.

Section Fwd.
Variables (m0 : list Z) (e : nat).
Local Notation At := (At m0 e).
(** The result is [x] and what remains is [r], unless the fuel does not suffice *)
Definition fwd {A} (y : xres (A * state)) (x : A) (r : list Z) : Prop := y = NoFuel \/ exists st, y = Ok (x, st) /\ At r st.
Definition fwds (y : xres state) (r : list Z) : Prop := y = NoFuel \/ exists st, y = Ok st /\ At r st.
Lemma fwd_bind {A B} (y : xres (A * state)) x r (f : A * state -> xres (B * state)) z r' : fwd y x r -> (forall st, At r st -> fwd (f (x, st)) z r') -> fwd (bind y f) z r'.
Proof. intros [->|(st & -> & A0)] H; [left; reflexivity|]. cbn. now apply H. Qed.
Lemma fwds_bind {B} (y : xres state) r (f : state -> xres (B * state)) z r' : fwds y r -> (forall st, At r st -> fwd (f st) z r') -> fwd (bind y f) z r'.
Proof. intros [->|(st & -> & A0)] H; [left; reflexivity|]. cbn. now apply H. Qed.
Lemma fwdss_bind (y : xres state) r (f : state -> xres state) r' : fwds y r -> (forall st, At r st -> fwds (f st) r') -> fwds (bind y f) r'.
Proof. intros [->|(st & -> & A0)] H; [left; reflexivity|]. cbn. now apply H. Qed.
Lemma fwd_ok {A} (x : A) r st : At r st -> fwd (Ok (x, st)) x r.
Proof. right. eauto. Qed.
Lemma fwds_ok r st : At r st -> fwds (Ok st) r.
Proof. right. eauto. Qed.
Lemma lex_fwd c r st : At (c :: r) st -> fwds (lex_next e st) r.
Proof. intros A. destruct (lex_cons _ _ _ _ _ A) as (s & E & B & _). right. eauto. Qed.
Lemma same_adv c r st s : At (c :: r) st -> At r s -> same st s = false.
Proof. intros A B. unfold same. pose proof (t_len _ _ _ _ A). pose proof (t_len _ _ _ _ B). cbn in *. replace (Nat.eqb (loc st) (loc s)) with false by (symmetry; apply Nat.eqb_neq; lia). now rewrite andb_false_r. Qed.
Lemma at_hd r st : At r st -> cur st = hd r 0.
Proof. apply t_cur. Qed.
Lemma at_range r st : At r st -> 0 <= hd r 0 < 128.
Proof. intros A. pose proof (t_ascii _ _ _ _ A) as T. destruct T; cbn; lia. Qed.
Lemma peek_fwd c r st x : At (c :: r) st -> peek st x = Ok (hd r 0 =? x).
Proof.
  intros [M S C N L A]. unfold peek. cbn [app] in S. destruct (skipn_cons _ _ _ _ S) as (_ & S2 & _). rewrite N, M. destruct r as [|d r]; cbn [app] in S2; destruct (skipn_cons _ _ _ _ S2) as (S3 & _); rewrite S3; reflexivity.
Qed.

Lemma spc_space c : spc c -> is_space c = true.
Proof. unfold spc, is_space. cbn. lia. Qed.
Lemma nspc_space c : 0 <= c < 128 -> ~ spc c -> is_space c = false.
Proof. unfold spc, is_space. cbn. lia. Qed.
Lemma space_fwd fuel : forall s r st, At (s ++ r) st -> spaces s -> ~ spc (hd r 0) -> fwds (skip_space e fuel st) r.
Proof.
  induction fuel as [|fuel IH]; intros s r st A S N; [left; reflexivity|]. cbn [skip_space]. rewrite (at_hd _ _ A). destruct s as [|c s]; cbn [app hd] in *.
  - rewrite nspc_space; auto. { now apply fwds_ok. } eapply at_range; eauto.
  - inversion S; subst. rewrite spc_space by auto. eapply fwdss_bind; [eapply lex_fwd; eauto|]. intros s1 A1. eapply IH; eauto.
Qed.
Lemma expect_fwd w : forall r st, At (w ++ r) st -> fwds (expect e w st) r.
Proof.
  induction w as [|c w IH]; intros r st A; cbn [expect]. { now apply fwds_ok. } rewrite (at_hd _ _ A). cbn [app hd]. rewrite Z.eqb_refl. cbn [negb]. eapply fwdss_bind; [eapply lex_fwd; eauto|]. auto.
Qed.
Definition nontag (c : Z) : Prop := In c [32; 9; 13; 10; 12; 34; 39; 47; 58; 61; 62; 63].
Lemma nontag_is c : nontag c -> is_tag_char c = false.
Proof. unfold nontag. cbn [In]. intros H. repeat (destruct H as [<-|H]; [reflexivity|]). contradiction. Qed.
Lemma name_is c : name_char c -> is_tag_char c = true.
Proof.
  unfold name_char, digit, spc. cbn [In]. intros H. unfold is_tag_char, is_space. cbn [existsb]. replace (_ || _) with false by lia. destruct (127 <? c) eqn:?; [reflexivity|]. lia.
Qed.
Lemma tag_loop_fwd fuel : forall n r st, At (n ++ r) st -> Forall name_char n -> nontag (hd r 0) -> fwds (tag_loop e fuel st) r.
Proof.
  induction fuel as [|fuel IH]; intros n r st A F N; [left; reflexivity|]. cbn [tag_loop]. rewrite (at_hd _ _ A). destruct n as [|c n]; cbn [app hd] in *.
  - rewrite nontag_is by auto. now apply fwds_ok.
  - inversion F; subst. rewrite name_is by auto. eapply fwdss_bind; [eapply lex_fwd; eauto|]. intros s1 A1. rewrite (same_adv _ _ _ _ A A1). eapply IH; eauto.
Qed.
Lemma tag_fwd fuel n r st : At (n ++ r) st -> sname n -> nontag (hd r 0) -> fwd (c_tag e fuel st) n r.
Proof.
  intros A ((F & S) & N) T. unfold c_tag. destruct n as [|c n]; [congruence|]. replace (maybe_tag_begin (cur st)) with true. 2: { rewrite (at_hd _ _ A). cbn. unfold digit in S. unfold maybe_tag_begin. lia. }
  destruct (tag_loop_fwd fuel _ _ _ A F T) as [->|(s & -> & B)]; [left; reflexivity|]. right. cbn [bind]. exists s. split; auto. do 2 f_equal. rewrite (t_mem _ _ _ _ B). eapply seg_at; eauto. pose proof (t_len _ _ _ _ A). pose proof (t_len _ _ _ _ B). rewrite app_length in *. lia.
Qed.
Lemma qname_fwd fuel q nsp n r st : At (q ++ r) st -> sqname q nsp n -> nontag (hd r 0) -> hd r 0 <> 58 -> fwd (c_scoped_name e fuel st) (nsp, n) r.
Proof.
  intros A Q T N. unfold c_scoped_name. destruct Q as [n S|p n S1 S2].
  - destruct (tag_fwd fuel _ _ _ A S T) as [->|(s & -> & B)]; [left; reflexivity|]. cbn [bind]. rewrite (at_hd _ _ B). replace (hd r 0 =? 58) with false by lia. now apply fwd_ok.
  - rewrite <- app_assoc in A. cbn [app] in A. destruct (tag_fwd fuel p (58 :: n ++ r) st A S1) as [->|(s & -> & B)]; [cbn; unfold nontag; cbn; auto 20|left; reflexivity|]. cbn [bind]. rewrite (at_hd _ _ B). cbn [hd Z.eqb Pos.eqb].
    eapply fwds_bind; [eapply lex_fwd; eauto|]. intros s1 A1. destruct (tag_fwd fuel n r s1 A1 S2 T) as [->|(s2 & -> & B2)]; [left; reflexivity|]. now apply fwd_ok.
Qed.
Lemma num_fwd fuel : forall base l n r st, base <= 16 -> At (l ++ 59 :: r) st -> Forall (fun c => 0 <= digit_val c < base) l -> 0 <= n < 4294967296 -> fwd (read_num e fuel base n st) (val base l n mod 4294967296) (59 :: r).
Proof.
  induction fuel as [|fuel IH]; intros base l n r st B A F N; [left; reflexivity|]. cbn [read_num]. rewrite (at_hd _ _ A). destruct l as [|c l]; cbn [app hd] in *.
  - replace (base <=? digit_val 59) with true by (cbn; lia). cbn [val fold_left]. rewrite Z.mod_small by lia. now apply fwd_ok.
  - inversion F; subst. replace (base <=? digit_val c) with false by lia. eapply fwds_bind; [eapply lex_fwd; eauto|]. intros s1 A1. pose proof (IH base l ((n * base + digit_val c) mod 4294967296) r s1 B A1 H2 ltac:(apply Z.mod_pos_bound; lia)) as X.
    replace (val base (c :: l) n mod 4294967296) with (val base l ((n * base + digit_val c) mod 4294967296) mod 4294967296); auto. unfold val. cbn [fold_left]. clear. set (f := fun n c0 => n * base + digit_val c0).
    assert (X : forall l a b, a mod 4294967296 = b mod 4294967296 -> fold_left f l a mod 4294967296 = fold_left f l b mod 4294967296).
    { induction l0 as [|x l0 IH]; intros a b Hab; cbn; auto. apply IH. unfold f. rewrite Z.add_mod, Z.mul_mod, Hab, <- Z.mul_mod, <- Z.add_mod by lia. reflexivity. }
    apply X. now rewrite Z.mod_mod by lia.
Qed.
Lemma ent_end (y : xres (Z * state)) v r : fwd y v (59 :: r) -> fwd (do (c, st) <- y; if negb (cur st =? 59) then Err else Ok (c, st)) v (59 :: r).
Proof. intros H. eapply fwd_bind; [exact H|]. intros st A. rewrite (at_hd _ _ A). cbn. now apply fwd_ok. Qed.
Lemma exp_fwd w (v : Z) r st : At (w ++ r) st -> fwd (do st <- expect e w st; Ok (v, st)) v r.
Proof. intros A. eapply fwds_bind; [apply expect_fwd; exact A|]. intros. now apply fwd_ok. Qed.
Lemma named_fwd fuel n c r st : In (n, c) named -> At (38 :: n ++ 59 :: r) st -> fwd (entity e fuel st) c (59 :: r).
Proof.
  intros I A. unfold entity. eapply fwds_bind; [eapply lex_fwd; eauto|]. intros s1 A1. apply ent_end. rewrite (at_hd _ _ A1). cbn in I.
  destruct I as [I|[I|[I|[I|[I|[]]]]]]; inversion I; subst n c; cbn [app hd Z.eqb Pos.eqb].
  - now apply exp_fwd.
  - now apply exp_fwd.
  - now apply exp_fwd.
  - eapply fwds_bind; [eapply lex_fwd; exact A1|]. intros s2 A2. rewrite (at_hd _ _ A2). cbn [app hd Z.eqb Pos.eqb]. now apply exp_fwd.
  - eapply fwds_bind; [eapply lex_fwd; exact A1|]. intros s2 A2. rewrite (at_hd _ _ A2). cbn [app hd Z.eqb Pos.eqb]. now apply exp_fwd.
Qed.
Lemma dec_fwd fuel l v r st : dec l v -> At (38 :: 35 :: l ++ 59 :: r) st -> fwd (entity e fuel st) (v mod 2 ^ 32) (59 :: r).
Proof.
  intros D A. destruct (dec_val [0] 0%nat eq_refl l v D) as (<- & F). unfold entity. eapply fwds_bind; [eapply lex_fwd; eauto|]. intros s1 A1. apply ent_end. rewrite (at_hd _ _ A1). cbn [hd Z.eqb Pos.eqb]. eapply fwds_bind; [eapply lex_fwd; exact A1|]. intros s2 A2.
  assert (NX : (cur s2 =? 120) || (cur s2 =? 88) = false). { rewrite (at_hd _ _ A2). destruct l as [|d l]; [reflexivity|]. cbn. inversion F; subst. unfold digit_val in H1. apply orb_false_iff. split; apply Z.eqb_neq; intros ->; cbn in H1; lia. }
  rewrite NX. apply num_fwd; auto; lia.
Qed.
Lemma hex_fwd fuel x l v r st : x = 120 \/ x = 88 -> hex l v -> At (38 :: 35 :: x :: l ++ 59 :: r) st -> fwd (entity e fuel st) (v mod 2 ^ 32) (59 :: r).
Proof.
  intros X D A. destruct (hex_val [0] 0%nat eq_refl l v D) as (<- & F). unfold entity. eapply fwds_bind; [eapply lex_fwd; eauto|]. intros s1 A1. apply ent_end. rewrite (at_hd _ _ A1). cbn [hd Z.eqb Pos.eqb]. eapply fwds_bind; [eapply lex_fwd; exact A1|]. intros s2 A2.
  rewrite (at_hd _ _ A2). cbn [hd]. replace ((x =? 120) || (x =? 88)) with true by lia. eapply fwds_bind; [eapply lex_fwd; exact A2|]. intros s3 A3. apply num_fwd; auto; lia.
Qed.
Lemma text_fwd fuel : forall delim s t r st, At (s ++ r) st -> decodes delim s t -> delim <> 38 -> hd r 0 = delim \/ hd r 0 = 60 \/ hd r 0 = 0 -> fwd (c_text e fuel delim st) (flat_map utf8 t) r.
Proof.
  induction fuel as [|fuel IH]; intros delim s t r st A D D38 N; [left; reflexivity|]. cbn [c_text].
  assert (REF : forall w s' t' v, At (38 :: w ++ 59 :: s' ++ r) st -> scalar v -> fwd (entity e fuel st) v (59 :: s' ++ r) -> decodes delim s' t' ->
    fwd (if (cur st =? delim) || (cur st =? 60) || (cur st =? 0) then Ok ([], st) else do (c, st) <- (if cur st =? 38 then entity e fuel st else Ok (cur st, st)); if negb (utf8_ok c) then Err else
      match encode 4 c with UOk l => do st <- lex_next e st; do (t, st) <- c_text e fuel delim st; Ok (l ++ t, st) | _ => Crash end) (utf8 v ++ flat_map utf8 t') r).
  { intros w s' t' v A' Sc Fw D'. rewrite (at_hd _ _ A'). cbn [hd]. replace ((38 =? delim) || (38 =? 60) || (38 =? 0)) with false by lia. cbn [Z.eqb Pos.eqb]. eapply fwd_bind; [exact Fw|]. intros s1 A1.
    rewrite (scalar_ok [0] 0%nat eq_refl v Sc). cbn [negb]. rewrite (encode_utf8 [0] 0%nat eq_refl v Sc). eapply fwds_bind; [eapply lex_fwd; exact A1|]. intros s2 A2. eapply fwd_bind; [apply (IH delim s' t' r s2); auto|]. intros s3 A3. now apply fwd_ok. }
  destruct D as [|c s t N1 N2 N3 D|n c s t I D|l v s t V S D|x l v s t X V S D]; cbn [app flat_map] in *.
  - rewrite (at_hd _ _ A). replace (_ || _) with true by lia. now apply fwd_ok.
  - pose proof (t_ascii _ _ _ _ A) as T. inversion T; subst. clear REF. rewrite (at_hd _ _ A). cbn [hd]. replace (_ || _) with false by lia. replace (c =? 38) with false by lia. cbn [bind]. assert (Sc : scalar c) by (unfold scalar; lia).
    rewrite (scalar_ok [0] 0%nat eq_refl c Sc). cbn [negb]. rewrite (encode_utf8 [0] 0%nat eq_refl c Sc). eapply fwds_bind; [eapply lex_fwd; exact A|]. intros s2 A2. eapply fwd_bind; [apply (IH delim s t r s2); auto|]. intros s3 A3. now apply fwd_ok.
  - rewrite <- app_assoc in A. cbn [app] in A. eapply REF; eauto. { cbn in I. unfold scalar. destruct I as [I|[I|[I|[I|[I|[]]]]]]; inversion I; lia. } eapply named_fwd; eauto.
  - rewrite <- app_assoc in A. cbn [app] in A. apply (REF (35 :: l) s t); auto. apply (dec_fwd _ l); auto.
  - rewrite <- app_assoc in A. cbn [app] in A. apply (REF (35 :: x :: l) s t); auto. apply (hex_fwd _ x l); auto.
Qed.

(** * Attributes *)
Definition stop (c : Z) : Prop := c = 47 \/ c = 62 \/ c = 63.
Definition fromenv (v : env) : tctxt := mk_tctxt (prefixes v) (default v).
Definition plain (x : raw) : tattr := let '(nsp, n, v) := x in mk_tattr nsp n None v.
Lemma sname_hd n x : sname n -> exists c n', n = c :: n' /\ name_char c /\ hd n x = c.
Proof. intros ((F & _) & N). destruct n as [|c n]; [congruence|]. inversion F; subst. exists c, n. auto. Qed.
Lemma sqname_hd q nsp n x : sqname q nsp n -> name_char (hd q x) /\ q <> [].
Proof. intros Q. destruct Q as [n S|p n S1 S2]; [destruct (sname_hd n x S) as (c & n' & -> & F & _)|destruct (sname_hd p x S1) as (c & n' & -> & F & _)]; cbn; split; auto; discriminate. Qed.
Lemma name_char_not c : name_char c -> ~ spc c /\ c <> 0 /\ c <> 47 /\ c <> 62 /\ c <> 63 /\ c <> 60 /\ c <> 33.
Proof. unfold name_char, digit, spc. cbn [In]. lia. Qed.
Lemma hd_app (a r : list Z) x : a <> [] -> hd (a ++ r) x = hd a x.
Proof. destruct a; [congruence|reflexivity]. Qed.
Lemma sattr_hd a x y : sattribute a x -> name_char (hd a y) /\ a <> [].
Proof. destruct 1 as [s nsp n Q|s nsp n q t v Q _ _]; destruct (sqname_hd _ _ _ y Q) as (H & N); [auto|]. rewrite hd_app by auto. split; auto. intros X. now destruct s. Qed.
Lemma attr_fwd fuel s a x r st : At (s ++ a ++ r) st -> spaces s -> sattribute a x -> spc (hd r 0) \/ stop (hd r 0) -> fwd (c_attr e fuel st) (Some x) r.
Proof.
  intros A S X T. unfold c_attr. destruct (sattr_hd a x 0 X) as (H & N). destruct (name_char_not _ H) as (H1 & H2 & H3 & H4 & H5 & _).
  eapply fwds_bind. { eapply space_fwd; [exact A|auto|]. rewrite hd_app; auto. } intros s1 A1. rewrite (at_hd _ _ A1), hd_app by auto. replace (_ || _) with false by lia.
  destruct X as [q nsp n Q|q nsp n d t v Q Dq Dt].
  - destruct (qname_fwd fuel q nsp n r s1 A1 Q) as [->|(s2 & -> & A2)]; [unfold nontag, spc, stop in *; cbn [In] in *; lia|unfold spc, stop in *; cbn [In] in *; lia|left; reflexivity|]. cbn [bind]. rewrite (at_hd _ _ A2). replace (negb (hd r 0 =? 61)) with true by (unfold spc, stop in *; cbn [In] in *; lia). now apply fwd_ok.
  - rewrite <- app_assoc in A1. cbn [app] in A1. rewrite <- app_assoc in A1. cbn [app] in A1.
    destruct (qname_fwd fuel q nsp n (61 :: d :: t ++ d :: r) s1 A1 Q) as [->|(s2 & -> & A2)]; [unfold nontag; cbn; auto 20|cbn; lia|left; reflexivity|]. cbn [bind]. rewrite (at_hd _ _ A2). cbn [hd Z.eqb Pos.eqb negb].
    eapply fwds_bind; [eapply lex_fwd; exact A2|]. intros s3 A3. rewrite (at_hd _ _ A3). cbn [hd]. replace (negb (d =? 34) && negb (d =? 39)) with false by lia. eapply fwds_bind; [eapply lex_fwd; exact A3|]. intros s4 A4.
    eapply fwd_bind; [eapply (text_fwd fuel d t v (d :: r)); eauto; lia|]. intros s5 A5. rewrite (at_hd _ _ A5). cbn [hd]. rewrite Z.eqb_refl. cbn [negb]. eapply fwds_bind; [eapply lex_fwd; exact A5|]. intros s6 A6. now apply fwd_ok.
Qed.
Lemma attr_none fuel s r st : At (s ++ r) st -> spaces s -> stop (hd r 0) -> fwd (c_attr e fuel st) None r.
Proof.
  intros A S T. unfold c_attr. eapply fwds_bind. { eapply space_fwd; [exact A|auto|]. unfold stop, spc in *. cbn [In]. lia. } intros s1 A1. rewrite (at_hd _ _ A1). replace (_ || _) with true by (unfold stop in T; lia). now apply fwd_ok.
Qed.
Lemma equ_no a b : a <> b -> equ a b = false.
Proof. intros H. destruct (equ a b) eqn:Q; auto. apply equ_spec in Q. congruence. Qed.
Lemma equ_yes a : equ a a = true.
Proof. now apply equ_spec. Qed.
Lemma at_same s r st st' : At (s ++ r) st -> At r st' -> s <> [] -> same st st' = false.
Proof. intros A B N. unfold same. pose proof (t_len _ _ _ _ A) as L1. pose proof (t_len _ _ _ _ B). rewrite app_length in L1. destruct s; [congruence|]. cbn in *. replace (Nat.eqb (loc st) (loc st')) with false by (symmetry; apply Nat.eqb_neq; lia). now rewrite andb_false_r. Qed.
Lemma attrs_fwd fuel : forall s raws v v' rest r st, At (s ++ r) st -> sattributes s raws -> declares v raws v' rest -> stop (hd r 0) -> fwd (c_attr_list e fuel (fromenv v) st) (map plain rest, fromenv v') r.
Proof.
  induction fuel as [|fuel IH]; intros s raws v v' rest r st A S D T; [left; reflexivity|]. cbn [c_attr_list]. destruct S as [s Sp|s a x s2 l Sp Sn X S2].
  - inversion D; subst. eapply fwd_bind; [eapply attr_none; eauto|]. intros s1 A1. now apply fwd_ok.
  - assert (T2 : spc (hd (s2 ++ r) 0) \/ stop (hd (s2 ++ r) 0)). { destruct S2 as [[|c s2] Sp2|[|c s2] a2 x2 s3 l3 Sp2 Sn2 _ _]; cbn; auto; try congruence; left; now inversion Sp2. }
    rewrite <- !app_assoc in A. eapply fwd_bind; [eapply (attr_fwd fuel s a x (s2 ++ r)); eauto|]. intros s1 A1. destruct x as ((nsp, n), val0).
    assert (Sm : same st s1 = false). { rewrite app_assoc in A. eapply at_same; eauto. intros Z. apply app_eq_nil in Z. tauto. } rewrite Sm.
    inversion D; subst.
    + change (equ s_xmlns xmlns) with (equ xmlns xmlns). rewrite equ_yes. match goal with HD : declares (mk_env _ _) l _ _ |- _ => apply (IH s2 l _ v' rest r s1 A1 S2 HD T) end.
    + change (equ s_xmlns xmlns) with (equ xmlns xmlns). rewrite equ_yes. match goal with HD : declares (mk_env _ _) l _ _ |- _ => apply (IH s2 l _ v' rest r s1 A1 S2 HD T) end.
    + match goal with HN : nsp <> _, HM : ~ (nsp = None /\ _), HD : declares v l v' ?l0 |- _ => rename HN into N1; rename HM into N2; rename HD into D0; rename l0 into ll end.
      replace (match nsp with Some q => equ q xmlns | None => false end) with false by (destruct nsp; auto; symmetry; apply equ_no; intros Z; apply N1; now subst).
      replace (match nsp with Some _ => false | None => equ n xmlns end) with false by (destruct nsp; auto; symmetry; apply equ_no; intros Z; apply N2; now subst).
      eapply fwd_bind. { apply (IH s2 l v v' ll r s1 A1 S2 D0 T). } intros s3 A3. now apply fwd_ok.
Qed.
Lemma map_fwd l p u : uri_of l p u -> c_map l p = Ok (Some u).
Proof. induction 1 as [p u l|q w p u l N U IH]; cbn; [now rewrite equ_yes|]. rewrite equ_no by auto. exact IH. Qed.
Lemma ns_fwd v nsp (b : bool) ns : uri v nsp (if b then default v else None) ns -> c_ns (fromenv v) nsp b = Ok ns.
Proof. destruct nsp as [p|]; cbn. { intros (u & -> & U). now apply map_fwd. } intros ->. reflexivity. Qed.
Lemma cattrs_fwd v l attrs : Forall2 (resolved v) l attrs -> c_attrs (fromenv v) (map plain l) = Ok attrs.
Proof. induction 1 as [|((nsp, n), w) a l attrs (ns & U & ->) F IH]; cbn [map c_attrs plain]; auto. cbn [t_nsp t_name t_value]. rewrite (ns_fwd v nsp false ns U). cbn [bind]. rewrite IH. reflexivity. Qed.

(** * Content *)
Lemma comment_fwd fuel : forall b r st, At (b ++ [45; 45; 62] ++ r) st -> comment b -> fwds (skip_comment e fuel st) r.
Proof.
  induction fuel as [|fuel IH]; intros b r st A C; [left; reflexivity|]. cbn [skip_comment]. rewrite (at_hd _ _ A). destruct b as [|c b].
  - cbn [app hd Z.eqb Pos.eqb]. rewrite (peek_fwd _ _ _ _ A). cbn [bind hd Z.eqb Pos.eqb app]. apply expect_fwd. exact A.
  - cbn [app hd] in *. assert (X : (if c =? 45 then peek st 45 else Ok false) = Ok false).
    { destruct (c =? 45) eqn:C45; auto. rewrite (peek_fwd _ _ _ _ A). f_equal. apply Z.eqb_neq. intros Hd. assert (c = 45) by lia. subst c. destruct b as [|d b]; cbn in Hd; [now apply (C [] [])|]. apply (C [] (b ++ [45])). cbn. now subst d. }
    rewrite X. cbn [bind]. eapply fwdss_bind; [eapply lex_fwd; exact A|]. intros s1 A1. rewrite (same_adv _ _ _ _ A A1). apply (IH b r s1 A1). intros x y Z. apply (C (c :: x) y). cbn. now f_equal.
Qed.
Definition endtag (tag : option (option str * str)) (z r : list Z) : Prop :=
  match tag with None => z = [] /\ r = [] | Some (nsp, n) => exists sp, z = 60 :: 47 :: qsrc nsp n ++ sp ++ 62 :: r /\ spaces sp /\ name n /\ match nsp with Some p => name p | None => True end end.
Definition rec_fwd (rec : tctxt -> option (option str * str) -> state -> xres (list tnode * state)) : Prop :=
  forall v tag c l z r st, At (c ++ z) st -> scontent (match tag with None => true | _ => false end) v c l -> endtag tag z r -> fwd (rec (fromenv v) tag st) l r.
Lemma sqname_src q nsp n : sqname q nsp n -> q = qsrc nsp n /\ name n /\ match nsp with Some p => name p | None => True end.
Proof. destruct 1 as [n (S & _)|p n (S1 & _) (S2 & _)]; cbn; auto. Qed.
Lemma sattrs_hd a l r : sattributes a l -> stop (hd r 0) -> spc (hd (a ++ r) 0) \/ stop (hd (a ++ r) 0).
Proof. intros S T. destruct S as [[|c s2] Sp2|[|c s2] a2 x2 s3 l3 Sp2 Sn2 _ _]; cbn; auto; try congruence; left; now inversion Sp2. Qed.
Lemma sep_nontag c : spc c \/ stop c -> nontag c /\ c <> 58.
Proof. unfold spc, stop, nontag. cbn [In]. lia. Qed.
Lemma selem_hd v s x : selement v s x -> exists c s', s = 60 :: c :: s' /\ name_char c.
Proof. intros H0. destruct H0 as [v q nsp n a l v' l' ns attrs Q|v q nsp n a l v' l' ns attrs c ch s Q]; destruct (sqname_hd q nsp n 0 Q) as (Hq & Nq); destruct q as [|d q]; try congruence; cbn in *; eauto. Qed.
Lemma elem_fwd rec fuel v s x r st : rec_fwd rec -> selement v s x -> At (s ++ r) st -> forall st1, At (tl (s ++ r)) st1 -> fwd (c_elem e rec fuel (fromenv v) st1) x r.
Proof.
  intros R EL A0 st1 A. unfold c_elem. destruct EL as [v q nsp n a l v' l' ns attrs Q SA D U F|v q nsp n a l v' l' ns attrs c ch s Q SA D U F CT Sp]; cbn [app tl] in A.
  - rewrite <- !app_assoc in A. cbn [app] in A. destruct (sep_nontag _ (sattrs_hd a l (47 :: 62 :: r) SA ltac:(cbn; unfold stop; auto))) as (N1 & N2).
    destruct (qname_fwd fuel q nsp n _ st1 A Q N1 N2) as [->|(s1 & -> & A1)]; [left; reflexivity|]. cbn [bind]. destruct (attrs_fwd fuel a l v v' l' (47 :: 62 :: r) s1 A1 SA D ltac:(cbn; unfold stop; auto)) as [->|(s2 & -> & A2)]; [left; reflexivity|]. cbn [bind].
    rewrite (ns_fwd v' nsp true ns U). cbn [bind]. rewrite (cattrs_fwd v' l' attrs F). cbn [bind]. rewrite (at_hd _ _ A2). cbn [hd Z.eqb Pos.eqb]. eapply fwds_bind; [eapply (expect_fwd [47; 62]); exact A2|]. intros s3 A3. now apply fwd_ok.
  - rewrite <- !app_assoc in A. cbn [app] in A. rewrite <- !app_assoc in A. cbn [app] in A. rewrite <- !app_assoc in A. cbn [app] in A. set (z := 62 :: _) in A. destruct (sep_nontag _ (sattrs_hd a l z SA ltac:(cbn; unfold stop; auto))) as (N1 & N2).
    destruct (qname_fwd fuel q nsp n _ st1 A Q N1 N2) as [->|(s1 & -> & A1)]; [left; reflexivity|]. cbn [bind]. destruct (attrs_fwd fuel a l v v' l' z s1 A1 SA D ltac:(cbn; unfold stop; auto)) as [->|(s2 & -> & A2)]; [left; reflexivity|]. cbn [bind].
    rewrite (ns_fwd v' nsp true ns U). cbn [bind]. rewrite (cattrs_fwd v' l' attrs F). cbn [bind]. rewrite (at_hd _ _ A2). cbn [z hd Z.eqb Pos.eqb]. eapply fwds_bind; [eapply (expect_fwd [62]); exact A2|]. intros s3 A3.
    destruct (sqname_src _ _ _ Q) as (Qs & Q1 & Q2). eapply fwd_bind; [eapply (R v' (Some (nsp, n)) c ch); [exact A3|exact CT|]|]. { cbn. exists s. rewrite <- Qs. auto. } intros s4 A4. now apply fwd_ok.
Qed.
Lemma text_first d s t : decodes d s t -> s <> [] -> d <> 38 -> hd s 0 <> d /\ (hd s 0 = 60 -> False).
Proof. intros D N D38. destruct D; cbn; try congruence; split; try congruence; lia. Qed.
Lemma content_fwd rec : rec_fwd rec -> forall top v c l, scontent top v c l -> forall z, (top = true /\ z = []) \/ (top = false /\ hd z 0 = 60 /\ l <> []) ->
  match l with
  | [] => forall fuel st, At (c ++ z) st -> fwd (c_content e rec fuel (fromenv v) st) None z
  | x :: l' => exists c', scontent top v c' l' /\ forall fuel st, At (c ++ z) st -> fwd (c_content e rec fuel (fromenv v) st) (Some x) (c' ++ z)
  end.
Proof.
  intros R top v c l S. induction S as [top v|top v s t r l N D H S _|top v b r l C H S IH|top v s x r l EL S _]; intros z T.
  - destruct T as [(-> & ->)|(_ & _ & T)]; [|congruence]. intros fuel st A. destruct fuel as [|fuel]; [left; reflexivity|]. cbn [c_content]. rewrite (at_hd _ _ A). cbn. now apply fwd_ok.
  - exists r. split; auto. intros fuel st A. destruct fuel as [|fuel]; [left; reflexivity|]. cbn [c_content]. rewrite <- app_assoc in A. rewrite (at_hd _ _ A), hd_app by auto. destruct (text_first _ _ _ D N ltac:(lia)) as (N1 & _).
    assert (Ah : 0 < hd s 0). { pose proof (t_ascii _ _ _ _ A) as Ta. destruct s; [congruence|]. cbn in *. inversion Ta; subst. lia. } replace (hd s 0 =? 0) with false by lia. replace (hd s 0 =? 60) with false by lia.
    eapply fwd_bind; [apply (text_fwd fuel 60 s t (r ++ z)); auto; [lia|]|intros s1 A1; now apply fwd_ok]. destruct r as [|d r]; cbn in H |- *; [destruct T as [(_ & ->)|(_ & T & _)]; cbn; auto|auto].
  - assert (STEP : forall y zz, (forall fuel st, At (r ++ z) st -> fwd (c_content e rec fuel (fromenv v) st) y zz) -> forall fuel st, At (([60; 33; 45; 45] ++ b ++ [45; 45; 62] ++ r) ++ z) st -> fwd (c_content e rec fuel (fromenv v) st) y zz).
    { intros y zz F fuel st A. destruct fuel as [|fuel]; [left; reflexivity|]. cbn [c_content]. rewrite <- !app_assoc in A. rewrite (at_hd _ _ A). cbn [app hd Z.eqb Pos.eqb] in *. eapply fwds_bind; [eapply lex_fwd; exact A|]. intros s1 A1. rewrite (at_hd _ _ A1). cbn [hd Z.eqb Pos.eqb].
      eapply fwds_bind; [eapply (expect_fwd [33; 45; 45]); exact A1|]. intros s2 A2. eapply fwds_bind; [eapply (comment_fwd fuel b (r ++ z)); [exact A2|exact C]|]. intros s3 A3. now apply F. }
    specialize (IH z T). destruct l as [|x l]; [now apply STEP|]. destruct IH as (c' & S' & F). exists c'. split; auto.
  - exists r. split; auto. intros fuel st A. destruct fuel as [|fuel]; [left; reflexivity|]. cbn [c_content]. destruct (selem_hd _ _ _ EL) as (d & s' & -> & Nd). destruct (name_char_not _ Nd) as (_ & _ & _ & _ & _ & _ & N33).
    rewrite <- app_assoc in A. rewrite (at_hd _ _ A). cbn [app hd Z.eqb Pos.eqb]. eapply fwds_bind; [eapply lex_fwd; exact A|]. intros s1 A1. rewrite (at_hd _ _ A1). cbn [hd]. replace (d =? 33) with false by lia. eapply fwd_bind; [eapply (elem_fwd rec fuel v _ x (r ++ z) st R EL A); exact A1|]. intros s2 A2. now apply fwd_ok.
Qed.
Lemma scont_start top v c l z : scontent top v c l -> c <> [] -> ascii_file c -> hd (c ++ z) 0 = 60 -> hd (tl (c ++ z)) 0 <> 47.
Proof.
  intros S N A. destruct S as [top v|top v s t r l Ns D H S|top v b r l C H S|top v s x r l EL S]; [congruence| | |].
  - destruct s as [|d s]; [congruence|]. cbn. intros ->. destruct (text_first _ _ _ D ltac:(discriminate) ltac:(lia)) as (X & _). cbn in X. congruence.
  - cbn. lia.
  - destruct (selem_hd _ _ _ EL) as (d & s' & -> & Nd). cbn. intros _. apply (name_char_not _ Nd).
Qed.
Lemma scont_nil top v c l : scontent top v c l -> c = [] -> l = [].
Proof.
  intros S E. destruct S as [top v|top v s t r l Ns D H S|top v b r l C H S|top v s x r l EL S]; [auto| | |].
  - apply app_eq_nil in E. tauto.
  - discriminate.
  - destruct (selem_hd _ _ _ EL) as (y & s' & -> & Nd). discriminate.
Qed.
Lemma list_fwd fuel : rec_fwd (c_content_list e fuel).
Proof.
  induction fuel as [|fuel IH]; intros v tag c l z r st A S T; [left; reflexivity|]. cbn [c_content_list].
  destruct tag as [(nsp, n)|].
  - destruct T as (sp & -> & Sp & Nn & Np). destruct c as [|d c].
    + pose proof (scont_nil _ _ _ _ S eq_refl) as Hl. subst l. clear S. cbn [app] in A. rewrite (at_hd _ _ A). cbn [hd Z.eqb Pos.eqb]. rewrite (peek_fwd _ _ _ _ A). cbn [hd Z.eqb Pos.eqb bind].
      eapply fwds_bind; [eapply lex_fwd; exact A|]. intros s1 A1. eapply fwds_bind; [eapply lex_fwd; exact A1|]. intros s2 A2. eapply (fwds_bind _ (n ++ sp ++ 62 :: r)).
      { destruct nsp as [p|]; cbn [qsrc] in A2; [|now apply fwds_ok]. rewrite <- app_assoc in A2. eapply fwdss_bind; [apply (expect_fwd p); exact A2|]. intros s3 A3. apply (expect_fwd [58]). exact A3. }
      intros s3 A3. eapply fwds_bind; [apply (expect_fwd n); exact A3|]. intros s4 A4. eapply fwds_bind; [eapply (space_fwd _ sp (62 :: r)); auto; cbn; unfold spc; cbn [In]; lia|]. intros s5 A5. eapply fwds_bind; [apply (expect_fwd [62]); exact A5|]. intros s6 A6. now apply fwd_ok.
    + set (z := 60 :: 47 :: _) in *. assert (X : (if cur st =? 60 then peek st 47 else Ok false) = Ok false).
      { destruct (cur st =? 60) eqn:C; auto. rewrite (at_hd _ _ A) in C. cbn [app] in A. rewrite (peek_fwd _ _ _ _ A). f_equal. apply Z.eqb_neq. apply (scont_start false v (d :: c) l z S ltac:(discriminate)); [|cbn in *; lia]. pose proof (t_ascii _ _ _ _ A) as Ta. change (d :: c ++ z) with ((d :: c) ++ z) in Ta. unfold ascii_file in Ta. rewrite Forall_app in Ta. apply Ta. }
      rewrite X. cbn [bind]. assert (Ln : l <> []). { intros ->. clear -S. remember false as top in S. remember (d :: c) as c1. remember (@nil tnode) as l1. revert Heqtop Heqc1 Heql1. revert d c. induction S; intros; subst; try discriminate. destruct H0 as [?|?]; congruence. }
      pose proof (content_fwd _ IH false v (d :: c) l S z (or_intror (conj eq_refl (conj eq_refl Ln)))) as F. destruct l as [|x l]; [congruence|]. destruct F as (c' & S' & F). eapply fwd_bind; [apply (F fuel st A)|]. intros s1 A1. eapply fwd_bind; [eapply (IH v (Some (nsp, n)) c' l z r s1 A1 S')|]. { exists sp. auto. } intros s2 A2. now apply fwd_ok.
  - destruct T as (-> & ->). cbn [bind]. pose proof (content_fwd _ IH true v c l S [] (or_introl (conj eq_refl eq_refl))) as F. destruct l as [|x l].
    + eapply fwd_bind; [apply (F fuel st A)|]. intros s1 A1. now apply fwd_ok.
    + destruct F as (c' & S' & F). eapply fwd_bind; [apply (F fuel st A)|]. intros s1 A1. eapply fwd_bind; [eapply (IH v None c' l [] [] s1 A1 S'); split; reflexivity|]. intros s2 A2. now apply fwd_ok.
Qed.
Lemma doctype_fwd fuel : forall b r st, At (b ++ 62 :: r) st -> ~ In 62 b -> fwds (doctype_loop e fuel st) (62 :: r).
Proof.
  induction fuel as [|fuel IH]; intros b r st A N; [left; reflexivity|]. cbn [doctype_loop]. rewrite (at_hd _ _ A). destruct b as [|c b].
  - cbn. now apply fwds_ok.
  - cbn [app hd] in *. replace (c =? 62) with false by (symmetry; apply Z.eqb_neq; intros ->; apply N; now left). pose proof (t_ascii _ _ _ _ A) as T. inversion T; subst. replace (c =? 0) with false by lia. eapply fwdss_bind; [eapply lex_fwd; exact A|]. intros s1 A1. apply (IH b r s1 A1). intros X. apply N. now right.
Qed.
Lemma prefix_app w l : prefix w (w ++ l) = true.
Proof. induction w; cbn; auto. rewrite Z.eqb_refl. auto. Qed.
Lemma scont_lt top v c l d r : scontent top v c l -> ascii_file c -> c = 60 :: d :: r -> d <> 63 /\ (d = 33 -> hd r 0 = 45).
Proof.
  intros S A E. destruct S as [top v|top v s t r' l Ns D H S|top v b r' l C H S|top v s x r' l EL S]; [discriminate| | |].
  - destruct s as [|y s]; [congruence|]. cbn in E. inversion E; subst. destruct (text_first _ _ _ D ltac:(discriminate) ltac:(lia)) as (X & _). cbn in X. congruence.
  - cbn in E. inversion E; subst. cbn. lia.
  - destruct (selem_hd _ _ _ EL) as (y & s' & -> & Nd). cbn in E. inversion E; subst. pose proof (name_char_not _ Nd). split; [tauto|]. intros ->. tauto.
Qed.
Lemma scont_no_q top v c l : scontent top v c l -> ascii_file c -> hd c 0 = 60 -> hd (tl c) 0 <> 63.
Proof. intros S A H. destruct c as [|x [|d r]]; cbn in *; try lia. subst x. apply (scont_lt _ _ _ _ d r S A eq_refl). Qed.
Lemma scont_no_dt top v c l w : scontent top v c l -> ascii_file c -> c = 60 :: w -> prefix doctype (w ++ [0]) = false.
Proof.
  intros S A ->. destruct w as [|d r]; [reflexivity|]. destruct (scont_lt _ _ _ _ d r S A eq_refl) as (_ & H). cbn [app doctype prefix]. destruct (33 =? d) eqn:E; [|reflexivity]. assert (X : hd r 0 = 45) by (apply H; lia). destruct r as [|y r]; cbn in X; [lia|]. subst y. reflexivity.
Qed.
Lemma doc_fwd fuel file a l st : At file st -> sdocument file a l -> fwd (c_doc e fuel st) (a, l) [].
Proof.
  intros A (p & raws & s & d & c & v & rest & -> & XD & Sp & DD & SC & DL & -> & CT). unfold c_doc.
  replace (cur st =? 65279) with false by (pose proof (at_range _ _ A); rewrite (at_hd _ _ A); lia). cbn [bind]. cbv zeta.
  assert (Ac : ascii_file c). { pose proof (t_ascii _ _ _ _ A) as T. unfold ascii_file in *. rewrite !Forall_app in T. tauto. }
  assert (B : fwd (do q <- (if cur st =? 60 then peek st 63 else Ok false);
    (if q then do st <- lex_next e st; do st <- lex_next e st; do (tag, st) <- c_tag e fuel st; if negb (equ tag [120; 109; 108]) then Err else do (attrs, c, st) <- c_attr_list e fuel (mk_tctxt [] None) st; do st <- expect e [63; 62] st; Ok (c, attrs, st)
     else Ok (mk_tctxt [] None, [], st))) (fromenv v, map plain rest) (s ++ d ++ c)).
  { destruct XD as [|sa raws SA].
    - inversion DL; subst. cbn [app] in A. replace (if cur st =? 60 then peek st 63 else Ok false) with (@Ok bool false).
      2: { destruct (cur st =? 60) eqn:C; auto. rewrite (at_hd _ _ A) in C. remember (s ++ d ++ c) as f eqn:Ef. destruct f as [|x f]; [cbn in C; lia|]. rewrite (peek_fwd _ _ _ _ A). f_equal. symmetry. apply Z.eqb_neq. cbn in C. assert (x = 60) by lia. subst x.
           destruct s as [|y s]. 2: { cbn in Ef. inversion Ef; subst. inversion Sp; subst. unfold spc in *. cbn [In] in *. lia. }
           cbn [app] in Ef. destruct DD as [|b s2 _ _]; cbn [app] in Ef; [|inversion Ef; cbn; lia]. subst c. pose proof (scont_no_q _ _ _ _ CT Ac eq_refl) as X. exact X. }
      cbn [bind map]. apply fwd_ok. exact A.
    - rewrite <- !app_assoc in A. cbn [app] in A. rewrite (at_hd _ _ A). cbn [hd Z.eqb Pos.eqb]. rewrite (peek_fwd _ _ _ _ A). cbn [hd Z.eqb Pos.eqb bind]. eapply fwds_bind; [eapply lex_fwd; exact A|]. intros s1 A1. eapply fwds_bind; [eapply lex_fwd; exact A1|]. intros s2 A2.
      set (z := 63 :: 62 :: s ++ d ++ c) in *. assert (T : stop (hd z 0)) by (cbn; unfold stop; auto). destruct (sep_nontag _ (sattrs_hd sa raws z SA T)) as (N1 & N2).
      eapply fwd_bind. { apply (tag_fwd fuel [120; 109; 108] (sa ++ z) s2 A2); auto. split; [|discriminate]. split; [|unfold digit; lia]. repeat constructor; unfold name_char; lia. }
      intros s3 A3. rewrite equ_yes. cbn [negb]. eapply fwd_bind. { apply (attrs_fwd fuel sa raws (mk_env [] None) v rest z s3 A3 SA DL T). } intros s4 A4. eapply fwds_bind; [apply (expect_fwd [63; 62]); exact A4|]. intros s5 A5. now apply fwd_ok. }
  assert (B2 : forall (K : tctxt -> list tattr -> state -> xres (list tattr * list tnode * state)) z, (forall s1, At (s ++ d ++ c) s1 -> fwd (K (fromenv v) (map plain rest) s1) z []) ->
    fwd (do q <- (if cur st =? 60 then peek st 63 else Ok false); do (c, attrs, st) <-
    (if q then do st <- lex_next e st; do st <- lex_next e st; do (tag, st) <- c_tag e fuel st; if negb (equ tag [120; 109; 108]) then Err else do (attrs, c, st) <- c_attr_list e fuel (mk_tctxt [] None) st; do st <- expect e [63; 62] st; Ok (c, attrs, st)
     else Ok (mk_tctxt [] None, [], st)); K c attrs st) z []).
  { intros K z HK. destruct (if cur st =? 60 then peek st 63 else Ok false); cbn [bind] in *; try (destruct B as [B|(? & B & _)]; discriminate); [|left; reflexivity]. eapply fwd_bind; [exact B|]. intros s1 A1. now apply HK. }
  apply (B2 (fun c attrs st => do st <- skip_space e fuel st; do st <- (if (cur st =? 60) && prefix doctype (skipn (nxt st) (mem st)) then do st <- expect e (60 :: doctype) st; do st <- doctype_loop e fuel st; do st <- lex_next e st; skip_space e fuel st else Ok st); do (n, st) <- c_content_list e fuel c None st; Ok (attrs, n, st))).
  clear B B2 A st. intros st A. assert (Nc : ~ spc (hd c 0)). { destruct c; cbn in *; auto. unfold spc. cbn [In]. lia. }
  eapply fwds_bind. { eapply space_fwd; [exact A|auto|]. destruct DD; auto. cbn. unfold spc. cbn [In]. lia. } intros s1 A1.
  eapply (fwds_bind _ c).
  { destruct DD as [|b s2 Nb S2].
    - cbn [app] in A1. replace (_ && _) with false; [now apply fwds_ok|]. symmetry. destruct (cur s1 =? 60) eqn:C; auto. cbn [andb]. rewrite (at_hd _ _ A1) in C. destruct c as [|x w]; [cbn in C; lia|]. cbn in C. assert (x = 60) by lia. subst x.
      destruct A1 as [M S _ N _ _]. cbn [app] in S. apply skipn_cons in S as (_ & S & _). rewrite N, M, S. eapply scont_no_dt; eauto.
    - rewrite <- app_assoc in A1. rewrite (at_hd _ _ A1). cbn [app hd Z.eqb Pos.eqb andb]. pose proof A1 as A1'. destruct A1' as [M S _ N _ _]. cbn [app] in S. cbn [app] in N. apply skipn_cons in S as (_ & S & _). rewrite N, M, S. cbn [app prefix doctype Z.eqb Pos.eqb andb].
      eapply fwdss_bind; [apply (expect_fwd (60 :: doctype)); exact A1|]. intros s3 A3. cbn [app] in A3. rewrite <- app_assoc in A3. eapply fwdss_bind; [eapply (doctype_fwd fuel b); [exact A3|auto]|]. intros s4 A4. eapply fwdss_bind; [eapply lex_fwd; exact A4|]. intros s5 A5. eapply (space_fwd fuel s2 c); auto. }
  intros s2 A2. eapply fwd_bind. { eapply (list_fwd fuel v None c l [] []); [rewrite app_nil_r; exact A2|exact CT|split; reflexivity]. } intros s3 A3. apply fwd_ok. exact A3.
Qed.
End Fwd.
(** The state at the beginning *)
Lemma at_start file st : ascii_file file -> lex_next (length file) (mk_state 0 0 0 (file ++ [0])) = Ok st -> At (file ++ [0]) (length file) file st.
Proof.
  intros A. unfold lex_next, decode, iter_get, iter_advance. cbn [pos size error mem nxt]. rewrite Nat.sub_0_r. destruct file as [|c r].
  - cbn. intros H. inversion H; subst. constructor; cbn; auto; constructor.
  - inversion A; subst. cbn [length Nat.eqb app nth_error ubind]. replace (c =? 0) with false by lia. cbn [orb ubind]. replace (c <? 128) with true by lia. cbn. intros H. inversion H; subst. constructor; cbn; auto.
Qed.
