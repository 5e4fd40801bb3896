(** What the parser accepts belongs to the language, and the tree is what the sentence means *)
From Coq Require Import ZArith Bool List Lia Arith ZifyBool.
From Verif Require Import Utf8_model Utf8_spec Utf8_proofs Xml_model Xml_spec Xml_spec2 Xml_proofs4.
Import ListNotations.
Local Open Scope Z_scope.

Lemma bind_ok {A B} (x : xres A) (f : A -> xres B) b : bind x f = Ok b -> exists a, x = Ok a /\ f a = Ok b.
Proof. destruct x; cbn; try discriminate. eauto. Qed.
Lemma decodes_app_nil d s t : decodes d s t -> decodes d (s ++ []) (t ++ []).
Proof. now rewrite !app_nil_r. Qed.

Ltac sp := repeat match goal with |- _ /\ _ => split end; auto.
Section Sound.
Variables (m0 : list Z) (e : nat).
(** The state in front of [r] *)
Record At (r : list Z) (st : state) : Prop := mk_At {
  t_mem : mem st = m0; t_skip : skipn (loc st) m0 = r ++ [0]; t_cur : cur st = hd r 0; t_nxt : nxt st = match r with [] => loc st | _ => S (loc st) end;
  t_len : (loc st + length r)%nat = e; t_ascii : ascii_file r }.
Lemma lex_nil st : At [] st -> lex_next e st = Ok st.
Proof.
  intros [M S C N L _]. cbn in *. unfold lex_next, decode, iter_get. cbn [pos size]. rewrite N. replace (Nat.eqb (e - loc st) 0) with true by (symmetry; apply Nat.eqb_eq; lia). cbn.
  f_equal. destruct st; cbn in *. subst. reflexivity.
Qed.
Lemma lex_cons c r st : At (c :: r) st -> exists st', lex_next e st = Ok st' /\ At r st' /\ loc st' = S (loc st).
Proof.
  intros [M S C N L A]. cbn in *. inversion A as [|? ? A1 A2]; subst. destruct (skipn_cons _ _ _ _ S) as (S1 & S2 & S3).
  destruct r as [|d r].
  - exists (mk_state 0 (Datatypes.S (loc st)) (Datatypes.S (loc st)) (mem st)). split.
    + unfold lex_next, decode, iter_get. cbn [pos size length]. rewrite N. replace (Nat.eqb _ 0) with true by (symmetry; apply Nat.eqb_eq; cbn in L; lia). reflexivity.
    + split; [|reflexivity]. cbn in L. constructor; cbn; auto; try lia.
  - cbn [app] in S2. cbn [length] in L. inversion A2 as [|? ? A3 A4]; subst.
    exists (mk_state d (Datatypes.S (loc st)) (Datatypes.S (Datatypes.S (loc st))) (mem st)). split.
    + unfold lex_next, decode, iter_get, iter_advance. cbn [pos size error]. rewrite N. replace (Nat.eqb _ 0) with false by (symmetry; apply Nat.eqb_neq; cbn in L; lia).
      destruct (skipn_cons _ _ _ _ S2) as (S4 & _). rewrite M, S4. cbn [ubind]. replace (d =? 0) with false by lia. cbn [orb ubind]. replace (d <? 128) with true by lia. cbn. do 2 f_equal. lia.
    + split; [|reflexivity]. constructor; cbn; auto. lia.
Qed.
Lemma lex_to c r st st' : At (c :: r) st -> lex_next e st = Ok st' -> At r st'.
Proof. intros A H. destruct (lex_cons _ _ _ A) as (s & E & B & _). congruence. Qed.
(** A character that is not NUL is consumed *)
Lemma lex_adv r st st' : At r st -> lex_next e st = Ok st' -> (r = [] /\ st' = st) \/ (exists c r', r = c :: r' /\ At r' st').
Proof. intros A H. destruct r as [|c r]. { rewrite lex_nil in H by auto. left. split; congruence. } right. exists c, r. split; [auto|eapply lex_to; eauto]. Qed.
Lemma at_cur r st c : At r st -> cur st = c -> c <> 0 -> exists r', r = c :: r'.
Proof. intros [_ _ C _ _ _] H N. destruct r as [|d r]; cbn in C; [congruence|]. exists r. f_equal. congruence. Qed.
Lemma at_nil r st : At r st -> cur st = 0 -> r = [].
Proof. intros [_ _ C _ _ A] H. destruct r as [|d r]; auto. inversion A; subst. cbn in C. lia. Qed.
Lemma at_peek c r st x b : At (c :: r) st -> peek st x = Ok b -> b = (hd r 0 =? x).
Proof.
  intros [M S C N L A] H. unfold peek in H. cbn [app] in S. destruct (skipn_cons _ _ _ _ S) as (_ & S2 & _). rewrite N, M in H. destruct r as [|d r]; cbn [app] in S2; destruct (skipn_cons _ _ _ _ S2) as (S3 & _); rewrite S3 in H; inversion H; reflexivity.
Qed.
Ltac inv_bind H := let x := fresh "x" in let E := fresh "E" in apply bind_ok in H as (x & E & H).
Ltac step H S A := match type of H with bind (lex_next _ _) _ = _ => let s := fresh "s" in let E := fresh "E" in apply bind_ok in H as (s & E & H); pose proof (lex_to _ _ _ _ A E) as S; clear E end.

Lemma space_sound fuel : forall r st st', At r st -> skip_space e fuel st = Ok st' -> exists s r', r = s ++ r' /\ At r' st' /\ spaces s.
Proof.
  induction fuel as [|fuel IH]; intros r st st' A H; cbn [skip_space] in H; [discriminate|]. destruct (is_space (cur st)) eqn:Sp.
  - inv_bind H. destruct r as [|c r]. { pose proof (t_cur _ _ A) as C. cbn in C. rewrite C in Sp. discriminate. }
    pose proof (lex_to _ _ _ _ A E) as A'. destruct (IH _ _ _ A' H) as (s & r' & -> & A2 & G). exists (c :: s), r'. sp. constructor; auto.
    pose proof (t_cur _ _ A) as C. cbn in C. rewrite C in Sp. pose proof (t_ascii _ _ A) as T. inversion T; subst. unfold is_space in Sp. unfold spc. cbn. lia.
  - inversion H; subst. exists [], r. sp. constructor.
Qed.
Lemma expect_sound w : forall r st st', Forall (fun c => c <> 0) w -> At r st -> expect e w st = Ok st' -> exists r', r = w ++ r' /\ At r' st'.
Proof.
  induction w as [|c w IH]; intros r st st' W A H; cbn [expect] in H. { inversion H; subst. exists r. auto. }
  destruct (cur st =? c) eqn:C; cbn [negb] in H; [|discriminate]. inversion W; subst. destruct (at_cur r st c A ltac:(lia) H2) as (r1 & ->). inv_bind H. destruct (IH r1 x st' H3 (lex_to _ _ _ _ A E) H) as (r' & -> & A'). exists r'. auto.
Qed.
Definition tagch (c : Z) : Prop := is_tag_char c = true.
Lemma tagch_name c : 0 < c < 128 -> is_tag_char c = true -> name_char c.
Proof.
  intros B. unfold is_tag_char, is_space. destruct (_ || _) eqn:Sp; [discriminate|]. replace (127 <? c) with false by lia. intros H. apply negb_true_iff in H. cbn [existsb] in H. unfold name_char, digit, spc. cbn. lia.
Qed.
Lemma tag_loop_sound fuel : forall r st st', At r st -> tag_loop e fuel st = Ok st' -> exists s r', r = s ++ r' /\ At r' st' /\ Forall name_char s /\ loc st' = (loc st + length s)%nat.
Proof.
  induction fuel as [|fuel IH]; intros r st st' A H; cbn [tag_loop] in H; [discriminate|]. destruct (is_tag_char (cur st)) eqn:Sp.
  - inv_bind H. destruct r as [|c r]. { rewrite lex_nil in E by auto. inversion E; subst. unfold same in H. rewrite Z.eqb_refl, !Nat.eqb_refl in H. discriminate. }
    destruct (lex_cons _ _ _ A) as (y & E' & A' & Ly). assert (x = y) by congruence. subst y. destruct (same st x); [discriminate|]. destruct (IH _ _ _ A' H) as (s & r' & -> & A2 & G & L). exists (c :: s), r'. sp; [|cbn; lia].
    constructor; auto. pose proof (t_cur _ _ A) as C. cbn in C. rewrite C in Sp. pose proof (t_ascii _ _ A) as T. inversion T; subst. apply tagch_name; auto.
  - inversion H; subst. exists [], r. sp.
Qed.
Lemma seg_at s r st n : At (s ++ r) st -> n = (loc st + length s)%nat -> segment m0 (loc st) n = s.
Proof. intros [M S C N L A] ->. unfold segment. rewrite S. replace (loc st + length s - loc st)%nat with (length s) by lia. rewrite <- app_assoc. rewrite firstn_app, firstn_all, Nat.sub_diag. cbn. now rewrite app_nil_r. Qed.
Lemma tag_sound fuel r st n st' : At r st -> c_tag e fuel st = Ok (n, st') -> exists r', r = n ++ r' /\ At r' st' /\ name n.
Proof.
  intros A H. unfold c_tag in H. inv_bind H. inversion H; subst x. destruct (maybe_tag_begin (cur st)) eqn:B.
  - destruct (tag_loop_sound _ _ _ _ A E) as (s & r' & -> & A' & G & L). exists r'. rewrite (t_mem _ _ A'). rewrite (seg_at s r' st _ A L). sp. split; [exact G|].
    destruct s as [|c s]; auto. pose proof (t_cur _ _ A) as C. cbn in C. rewrite C in B. unfold maybe_tag_begin in B. unfold digit. lia.
  - inversion E; subst. exists r. unfold segment. rewrite Nat.sub_diag. cbn. sp. split; [constructor|exact I].
Qed.
Lemma qname_sound fuel r st q n st' : At r st -> c_scoped_name e fuel st = Ok (q, n, st') -> exists s r', r = s ++ r' /\ At r' st' /\ qname s q n.
Proof.
  intros A H. unfold c_scoped_name in H. inv_bind H. destruct x as (p, s1). destruct (tag_sound _ _ _ _ _ A E) as (r1 & -> & A1 & N1). destruct (cur s1 =? 58) eqn:C.
  - destruct (at_cur _ _ 58 A1 ltac:(lia) ltac:(lia)) as (r2 & ->). step H A2 A1. inv_bind H. destruct x as (n', s3). inversion H; subst. destruct (tag_sound _ _ _ _ _ A2 E0) as (r3 & -> & A3 & N3). exists (p ++ 58 :: n), r3. sp. { now rewrite <- app_assoc. } now constructor.
  - inversion H; subst. exists n, r1. sp. now constructor.
Qed.

(** * Text *)
Lemma num_sound fuel : forall base n0 r st v st', At r st -> base <= 16 -> read_num e fuel base n0 st = Ok (v, st') ->
  exists s r', r = s ++ r' /\ At r' st' /\ Forall (fun c => 0 <= digit_val c < base) s /\ (v = n0 \/ v = val base s n0 mod 4294967296) /\ (s = [] -> v = n0) /\ (s <> [] -> v = val base s n0 mod 4294967296).
Proof.
  induction fuel as [|fuel IH]; intros base n0 r st v st' A B H; cbn [read_num] in H; [discriminate|]. destruct (base <=? digit_val (cur st)) eqn:D.
  - inversion H; subst. exists [], r. sp. congruence.
  - inv_bind H. destruct r as [|c r]. { pose proof (t_cur _ _ A) as C. cbn in C. rewrite C in D. cbn in D. lia. }
    destruct (IH _ _ _ _ _ _ (lex_to _ _ _ _ A E) B H) as (s & r' & -> & A2 & G & V & V0 & V1). exists (c :: s), r'. pose proof (t_cur _ _ A) as C. cbn in C. rewrite C in D, H, V, V0, V1.
    assert (R : v = val base (c :: s) n0 mod 4294967296).
    { cbn [val fold_left]. destruct s as [|d s]; [now apply V0|]. rewrite (V1 ltac:(discriminate)). unfold val. clear. set (f := fun n c0 => n * base + digit_val c0).
      assert (X : forall l a b, a mod 4294967296 = b mod 4294967296 -> fold_left f l a mod 4294967296 = fold_left f l b mod 4294967296).
      { induction l as [|x l IH]; intros a b Hab; cbn; auto. apply IH. unfold f. rewrite Z.add_mod, Z.mul_mod, Hab, <- Z.mul_mod, <- Z.add_mod by lia. reflexivity. }
      apply X. now rewrite Z.mod_mod by lia. }
    sp; [|congruence]. constructor; auto. unfold digit_val in *. repeat match goal with |- context [if ?b then _ else _] => destruct b eqn:? end; lia.
Qed.
Lemma val_dec l : Forall (fun c => 0 <= digit_val c < 10) l -> dec l (val 10 l 0).
Proof.
  induction l as [|c l IH] using rev_ind; intros F; [constructor|]. rewrite Forall_app in F. destruct F as (F1 & F2). inversion F2; subst. rewrite val_app.
  assert (X : 48 <= c <= 57 /\ digit_val c = c - 48). { unfold digit_val in *. repeat match goal with H : context [if ?b then _ else _] |- _ => destruct b eqn:? end; lia. }
  destruct X as (X & ->). replace (val 10 l 0 * 10 + (c - 48)) with (10 * val 10 l 0 + (c - 48)) by lia. constructor; auto.
Qed.
Lemma val_hex l : Forall (fun c => 0 <= digit_val c < 16) l -> hex l (val 16 l 0).
Proof.
  induction l as [|c l IH] using rev_ind; intros F; [constructor|]. rewrite Forall_app in F. destruct F as (F1 & F2). inversion F2; subst. rewrite val_app.
  assert (X : hexdigit c (digit_val c)). { unfold hexdigit, digit_val in *. repeat match goal with H : context [if ?b then _ else _] |- _ => destruct b eqn:? end; lia. }
  replace (val 16 l 0 * 16 + digit_val c) with (16 * val 16 l 0 + digit_val c) by lia. constructor; auto.
Qed.
Definition dref (s : list Z) (v : Z) : Prop :=
  (exists n, In (n, v) named /\ s = 38 :: n) \/ (exists l w, dec l w /\ v = w mod 2 ^ 32 /\ s = 38 :: 35 :: l) \/ (exists x l w, (x = 120 \/ x = 88) /\ hex l w /\ v = w mod 2 ^ 32 /\ s = 38 :: 35 :: x :: l).
Ltac nz := repeat constructor; discriminate.
Lemma entity_sound fuel r st v st' : At (38 :: r) st -> entity e fuel st = Ok (v, st') -> exists s r', 38 :: r = s ++ 59 :: r' /\ At (59 :: r') st' /\ dref s v.
Proof.
  intros A H. unfold entity in H. step H A1 A. inv_bind H. destruct x as (c, s1). destruct (cur s1 =? 59) eqn:C; cbn [negb] in H; [|discriminate]. inversion H; subst c s1. clear H.
  assert (FIN : forall n, In (n, v) named -> forall w, Forall (fun c => c <> 0) w -> forall r1 p, At r1 p -> expect e w p = Ok st' -> 38 :: r = 38 :: firstn (length n - length w) n ++ r1 -> n = firstn (length n - length w) n ++ w -> exists s r', 38 :: r = s ++ 59 :: r' /\ At (59 :: r') st' /\ dref s v).
  { intros n I w W r1 p Ap Ep Hr Hn. destruct (expect_sound w r1 p st' W Ap Ep) as (r2 & -> & A2). destruct (at_cur _ _ 59 A2 ltac:(lia) ltac:(lia)) as (r3 & ->). exists (38 :: n), r3. split; [|split; [auto|left; eauto]].
    rewrite Hr. rewrite Hn at 3. cbn. now rewrite <- app_assoc. }
  assert (C1 : cur s = hd r 0) by apply A1.
  destruct (cur s =? 113) eqn:Q1. { apply bind_ok in E as (y & Ey & E); inversion E; subst y. subst v. eapply (FIN [113; 117; 111; 116]); [cbn; auto| |exact A1|eassumption|reflexivity|reflexivity]. nz. }
  destruct (cur s =? 108) eqn:Q2. { apply bind_ok in E as (y & Ey & E); inversion E; subst y. subst v. eapply (FIN [108; 116]); [cbn; auto| |exact A1|eassumption|reflexivity|reflexivity]. nz. }
  destruct (cur s =? 103) eqn:Q3. { apply bind_ok in E as (y & Ey & E); inversion E; subst y. subst v. eapply (FIN [103; 116]); [cbn; auto| |exact A1|eassumption|reflexivity|reflexivity]. nz. }
  destruct (cur s =? 97) eqn:Q4.
  { destruct (at_cur _ _ 97 A1 ltac:(lia) ltac:(lia)) as (r2 & ->). step E A2 A1. destruct (cur s0 =? 109).
    - apply bind_ok in E as (y & Ey & E); inversion E; subst y. subst v. eapply (FIN [97; 109; 112]); [cbn; auto 10| |exact A2|eassumption|reflexivity|reflexivity]. nz.
    - apply bind_ok in E as (y & Ey & E); inversion E; subst y. subst v. eapply (FIN [97; 112; 111; 115]); [cbn; auto 10| |exact A2|eassumption|reflexivity|reflexivity]. nz. }
  destruct (cur s =? 35) eqn:Q5; [|discriminate]. destruct (at_cur _ _ 35 A1 ltac:(lia) ltac:(lia)) as (r2 & ->). step E A2 A1.
  destruct ((cur s0 =? 120) || (cur s0 =? 88)) eqn:X.
  - assert (exists x r3, (x = 120 \/ x = 88) /\ r2 = x :: r3) as (x & r3 & Hx & ->). { destruct (cur s0 =? 120) eqn:X1; [destruct (at_cur _ _ 120 A2 ltac:(lia) ltac:(lia)) as (r3 & ->)|destruct (at_cur _ _ 88 A2 ltac:(lia) ltac:(lia)) as (r3 & ->)]; eauto. }
    step E A3 A2. destruct (num_sound _ 16 _ _ _ _ _ A3 ltac:(lia) E) as (l & r4 & -> & A4 & F & _ & V0 & V1). destruct (at_cur _ _ 59 A4 ltac:(lia) ltac:(lia)) as (r5 & ->).
    exists (38 :: 35 :: x :: l), r5. split; [reflexivity|]. split; auto. right. right. exists x, l, (val 16 l 0). split; auto. split; [now apply val_hex|]. split; auto. destruct l; [now apply V0|apply V1; discriminate].
  - destruct (num_sound _ 10 _ _ _ _ _ A2 ltac:(lia) E) as (l & r4 & -> & A4 & F & _ & V0 & V1). destruct (at_cur _ _ 59 A4 ltac:(lia) ltac:(lia)) as (r5 & ->).
    exists (38 :: 35 :: l), r5. split; [reflexivity|]. split; auto. right. left. exists l, (val 10 l 0). split; [now apply val_dec|]. split; auto. destruct l; [now apply V0|apply V1; discriminate].
Qed.
Lemma ok_scalar v : 0 <= v -> utf8_ok v = true -> scalar v.
Proof. unfold scalar, utf8_ok. lia. Qed.
Lemma text_sound fuel : forall delim r st l st', At r st -> c_text e fuel delim st = Ok (l, st') ->
  exists s r' t, r = s ++ r' /\ At r' st' /\ decodes delim s t /\ l = flat_map utf8 t /\ (s = [] -> cur st = delim \/ cur st = 60 \/ cur st = 0).
Proof.
  induction fuel as [|fuel IH]; intros delim r st l st' A H; cbn [c_text] in H; [discriminate|]. destruct (_ || _) eqn:D.
  - inversion H; subst. exists [], r, []. sp. constructor. lia.
  - inv_bind H. destruct x as (c, s1). destruct (utf8_ok c) eqn:U; cbn [negb] in H; [|discriminate].
    destruct (cur st =? 38) eqn:Am.
    + destruct (at_cur _ _ 38 A ltac:(lia) ltac:(lia)) as (r1 & ->). destruct (entity_sound _ _ _ _ _ A E) as (sr & r2 & Hr & A2 & DR). rewrite Hr.
      assert (SC : scalar c). { apply ok_scalar; auto. destruct DR as [(n & I & _)|[(l0 & w & _ & -> & _)|(x & l0 & w & _ & _ & -> & _)]]; [cbn in I; destruct I as [I|[I|[I|[I|[I|[]]]]]]; inversion I; lia| |]; apply Z.mod_pos_bound; lia. }
      rewrite (encode_utf8 [0] 0%nat eq_refl c SC) in H. step H A3 A2. inv_bind H. destruct x as (t', s3). inversion H; subst. destruct (IH _ _ _ _ _ A3 E0) as (s4 & r' & t & -> & A4 & Dt & -> & _).
      exists (sr ++ 59 :: s4), r', (c :: t). split; [now rewrite <- app_assoc|]. split; auto. split; [|split; [reflexivity|intros X; now destruct sr]].
      destruct DR as [(n & I & ->)|[(l0 & w & W & -> & ->)|(x & l0 & w & X & W & -> & ->)]]; cbn [app]; [apply dc_named|apply dc_dec|apply dc_hex]; auto.
    + inversion E; subst c s1. destruct r as [|c r]. { pose proof (t_cur _ _ A) as C. cbn in C. lia. } pose proof (t_cur _ _ A) as C. cbn in C. rewrite C in *. pose proof (t_ascii _ _ A) as T. inversion T; subst.
      rewrite (encode_utf8 [0] 0%nat eq_refl (cur st)) in H by (apply ok_scalar; auto; lia). step H A2 A. inv_bind H. destruct x as (t', s3). inversion H; subst. destruct (IH _ _ _ _ _ A2 E0) as (s4 & r' & t & -> & A4 & Dt & -> & _).
      exists (cur st :: s4), r', (cur st :: t). sp; [constructor; auto; lia|discriminate].
Qed.

(** * Attributes *)
Lemma attr_sound fuel r st x st' : At r st -> c_attr e fuel st = Ok (x, st') ->
  exists s r', r = s ++ r' /\ At r' st' /\ match x with None => spaces s | Some y => exists s1 a, s = s1 ++ a /\ spaces s1 /\ attribute a y end.
Proof.
  intros A H. unfold c_attr in H. inv_bind H. destruct (space_sound _ _ _ _ A E) as (s1 & r1 & -> & A1 & G1). clear E. destruct (_ || _); [inversion H; subst; exists s1, r1; sp|].
  inv_bind H. destruct x1 as ((nsp, n), s2). destruct (qname_sound _ _ _ _ _ _ A1 E) as (q & r2 & -> & A2 & Q). clear E.
  destruct (cur s2 =? 61) eqn:C; cbn [negb] in H.
  - destruct (at_cur _ _ 61 A2 ltac:(lia) ltac:(lia)) as (r3 & ->). step H A3 A2. destruct (negb (cur s =? 34) && negb (cur s =? 39)) eqn:Dl; [discriminate|].
    set (d := cur s) in *. assert (Dq : d = 34 \/ d = 39) by lia. destruct (at_cur _ _ d A3 eq_refl ltac:(lia)) as (r4 & ->). step H A4 A3. inv_bind H. destruct x1 as (v, s5). destruct (text_sound _ _ _ _ _ _ A4 E) as (t & r5 & tt & -> & A5 & T & -> & _). clear E.
    destruct (cur s5 =? d) eqn:C5; cbn [negb] in H; [|discriminate]. destruct (at_cur _ _ d A5 ltac:(lia) ltac:(lia)) as (r6 & ->). step H A6 A5. inversion H; subst x st'.
    exists (s1 ++ q ++ 61 :: d :: t ++ [d]), r6. split. { rewrite <- !app_assoc. cbn. now rewrite <- !app_assoc. } split; auto. exists s1, (q ++ 61 :: d :: t ++ [d]). sp. now constructor.
  - inversion H; subst. exists (s1 ++ q), r2. split; [now rewrite app_assoc|]. split; auto. exists s1, q. sp. now constructor.
Qed.
Definition toenv (c : tctxt) : env := mk_env (t_map c) (t_default c).
Definition toraw (a : tattr) : raw := (t_nsp a, t_name a, t_value a).
Lemma equ_spec a b : equ a b = true <-> a = b.
Proof. unfold equ. destruct (list_eq_dec Z.eq_dec a b); split; congruence. Qed.
Lemma attrs_sound fuel : forall c r st l c' st', At r st -> c_attr_list e fuel c st = Ok (l, c', st') ->
  exists s r' raws, r = s ++ r' /\ At r' st' /\ attributes s raws /\ declares (toenv c) raws (toenv c') (map toraw l) /\ Forall (fun a => t_ns a = None) l.
Proof.
  induction fuel as [|fuel IH]; intros c r st l c' st' A H; cbn [c_attr_list] in H; [discriminate|]. inv_bind H. destruct x as ([((nsp, n), v)|], s1).
  2: { inversion H; subst. destruct (attr_sound _ _ _ _ _ A E) as (s & r' & -> & A' & G). exists s, r', []. sp; constructor; auto. }
  destruct (attr_sound _ _ _ _ _ A E) as (s & r1 & -> & A1 & (sp1 & a & -> & G1 & G2)). destruct (same st s1); [discriminate|].
  assert (FIN : forall c2 s2 l2, c_attr_list e fuel c2 s1 = Ok (l2, c', st') -> s2 = s1 -> exists s r' raws, r1 = s ++ r' /\ At r' st' /\ attributes s raws /\ declares (toenv c2) raws (toenv c') (map toraw l2) /\ Forall (fun a => t_ns a = None) l2) by (intros; subst; eapply IH; eauto).
  assert (PUT : forall s' r' raws, r1 = s' ++ r' -> attributes s' raws -> (sp1 ++ a) ++ r1 = (sp1 ++ a ++ s') ++ r' /\ attributes (sp1 ++ a ++ s') ((nsp, n, v) :: raws)).
  { intros s' r' raws -> G. split; [now rewrite <- !app_assoc|]. now constructor. }
  destruct (match nsp with Some q => equ q xmlns | None => false end) eqn:X1.
  { destruct nsp as [q|]; [|discriminate]. apply equ_spec in X1. subst q. destruct (FIN _ _ _ H eq_refl) as (s' & r' & raws & R1 & A2 & G & D & F). destruct (PUT _ _ _ R1 G) as (P1 & P2). exists (sp1 ++ a ++ s'), r', ((Some xmlns, n, v) :: raws). sp. now constructor. }
  destruct (match nsp with None => equ n xmlns | Some _ => false end) eqn:X2.
  { destruct nsp as [q|]; [discriminate|]. apply equ_spec in X2. subst n. destruct v as [v|]; [|discriminate]. destruct (FIN _ _ _ H eq_refl) as (s' & r' & raws & R1 & A2 & G & D & F). destruct (PUT _ _ _ R1 G) as (P1 & P2). exists (sp1 ++ a ++ s'), r', ((None, xmlns, Some v) :: raws). sp. now constructor. }
  inv_bind H. destruct x as ((l2, c2), s3). inversion H; subst l c2 s3. destruct (FIN _ _ _ E0 eq_refl) as (s' & r' & raws & R1 & A2 & G & D & F). destruct (PUT _ _ _ R1 G) as (P1 & P2). exists (sp1 ++ a ++ s'), r', ((nsp, n, v) :: raws). sp.
  cbn. constructor; auto.
  - intros ->. assert (equ s_xmlns xmlns = true) by now apply equ_spec. congruence.
  - intros (-> & ->). assert (equ s_xmlns xmlns = true) by now apply equ_spec. congruence.
Qed.
Lemma map_sound l p ns : c_map l p = Ok ns -> exists u, ns = Some u /\ uri_of l p u.
Proof.
  induction l as [|(n, v) l IH]; cbn; [discriminate|]. destruct (equ n p) eqn:Q.
  - apply equ_spec in Q. subst. destruct v; [|discriminate]. inversion 1; subst. exists s. split; auto. constructor.
  - intros H. destruct (IH H) as (u & -> & U). exists u. split; auto. constructor; auto. intros ->. assert (equ p p = true) by now apply equ_spec. congruence.
Qed.
Lemma ns_sound c nsp b ns : c_ns c nsp b = Ok ns -> uri (toenv c) nsp (if b then t_default c else None) ns.
Proof. destruct nsp as [p|]; cbn; [apply map_sound|]. now inversion 1. Qed.
Lemma cattrs_sound c l : forall l', c_attrs c l = Ok l' -> Forall2 (resolved (toenv c)) (map toraw l) l'.
Proof.
  induction l as [|a l IH]; intros l' H; cbn in H. { inversion H. constructor. } inv_bind H. inv_bind H. inversion H; subst. constructor; auto. cbn. exists x. split; auto. now apply (ns_sound c (t_nsp a) false).
Qed.

(** * Content *)
Lemma comment_sound fuel : forall r st st', At r st -> skip_comment e fuel st = Ok st' -> exists b r', r = b ++ [45; 45; 62] ++ r' /\ At r' st' /\ comment b.
Proof.
  induction fuel as [|fuel IH]; intros r st st' A H; cbn [skip_comment] in H; [discriminate|]. inv_bind H. destruct x.
  - destruct (expect_sound [45; 45; 62] r st st' ltac:(nz) A H) as (r' & -> & A'). exists [], r'. sp. intros x y X. cbn in X. destruct x as [|? [|? x]]; discriminate.
  - inv_bind H. destruct (same st x) eqn:Sm; [discriminate|]. destruct (lex_adv _ _ _ A E0) as [(-> & ->)|(c & r1 & -> & A1)]. { unfold same in Sm. rewrite Z.eqb_refl, !Nat.eqb_refl in Sm. discriminate. }
    destruct (IH _ _ _ A1 H) as (b & r' & -> & A2 & G). exists (c :: b), r'. sp. intros u v X. destruct u as [|c' u].
    + cbn in X. inversion X as [[X1 X2]]. pose proof (t_cur _ _ A) as C. cbn in C. rewrite C, X1 in E. cbn [Z.eqb Pos.eqb] in E. apply at_peek with (c := c) (r := b ++ [45; 45; 62] ++ r') in E; auto. destruct b as [|d b]; cbn in X2, E; [discriminate|]. inversion X2. lia.
    + cbn in X. inversion X as [[X1 X2]]. now apply G in X2.
Qed.
Definition qsrc (nsp : option str) (n : str) : list Z := match nsp with Some p => p ++ 58 :: n | None => n end.
Lemma qname_src q nsp n : qname q nsp n -> q = qsrc nsp n /\ match nsp with Some p => name p | None => True end /\ name n.
Proof. destruct 1; cbn; auto. Qed.
Lemma name_nz n : name n -> Forall (fun c => c <> 0) n.
Proof. intros (F & _). eapply Forall_impl; [|exact F]. intros c. unfold name_char, digit, spc. cbn. lia. Qed.
Definition rec_sound (rec : tctxt -> option (option str * str) -> state -> xres (list tnode * state)) : Prop :=
  forall c tag r st l st', At r st -> rec c tag st = Ok (l, st') -> match tag with Some (nsp, n) => match nsp with Some p => name p | None => True end /\ name n | None => True end ->
  exists s r', r = s ++ r' /\ At r' st' /\ match tag with None => r' = [] /\ content (toenv c) s l | Some (nsp, n) => exists c0 sp, s = c0 ++ 60 :: 47 :: qsrc nsp n ++ sp ++ [62] /\ spaces sp /\ content (toenv c) c0 l end.
Lemma elem_sound rec fuel c r st x st' : rec_sound rec -> At (60 :: r) st -> forall st1, lex_next e st = Ok st1 -> c_elem e rec fuel c st1 = Ok (x, st') ->
  exists s r', 60 :: r = s ++ r' /\ At r' st' /\ element (toenv c) s x.
Proof.
  intros R A0 st1 L H. pose proof (lex_to _ _ _ _ A0 L) as A. unfold c_elem in H. inv_bind H. destruct x0 as ((nsp, n), s1). destruct (qname_sound _ _ _ _ _ _ A E) as (q & r1 & -> & A1 & Q). clear E.
  inv_bind H. destruct x0 as ((at1, c'), s2). destruct (attrs_sound _ _ _ _ _ _ _ A1 E) as (a & r2 & raws & -> & A2 & G2 & D2 & _). clear E. inv_bind H. inv_bind H. pose proof (ns_sound _ _ _ _ E) as U. pose proof (cattrs_sound _ _ _ E0) as RS. cbn in U. clear E E0.
  destruct (cur s2 =? 47).
  - inv_bind H. inversion H; subst. destruct (expect_sound [47; 62] _ _ _ ltac:(nz) A2 E) as (r3 & -> & A3). exists (60 :: q ++ a ++ [47; 62]), r3. split; [cbn; now rewrite <- !app_assoc|]. split; auto. eapply el_empty; eauto.
  - inv_bind H. destruct (expect_sound [62] _ _ _ ltac:(nz) A2 E) as (r3 & -> & A3). clear E. inv_bind H. destruct x3 as (ch, s4). inversion H; subst. destruct (qname_src _ _ _ Q) as (Qs & Qn). destruct (R _ _ _ _ _ _ A3 E Qn) as (s & r4 & -> & A4 & (c0 & sp & -> & G & CT)).
    exists (60 :: q ++ a ++ 62 :: c0 ++ 60 :: 47 :: q ++ sp ++ [62]), r4. split. { cbn. rewrite <- Qs. rewrite <- !app_assoc. cbn. rewrite <- !app_assoc. cbn. now rewrite <- !app_assoc. } split; auto. eapply el_full; eauto.
Qed.
Definition pre (v : env) (s : list Z) (l : list tnode) : Prop := forall r2 l2, content v r2 l2 -> content v (s ++ r2) (l ++ l2).
Lemma content_sound rec fuel : rec_sound rec -> forall c r st x st', At r st -> c_content e rec fuel c st = Ok (x, st') ->
  exists s r', r = s ++ r' /\ At r' st' /\ match x with None => r' = [] /\ pre (toenv c) s [] | Some y => pre (toenv c) s [y] end.
Proof.
  intros R. induction fuel as [|fuel IH]; intros c r st x st' A H; cbn [c_content] in H; [discriminate|]. destruct (cur st =? 0) eqn:C0.
  { inversion H; subst. pose proof (at_nil _ _ A ltac:(lia)) as X0. subst r. exists [], []. sp. intros r2 l2. auto. }
  destruct (cur st =? 60) eqn:C1.
  - destruct (at_cur _ _ 60 A ltac:(lia) ltac:(lia)) as (r1 & ->). inv_bind H. pose proof (lex_to _ _ _ _ A E) as A1. destruct (cur x0 =? 33) eqn:C2.
    + inv_bind H. destruct (expect_sound [33; 45; 45] _ _ _ ltac:(nz) A1 E0) as (r2 & -> & A2). inv_bind H. destruct (comment_sound _ _ _ _ A2 E1) as (b & r3 & -> & A3 & G). destruct (IH _ _ _ _ _ A3 H) as (s & r' & -> & A4 & P).
      exists ([60; 33; 45; 45] ++ b ++ [45; 45; 62] ++ s), r'. split. { cbn. now rewrite <- ?app_assoc. } split; auto.
      assert (PP : forall l, pre (toenv c) s l -> pre (toenv c) ([60; 33; 45; 45] ++ b ++ [45; 45; 62] ++ s) l). { intros l Pl r2 l2 CT. rewrite <- !app_assoc. apply ct_comment; auto. }
      destruct x; [auto|]. destruct P as (P1 & P2). auto.
    + inv_bind H. destruct x1 as (y, s2). inversion H; subst. destruct (elem_sound _ _ _ _ _ _ _ R A _ E E0) as (s & r' & -> & A2 & EL). exists s, r'. sp. intros r2 l2 CT. cbn. now constructor.
  - inv_bind H. destruct x0 as (t, s2). inversion H; subst. destruct (text_sound _ _ _ _ _ _ A E) as (s & r' & tt & -> & A2 & D & -> & N). exists s, r'. sp. intros r2 l2 CT. cbn. constructor; auto. intros ->. destruct (N eq_refl) as [?|[?|?]]; lia.
Qed.
Lemma list_sound fuel : rec_sound (c_content_list e fuel).
Proof.
  induction fuel as [|fuel IH]; intros c tag r st l st' A H T; cbn [c_content_list] in H; [discriminate|]. inv_bind H.
  assert (OTHER : (do (n, st) <- c_content e (c_content_list e fuel) fuel c st; match n with None => match tag with Some _ => Err | None => Ok ([], st) end | Some n => do (r, st) <- c_content_list e fuel c tag st; Ok (n :: r, st) end) = Ok (l, st') ->
    exists s r', r = s ++ r' /\ At r' st' /\ match tag with None => r' = [] /\ content (toenv c) s l | Some (nsp, n) => exists c0 sp, s = c0 ++ 60 :: 47 :: qsrc nsp n ++ sp ++ [62] /\ spaces sp /\ content (toenv c) c0 l end).
  { clear H. intros H. inv_bind H. destruct x0 as (n, s1). destruct (content_sound _ _ IH _ _ _ _ _ A E0) as (s & r' & -> & A1 & P). destruct n as [n|].
    - inv_bind H. destruct x0 as (l2, s2). inversion H; subst. destruct (IH _ _ _ _ _ _ A1 E1 T) as (s3 & r3 & -> & A3 & G). exists (s ++ s3), r3. split; [now rewrite app_assoc|]. split; auto. destruct tag as [(nsp, nm)|].
      + destruct G as (c0 & sp & -> & G1 & G2). exists (s ++ c0), sp. split; [now rewrite <- app_assoc|]. split; auto. apply (P c0 l2 G2).
      + destruct G as (-> & G). split; auto. apply (P s3 l2 G).
    - destruct tag as [(nsp, nm)|]; [discriminate|]. inversion H; subst. destruct P as (-> & P). exists s, []. sp. specialize (P [] [] ltac:(constructor)). now rewrite app_nil_r in P. }
  destruct x; [|now apply OTHER]. destruct tag as [(nsp, n)|]; [|now apply OTHER]. clear OTHER. destruct (cur st =? 60) eqn:C; [|discriminate].
  destruct (at_cur _ _ 60 A ltac:(lia) ltac:(lia)) as (r1 & ->). apply (at_peek _ _ _ _ _ A) in E. step H A1 A. assert (exists r2, r1 = 47 :: r2) as (r2 & ->). { destruct r1 as [|d r1]; cbn in E; [discriminate|]. exists r1. f_equal. lia. }
  step H A2 A1. inv_bind H. destruct T as (T1 & T2).
  assert (exists r3, r2 = match nsp with Some p => p ++ [58] | None => [] end ++ r3 /\ At r3 x) as (r3 & -> & A3).
  { destruct nsp as [p|]; [|inversion E0; subst; exists r2; auto]. inv_bind E0. destruct (expect_sound p _ _ _ (name_nz _ T1) A2 E1) as (r4 & -> & A4). destruct (expect_sound [58] _ _ _ ltac:(nz) A4 E0) as (r5 & -> & A5). exists r5. split; auto. now rewrite <- app_assoc. }
  inv_bind H. destruct (expect_sound n _ _ _ (name_nz _ T2) A3 E1) as (r4 & -> & A4). inv_bind H. destruct (space_sound _ _ _ _ A4 E2) as (sq & r5 & -> & A5 & Sp). inv_bind H. destruct (expect_sound [62] _ _ _ ltac:(nz) A5 E3) as (r6 & -> & A6). inversion H; subst.
  exists (60 :: 47 :: qsrc nsp n ++ sq ++ [62]), r6. split. { destruct nsp; cbn; rewrite <- ?app_assoc; cbn; rewrite <- ?app_assoc; reflexivity. } split; auto. exists [], sq. sp. constructor.
Qed.
Lemma doctype_sound fuel : forall r st st', At r st -> doctype_loop e fuel st = Ok st' -> exists b r', r = b ++ 62 :: r' /\ At (62 :: r') st' /\ ~ In 62 b.
Proof.
  induction fuel as [|fuel IH]; intros r st st' A H; cbn [doctype_loop] in H; [discriminate|]. destruct (cur st =? 62) eqn:C.
  - inversion H; subst. destruct (at_cur _ _ 62 A ltac:(lia) ltac:(lia)) as (r1 & ->). exists [], r1. sp.
  - destruct (cur st =? 0) eqn:C0; [discriminate|]. inv_bind H. destruct r as [|d r]. { pose proof (t_cur _ _ A) as C1. cbn in C1. lia. }
    destruct (IH _ _ _ (lex_to _ _ _ _ A E) H) as (b & r' & -> & A' & G). exists (d :: b), r'. sp. pose proof (t_cur _ _ A) as C1. cbn in C1. intros [X|X]; [lia|auto].
Qed.
Lemma doc_sound fuel r st a l st' : At r st -> c_doc e fuel st = Ok (a, l, st') -> document r a l.
Proof.
  intros A H. unfold c_doc in H. inv_bind H. assert (x = st). { destruct (cur st =? 65279) eqn:C; [|now inversion E]. pose proof (t_cur _ _ A) as C1. pose proof (t_ascii _ _ A) as T. destruct T; cbn in C1; lia. } subst x. clear E. cbv zeta in H.
  inv_bind H. inv_bind H. destruct x0 as ((c, at1), s1).
  assert (exists p raws r1 rest, r = p ++ r1 /\ At r1 s1 /\ xml_decl p raws /\ declares (mk_env [] None) raws (toenv c) rest /\ at1 = map (fun '(nsp, n, v) => mk_tattr nsp n None v) rest) as (p & raws & r1 & rest & -> & A1 & XD & DL & ->).
  { destruct x.
    - destruct (cur st =? 60) eqn:C; [|discriminate]. destruct (at_cur _ _ 60 A ltac:(lia) ltac:(lia)) as (r1 & ->). apply (at_peek _ _ _ _ _ A) in E. step E0 A1 A. assert (exists r2, r1 = 63 :: r2) as (r2 & ->). { destruct r1 as [|d r1]; cbn in E; [discriminate|]. exists r1. f_equal. lia. }
      step E0 A2 A1. inv_bind E0. destruct x as (tag, s3). destruct (tag_sound _ _ _ _ _ A2 E1) as (r3 & -> & A3 & _). destruct (equ tag [120; 109; 108]) eqn:Q; cbn [negb] in E0; [|discriminate]. apply equ_spec in Q. subst tag.
      inv_bind E0. destruct x as ((l2, c2), s4). destruct (attrs_sound _ _ _ _ _ _ _ A3 E2) as (sa & r4 & raws & -> & A4 & G & D & F). inv_bind E0. destruct (expect_sound [63; 62] _ _ _ ltac:(nz) A4 E3) as (r5 & -> & A5). inversion E0; subst.
      exists ([60; 63; 120; 109; 108] ++ sa ++ [63; 62]), raws, r5, (map toraw at1). split. { cbn. now rewrite <- app_assoc. } sp; [now constructor|]. clear -F. induction F as [|y l Hy F IH]; cbn; auto. f_equal; auto. destruct y; cbn in *. now subst.
    - inversion E0; subst. exists [], [], r, []. sp; constructor. }
  clear E E0. inv_bind H. destruct (space_sound _ _ _ _ A1 E) as (s & r2 & -> & A2 & Sp). clear E. inv_bind H.
  assert (exists d r3, r2 = d ++ r3 /\ At r3 x1 /\ doctype_decl d) as (d & r3 & -> & A3 & DD).
  { destruct (_ && _).
    - inv_bind E. destruct (expect_sound (60 :: doctype) _ _ _ ltac:(nz) A2 E0) as (r3 & -> & A3). inv_bind E. destruct (doctype_sound _ _ _ _ A3 E1) as (b & r4 & -> & A4 & G). step E A5 A4. destruct (space_sound _ _ _ _ A5 E) as (s6 & r6 & -> & A6 & G6).
      exists ([60; 33; 68; 79; 67; 84; 89; 80; 69] ++ b ++ 62 :: s6), r6. split; [cbn; now rewrite <- app_assoc|]. split; auto. now constructor.
    - inversion E; subst. exists [], r2. sp. constructor. }
  clear E. inv_bind H. destruct x2 as (n, s5). inversion H; subst. destruct (list_sound _ _ _ _ _ _ _ A3 E I) as (c0 & r4 & -> & A4 & -> & CT). exists p, raws, s, d, c0, (toenv c), rest. rewrite app_nil_r. sp.
Qed.
End Sound.
