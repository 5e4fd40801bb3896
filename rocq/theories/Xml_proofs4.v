(** Texts denote what the parser makes of them *)
From Coq Require Import ZArith Bool List Lia Arith ZifyBool.
From Verif Require Import Utf8_model Utf8_spec Utf8_proofs Xml_model Xml_spec.
From Verif Require Xml_proofs Xml_proofs2.
Import ListNotations.
Local Open Scope Z_scope.

Lemma skipn_cons {A} (m : list A) k b l : skipn k m = b :: l -> nth_error m k = Some b /\ skipn (S k) m = l /\ length m = (k + S (length l))%nat.
Proof.
  revert m. induction k as [|k IH]; intros m H. { cbn in H. subst m. cbn. auto. } destruct m as [|x m]; [discriminate|]. cbn in H. destruct (IH m H) as (A1 & A2 & A3). cbn in A2 |- *. repeat split; auto.
Qed.
Lemma skipn_plus {A} a : forall b (l : list A), skipn (a + b) l = skipn b (skipn a l).
Proof. induction a as [|a IH]; intros b l; cbn; [reflexivity|]. destruct l; [now rewrite skipn_nil|apply IH]. Qed.
Lemma firstn_eq {A} (a : list A) : forall m, (length a <= length m)%nat -> (forall i, (i < length a)%nat -> nth_error m i = nth_error a i) -> firstn (length a) m = a.
Proof.
  induction a as [|x a IH]; intros [|y m] L H; cbn in *; try lia; auto. pose proof (H 0%nat ltac:(lia)) as H0. cbn in H0. inversion H0; subst. f_equal. apply IH; [lia|]. intros i I. apply (H (S i)). lia.
Qed.
Section Text.
Variables (m0 : list Z) (e : nat).
Hypothesis L0 : length m0 = S e.
(** The state at an ASCII character *)
Definition at_ (b : Z) (k : nat) : state := mk_state b k (S k) m0.
Lemma lex_ascii p b l : nxt p = nxt p -> mem p = m0 -> skipn (nxt p) m0 = b :: l -> l <> [] -> 0 < b < 128 -> lex_next e p = Ok (at_ b (nxt p)).
Proof.
  intros _ M H N B. apply skipn_cons in H as (H1 & H2 & H3). assert (nxt p < e)%nat by (destruct l; [congruence|cbn in H3; lia]).
  unfold lex_next, decode, iter_get, iter_advance. cbn [pos size error]. rewrite M, H1. replace (Nat.eqb (e - nxt p) 0) with false by (symmetry; apply Nat.eqb_neq; lia). cbn [ubind].
  replace (b =? 0) with false by lia. cbn [orb ubind]. replace (b <? 128) with true by lia. cbn [error pos]. unfold at_. now rewrite Nat.add_1_r.
Qed.
Lemma lex_at b k c l : skipn k m0 = b :: c :: l -> l <> [] -> 0 < c < 128 -> lex_next e (at_ b k) = Ok (at_ c (S k)).
Proof. intros H N C. apply skipn_cons in H as (_ & H & _). apply (lex_ascii (at_ b k) c l); auto. Qed.
Lemma skipn_S k b (l : list Z) : skipn k m0 = b :: l -> skipn (S k) m0 = l.
Proof. intros H. now apply skipn_cons in H. Qed.
(** [w] ++ [x] at position k: first character *)
Definition hd (w : list Z) (x : Z) : Z := match w with [] => x | c :: _ => c end.
Definition ascii (w : list Z) : Prop := Forall (fun c => 0 < c < 128) w.
Lemma hd_ascii w x : ascii w -> 0 < x < 128 -> 0 < hd w x < 128.
Proof. intros A X. destruct A; auto. Qed.
Lemma expect_at w : forall k x l, skipn k m0 = w ++ x :: l -> l <> [] -> ascii w -> 0 < x < 128 -> expect e w (at_ (hd w x) k) = Ok (at_ x (k + length w)).
Proof.
  induction w as [|c w IH]; intros k x l H N A X; cbn [expect hd]. { cbn. now rewrite Nat.add_0_r. }
  inversion A; subst. replace (cur (at_ c k)) with c by reflexivity. rewrite Z.eqb_refl. cbn [negb].
  rewrite (lex_at c k (hd w x) (tl (w ++ x :: l))).
  - cbn [bind]. rewrite (IH (S k) x l); auto. { f_equal. f_equal. cbn. lia. } apply (skipn_S k c). exact H.
  - rewrite H. cbn. f_equal. destruct w; reflexivity.
  - destruct w; cbn; auto. intros E. now destruct w.
  - now apply hd_ascii.
Qed.
Definition val (base : Z) (l : list Z) (n : Z) : Z := fold_left (fun n c => n * base + digit_val c) l n.
Lemma val_ge base l : forall n, 1 <= base -> 0 <= n -> Forall (fun c => 0 <= digit_val c < base) l -> n <= val base l n.
Proof. induction l as [|c l IH]; intros n B N F; cbn; [lia|]. inversion F; subst. specialize (IH (n * base + digit_val c) B ltac:(nia) H2). unfold val in IH. nia. Qed.
Lemma digit_ascii c base : base <= 16 -> digit_val c < base -> 0 < c < 128.
Proof. unfold digit_val. intros B. destruct (_ && _) eqn:A; [lia|]. destruct ((97 <=? c) && _) eqn:A2; [lia|]. destruct ((65 <=? c) && _) eqn:A3; lia. Qed.
Lemma read_num_at l : forall fuel base n k r, 1 <= base <= 16 -> skipn k m0 = l ++ 59 :: r -> r <> [] -> Forall (fun c => 0 <= digit_val c < base) l -> 0 <= n -> val base l n < 4294967296 -> (length l < fuel)%nat ->
  read_num e fuel base n (at_ (hd l 59) k) = Ok (val base l n, at_ 59 (k + length l)).
Proof.
  induction l as [|c l IH]; intros fuel base n k r B H N F P V L; (destruct fuel as [|fuel]; [cbn in L; lia|]); cbn [read_num hd cur at_].
  - replace (base <=? digit_val 59) with true by (cbn; lia). cbn. now rewrite Nat.add_0_r.
  - inversion F; subst. replace (base <=? digit_val c) with false by lia.
    assert (HA : 0 < hd l 59 < 128). { destruct l as [|d l]; cbn; [lia|]. inversion H3; subst. apply (digit_ascii d base); lia. }
    rewrite (lex_at c k (hd l 59) (tl (l ++ 59 :: r))); [|rewrite H; cbn; f_equal; destruct l; reflexivity|destruct l; cbn; auto; intros E; now destruct l|exact HA].
    cbn [bind]. pose proof (val_ge base l (n * base + digit_val c) ltac:(lia) ltac:(nia) H3) as G. cbn in V. unfold val in V, G. rewrite Z.mod_small by nia.
    rewrite (IH fuel base _ (S k) r); auto; [|now apply (skipn_S k c)|nia|cbn in L; lia]. cbn. f_equal. f_equal. f_equal. lia.
Qed.
Lemma val_app base l c n : val base (l ++ [c]) n = val base l n * base + digit_val c.
Proof. unfold val. rewrite fold_left_app. reflexivity. Qed.
Lemma dec_val l v : dec l v -> val 10 l 0 = v /\ Forall (fun c => 0 <= digit_val c < 10) l.
Proof.
  induction 1 as [|l c n D (I1 & I2) C]; [split; [reflexivity|constructor]|]. assert (digit_val c = c - 48) by (unfold digit_val; replace (_ && _) with true by lia; lia).
  rewrite val_app, I1. split; [lia|]. apply Forall_app. split; [auto|]. constructor; [lia|constructor].
Qed.
Lemma hex_val l v : hex l v -> val 16 l 0 = v /\ Forall (fun c => 0 <= digit_val c < 16) l.
Proof.
  induction 1 as [|l c n v D (I1 & I2) C]; [split; [reflexivity|constructor]|].
  assert (digit_val c = v /\ 0 <= v < 16). { unfold digit_val. destruct C as [C|[C|C]]; repeat match goal with |- context [if ?b then _ else _] => destruct b eqn:?; try lia end. }
  rewrite val_app, I1. split; [lia|]. apply Forall_app. split; [auto|]. constructor; [lia|constructor].
Qed.
Lemma named_at fuel n c k l : In (n, c) named -> skipn k m0 = 38 :: n ++ 59 :: l -> l <> [] -> entity e fuel (at_ 38 k) = Ok (c, at_ 59 (k + 1 + length n)).
Proof.
  intros I H N. unfold entity. pose proof (skipn_S _ _ _ H) as H1. cbn in I.
  assert (X : forall w (y : Z), skipn (S k) m0 = w ++ 59 :: l -> ascii w -> w <> [] -> (do st <- expect e w (at_ (hd w 59) (S k)); Ok (y, st)) = Ok (y, at_ 59 (k + 1 + length w))).
  { intros w y Hw Aw _. rewrite (expect_at w (S k) 59 l); auto; [|lia]. cbn. f_equal. f_equal. f_equal. lia. }
  assert (LX : forall b r, n ++ 59 :: l = b :: r -> 0 < b < 128 -> r <> [] -> lex_next e (at_ 38 k) = Ok (at_ b (S k))). { intros b r Hb Bb Rr. apply (lex_at 38 k b r); auto. rewrite H, Hb. reflexivity. }
  destruct I as [I|[I|[I|[I|[I|[]]]]]]; inversion I; subst n c; clear I;
    (erewrite LX; [|reflexivity|lia|discriminate]); cbn [bind]; change (cur (at_ ?b _)) with b; cbn [Z.eqb Pos.eqb].
  1: { pose proof (X [113; 117; 111; 116] 34 H1 ltac:(repeat constructor) ltac:(discriminate)) as E. cbn [hd] in E. rewrite E. reflexivity. }
  1: { pose proof (X [108; 116] 60 H1 ltac:(repeat constructor) ltac:(discriminate)) as E. cbn [hd] in E. rewrite E. reflexivity. }
  1: { pose proof (X [103; 116] 62 H1 ltac:(repeat constructor) ltac:(discriminate)) as E. cbn [hd] in E. rewrite E. reflexivity. }
  all: clear X LX; pose proof (skipn_S _ _ _ H1) as H2; cbn [app] in H1, H2.
  - rewrite (lex_at 97 (S k) 109 (112 :: 59 :: l) H1) by (discriminate || lia). cbn [bind]. change (cur (at_ 109 _)) with 109. cbn [Z.eqb Pos.eqb].
    pose proof (expect_at [109; 112] (S (S k)) 59 l H2 N ltac:(repeat constructor) ltac:(lia)) as E. cbn [hd length] in E. rewrite E. cbn [bind cur at_ Z.eqb Pos.eqb negb]. f_equal. f_equal. unfold at_. cbn [length]. f_equal; lia.
  - rewrite (lex_at 97 (S k) 112 (111 :: 115 :: 59 :: l) H1) by (discriminate || lia). cbn [bind]. change (cur (at_ 112 _)) with 112. cbn [Z.eqb Pos.eqb].
    pose proof (expect_at [112; 111; 115] (S (S k)) 59 l H2 N ltac:(repeat constructor) ltac:(lia)) as E. cbn [hd length] in E. rewrite E. cbn [bind cur at_ Z.eqb Pos.eqb negb]. f_equal. f_equal. unfold at_. cbn [length]. f_equal; lia.
Qed.
Lemma scalar_small v : scalar v -> v < 4294967296.
Proof. intros ((A & B) & _). lia. Qed.
Lemma dec_at fuel l v k r : dec l v -> scalar v -> skipn k m0 = 38 :: 35 :: l ++ 59 :: r -> r <> [] -> (length l < fuel)%nat -> entity e fuel (at_ 38 k) = Ok (v, at_ 59 (k + 2 + length l)).
Proof.
  intros D S H N L. destruct (dec_val l v D) as (V & F). unfold entity. pose proof (skipn_S _ _ _ H) as H1. pose proof (skipn_S _ _ _ H1) as H2.
  rewrite (lex_at 38 k 35 _ H) by (try lia; destruct l; discriminate). cbn [bind]. change (cur (at_ 35 _)) with 35. cbn [Z.eqb Pos.eqb].
  assert (F' : Forall (fun c => 0 <= digit_val c < 16) l) by (eapply Forall_impl; [|exact F]; cbn; lia).
  assert (HA : 0 < hd l 59 < 128). { destruct l as [|d l]; cbn; [lia|]. inversion F; subst. apply (digit_ascii d 10); lia. }
  assert (E1 : skipn (Datatypes.S k) m0 = 35 :: hd l 59 :: tl (l ++ 59 :: r)). { rewrite H1. f_equal. destruct l; reflexivity. }
  rewrite (lex_at 35 (Datatypes.S k) (hd l 59) _ E1); [|destruct l; cbn; auto; intros E; now destruct l|exact HA]. cbn [bind]. change (cur (at_ (hd l 59) _)) with (hd l 59).
  assert (NX : (hd l 59 =? 120) || (hd l 59 =? 88) = false). { destruct l as [|d l]; [reflexivity|]. cbn. inversion F; subst. unfold digit_val in H4. apply orb_false_iff. split; apply Z.eqb_neq; intros ->; cbn in H4; lia. }
  rewrite NX. pose proof (scalar_small v S). rewrite (read_num_at l fuel 10 0 _ r); auto; try lia. cbn [bind cur at_ Z.eqb Pos.eqb negb]. rewrite V. f_equal. f_equal. unfold at_. f_equal; lia.
Qed.
Lemma hex_at fuel x l v k r : x = 120 \/ x = 88 -> hex l v -> scalar v -> skipn k m0 = 38 :: 35 :: x :: l ++ 59 :: r -> r <> [] -> (length l < fuel)%nat -> entity e fuel (at_ 38 k) = Ok (v, at_ 59 (k + 3 + length l)).
Proof.
  intros X D S H N L. destruct (hex_val l v D) as (V & F). unfold entity. pose proof (skipn_S _ _ _ H) as H1. pose proof (skipn_S _ _ _ H1) as H2. pose proof (skipn_S _ _ _ H2) as H3.
  rewrite (lex_at 38 k 35 _ H) by (try lia; discriminate). cbn [bind]. change (cur (at_ 35 _)) with 35. cbn [Z.eqb Pos.eqb].
  rewrite (lex_at 35 _ x _ H1) by (try lia; destruct l; discriminate). cbn [bind]. change (cur (at_ x _)) with x. replace ((x =? 120) || (x =? 88)) with true by lia.
  assert (HA : 0 < hd l 59 < 128). { destruct l as [|d l]; cbn; [lia|]. inversion F; subst. apply (digit_ascii d 16); lia. }
  assert (E1 : skipn (Datatypes.S (Datatypes.S k)) m0 = x :: hd l 59 :: tl (l ++ 59 :: r)). { rewrite H2. f_equal. destruct l; reflexivity. }
  rewrite (lex_at x _ (hd l 59) _ E1); [|destruct l; cbn; auto; intros E; now destruct l|exact HA]. cbn [bind].
  pose proof (scalar_small v S). rewrite (read_num_at l fuel 16 0 _ r); auto; try lia. cbn [bind cur at_ Z.eqb Pos.eqb negb]. rewrite V. f_equal. f_equal. unfold at_. f_equal; lia.
Qed.
Lemma scalar_ok v : scalar v -> utf8_ok v = true.
Proof. unfold scalar, utf8_ok. lia. Qed.
Lemma encode_utf8 v : scalar v -> encode 4 v = UOk (utf8 v).
Proof. intros S. rewrite encode_ok by auto. replace (Nat.leb (length (utf8 v)) 4) with true; auto. symmetry. apply Nat.leb_le. unfold utf8. destruct (v <? 128), (v <? 2048), (v <? 65536); cbn; lia. Qed.
Lemma den_hd delim s t : denotes delim s t -> 0 < delim < 128 -> 0 < hd s delim < 128.
Proof. intros D. destruct D; cbn; lia. Qed.
Lemma text_at delim s t : denotes delim s t -> 0 < delim < 128 -> delim <> 38 -> forall fuel k r, skipn k m0 = s ++ delim :: r -> r <> [] -> (length s < fuel)%nat ->
  c_text e fuel delim (at_ (hd s delim) k) = Ok (flat_map utf8 t, at_ delim (k + length s)).
Proof.
  intros D Dl D38.
  assert (STEP : forall s t fuel k r i v j, (forall fuel k r, skipn k m0 = s ++ delim :: r -> r <> [] -> (length s < fuel)%nat -> c_text e fuel delim (at_ (hd s delim) k) = Ok (flat_map utf8 t, at_ delim (k + length s))) ->
    denotes delim s t -> skipn k m0 = 38 :: i ++ 59 :: s ++ delim :: r -> r <> [] -> (length s < fuel)%nat -> scalar v -> entity e fuel (at_ 38 k) = Ok (v, at_ 59 j) -> j = (k + 1 + length i)%nat ->
    c_text e (S fuel) delim (at_ 38 k) = Ok (utf8 v ++ flat_map utf8 t, at_ delim (k + S (length (i ++ 59 :: s))))).
  { intros s1 t1 fuel k r i v j IH D1 H N L S E ->. cbn [c_text]. change (cur (at_ 38 k)) with 38. replace ((38 =? delim) || (38 =? 60) || (38 =? 0)) with false by lia. cbn [Z.eqb Pos.eqb]. rewrite E. cbn [bind].
    rewrite (scalar_ok v S). cbn [negb]. rewrite (encode_utf8 v S).
    assert (H5 : skipn (k + 1 + length i) m0 = 59 :: s1 ++ delim :: r). { apply skipn_S in H. rewrite Nat.add_1_r, skipn_plus. rewrite H, skipn_app, skipn_all, Nat.sub_diag. reflexivity. }
    assert (E1 : skipn (k + 1 + length i) m0 = 59 :: hd s1 delim :: tl (s1 ++ delim :: r)). { rewrite H5. f_equal. destruct s1; reflexivity. }
    rewrite (lex_at 59 _ (hd s1 delim) _ E1); [|destruct s1; cbn; auto; intros Z; now destruct s1|eapply den_hd; eauto]. cbn [bind].
    rewrite (IH fuel _ r); auto; [|now apply (skipn_S _ 59)]. cbn [bind]. f_equal. f_equal. unfold at_. rewrite app_length. cbn [length]. f_equal; lia. }
  induction D as [|c s t C N1 N2 N3 D IH|n c s t I D IH|l v s t V S D IH|x l v s t X V S D IH]; intros fuel k r H N L; (destruct fuel as [|fuel]; [lia|]); cbn [hd flat_map].
  - cbn [c_text]. change (cur (at_ delim k)) with delim. rewrite Z.eqb_refl. cbn. now rewrite Nat.add_0_r.
  - cbn [c_text]. change (cur (at_ c k)) with c. replace ((c =? delim) || (c =? 60) || (c =? 0)) with false by lia. replace (c =? 38) with false by lia. cbn [bind].
    assert (S : scalar c) by (unfold scalar; lia). rewrite (scalar_ok c S). cbn [negb]. rewrite (encode_utf8 c S).
    assert (E1 : skipn k m0 = c :: hd s delim :: tl (s ++ delim :: r)). { rewrite H. cbn. f_equal. destruct s; reflexivity. }
    rewrite (lex_at c k (hd s delim) _ E1); [|destruct s; cbn; auto; intros E; now destruct s|eapply den_hd; eauto]. cbn [bind].
    rewrite (IH fuel (Datatypes.S k) r); auto; [|now apply (skipn_S k c)|cbn in L; lia]. cbn [bind]. f_equal. f_equal. unfold at_. cbn [length]. f_equal; lia.
  - assert (S : scalar c). { cbn in I. unfold scalar. destruct I as [I|[I|[I|[I|[I|[]]]]]]; inversion I; lia. }
    cbn [app] in H. rewrite <- app_assoc in H. cbn [app] in H. cbn [length] in L |- *. rewrite app_length in L. cbn in L. eapply STEP; eauto; [lia|]. apply (named_at fuel n c k _ I H). intros E. now destruct s.
  - cbn [app] in H. rewrite <- app_assoc in H. cbn [app] in H. cbn [length] in L |- *. rewrite app_length in L. cbn in L.
    apply (STEP s t fuel k r (35 :: l) v (k + 2 + length l)%nat); auto; [lia| |cbn; lia]. apply (dec_at fuel l v k _ V S H); [|lia]. intros E. now destruct s.
  - cbn [app] in H. rewrite <- app_assoc in H. cbn [app] in H. cbn [length] in L |- *. rewrite app_length in L. cbn in L.
    apply (STEP s t fuel k r (35 :: x :: l) v (k + 3 + length l)%nat); auto; [lia| |cbn; lia]. apply (hex_at fuel x l v k _ X V S H); [|lia]. intros E. now destruct s.
Qed.
End Text.
