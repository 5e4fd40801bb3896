(** C35: what is accepted is in the grammar *)
From Coq Require Import ZArith Bool List Lia Arith ZifyBool.
From Verif Require Import Syn_model Syn_spec Syn_proofs3 Syn_proofs4.
Import ListNotations.
Local Open Scope Z_scope.

(** ** More fuel does no harm *)
Definition rle {A} (a b : res A) : Prop := a = NoFuel \/ a = b.
Lemma rle_refl {A} (a : res A) : rle a a. Proof. now right. Qed.
Lemma rle_no {A} (a : res A) : rle NoFuel a. Proof. now left. Qed.
Lemma rle_bind {A B} (a a' : res A) (f f' : A -> res B) : rle a a' -> (forall x, rle (f x) (f' x)) -> rle (bind a f) (bind a' f').
Proof. intros [-> | ->] H; [now left|]. destruct a'; cbn; auto using rle_refl. Qed.
Create HintDb mono.
Ltac mono := repeat first [ apply rle_refl | apply rle_no | solve [auto with mono]
  | (apply rle_bind; [|intros ?])
  | match goal with |- rle (if ?b then _ else _) _ => destruct b end
  | match goal with |- rle (match ?x with _ => _ end) _ => destruct x end ].
Notation cpath := (path_loop copy (list Z) copying).
Lemma skip_mono f n : forall m c, (n <= m)%nat -> rle (cskip f n c) (cskip f m c).
Proof. induction n as [|n IH]; intros [|m] c L; try lia; cbn [skip]; try (apply rle_no). mono. apply IH. lia. Qed.
#[export] Hint Resolve skip_mono : mono.
Lemma number_mono n m c : (n <= m)%nat -> rle (cnumber n c) (cnumber m c).
Proof. intros L. unfold scan_number. mono. Qed.
Lemma id_mono n m c : (n <= m)%nat -> rle (cid n c) (cid m c).
Proof. intros L. unfold scan_id. mono. Qed.
Lemma sloop_mono n : forall m c, (n <= m)%nat -> rle (csloop n c) (csloop m c).
Proof. induction n as [|n IH]; intros [|m] c L; try lia; cbn [scan_string_loop]; try (apply rle_no). assert (H : forall c, rle (csloop n c) (csloop m c)) by (intros; apply IH; lia). mono. Qed.
#[export] Hint Resolve sloop_mono number_mono id_mono : mono.
Lemma string_mono n m c : (n <= m)%nat -> rle (scan_string copy (list Z) copying n c) (scan_string copy (list Z) copying m c).
Proof. intros L. unfold scan_string. mono. Qed.
Lemma ccloop_mono n : forall m p c, (n <= m)%nat -> rle (ccloop n p c) (ccloop m p c).
Proof. induction n as [|n IH]; intros [|m] p c L; try lia; cbn [scan_comment_loop]; try (apply rle_no). assert (H : forall p c, rle (ccloop n p c) (ccloop m p c)) by (intros; apply IH; lia). cbv zeta. mono. Qed.
#[export] Hint Resolve string_mono ccloop_mono : mono.
Lemma scan_mono n m p : (n <= m)%nat -> rle (cscan n p) (cscan m p).
Proof. intros L. unfold scan. cbv zeta. mono. Qed.
#[export] Hint Resolve scan_mono : mono.
Lemma next_mono n : forall m p, (n <= m)%nat -> rle (cnext n p) (cnext m p).
Proof. induction n as [|n IH]; intros [|m] p L; try lia; cbn [next]; try (apply rle_no). assert (H : forall p, rle (cnext n p) (cnext m p)) by (intros; apply IH; lia). mono. apply scan_mono. lia. Qed.
Lemma path_mono n : forall m c, (n <= m)%nat -> rle (cpath n c) (cpath m c).
Proof. induction n as [|n IH]; intros [|m] c L; try lia; cbn [path_loop]; try (apply rle_no). assert (H : forall c, rle (cpath n c) (cpath m c)) by (intros; apply IH; lia). mono. Qed.
Lemma rle_ok {A} (a b : res A) x : rle a b -> a = Ok x -> b = Ok x.
Proof. intros [-> | ->]; congruence. Qed.

(** next, from any state *)
Lemma next_any fuel t c t' c' : cnext fuel (t, c) = Ok (t', c') -> t <> T_ERROR -> (forall x, In x (c_rest c) -> 0 < x) ->
  t' = T_ERROR \/ (shape (c_rest c) t' c' /\ (c_dirty c = true -> stop (hd 0 (c_rest c)))).
Proof.
  intros H T P. set (m := (fuel + S (S (length (c_rest c))))%nat). pose proof (rle_ok _ _ _ (next_mono fuel m (t, c) ltac:(unfold m; lia)) H) as H'.
  destruct (next_cases _ (c_rest c) m t c eq_refl eq_refl T P ltac:(unfold m; lia)) as (t1 & c1 & Q & S). rewrite Q in H'. inversion H'; subst. exact S.
Qed.
Lemma next_error fuel c q : cnext fuel (T_ERROR, c) = Ok q -> q = (T_ERROR, c).
Proof. destruct fuel; cbn; intros H; inversion H; auto. Qed.
Lemma next_ty fuel t t' c : t <> T_ERROR -> t' <> T_ERROR -> cnext fuel (t, c) = cnext fuel (t', c).
Proof. intros A B. destruct fuel; [reflexivity|]. cbn [next]. unfold scan. now replace (t =? T_ERROR) with false by lia; replace (t' =? T_ERROR) with false by lia. Qed.

(** ** Tokens taken by the parser *)
Notation pst := (Z * copy)%type.
Definition idset (t : Z) : Prop := t = T_ID \/ t = K_INCLUDE \/ t = K_USE \/ t = K_MODULE \/ t = K_FUNCTION.
Definition peq (p q : pst) : Prop := snd p = snd q /\ (fst p = fst q \/ (idset (fst p) /\ idset (fst q))).
Inductive tokof (p : pst) : tok -> Prop :=
  | to_id : idset (fst p) -> tokof p (TId (c_txt (snd p)))
  | to_int : fst p = T_INT -> tokof p (TInt (c_txt (snd p)))
  | to_float : fst p = T_FLOAT -> tokof p (TFloat (c_txt (snd p)))
  | to_str : fst p = T_STRING -> tokof p (TStr (c_txt (snd p)))
  | to_punct c : fst p = c -> punct c -> tokof p (TP c).
Inductive tok1 (p : pst) (k : tok) (q : pst) : Prop :=
  | t1_next fuel : tokof p k -> cnext fuel p = Ok q -> tok1 p k q
  | t1_path fuel f2 p' : fst p = 60 -> tok_path copy (list Z) copying f2 p = Ok p' -> fst p' = T_PATH -> k = TPath (c_txt (snd p')) -> cnext fuel p' = Ok q -> tok1 p k q.
Inductive takes : pst -> list tok -> pst -> Prop :=
  | ta_nil p q : peq p q -> takes p [] q
  | ta_cons p k q l r : tok1 p k q -> takes q l r -> takes p (k :: l) r.
Lemma peq_refl p : peq p p. Proof. split; auto. Qed.
Lemma peq_sym p q : peq p q -> peq q p. Proof. intros (A & [B|(B & C)]); split; auto. Qed.
Lemma peq_trans p q r : peq p q -> peq q r -> peq p r.
Proof. intros (A & [B|(B & B2)]) (C & [D|(D & D2)]); (split; [congruence|]); [left; congruence|right; rewrite B; auto|right; rewrite <- D; auto|right; auto]. Qed.
Lemma idset_ne t : idset t -> t <> T_ERROR /\ t <> 60 /\ t <> T_INT /\ t <> T_FLOAT /\ t <> T_STRING /\ 128 < t.
Proof. unfold idset, T_ID, K_INCLUDE, K_USE, K_MODULE, K_FUNCTION, T_ERROR, T_INT, T_FLOAT, T_STRING. lia. Qed.
Lemma punct_lt c : punct c -> 0 < c < 128. Proof. unfold punct. cbn [In]. lia. Qed.
Lemma tok1_peq p q k r : peq p q -> tok1 p k r -> tok1 q k r.
Proof.
  destruct p as (t, c), q as (t', c'). intros (A & B). cbn in A, B. subst c'. destruct B as [<-|(B & C)]; [auto|]. pose proof (idset_ne _ B). pose proof (idset_ne _ C). intros [fuel T N|fuel f2 p' E]; [|cbn in E; lia]. apply (t1_next _ _ _ fuel); [|rewrite (next_ty _ _ t); tauto].
  inversion T as [I|I|I|I|x I X]; cbn [fst snd] in *; subst; try lia; [apply (to_id (t', c)); auto|]. apply punct_lt in X. lia.
Qed.
Lemma takes_peq p q l r : peq p q -> takes p l r -> takes q l r.
Proof. intros E H. inversion H; subst; [constructor; eauto using peq_trans, peq_sym|econstructor; eauto using tok1_peq]. Qed.
Lemma takes_app p l q m r : takes p l q -> takes q m r -> takes p (l ++ m) r.
Proof. induction 1 as [p q E|p k q l q' K H IH]; intros T; cbn; [eapply takes_peq; [apply peq_sym|]; eauto|econstructor; eauto]. Qed.
Lemma takes_refl p : takes p [] p. Proof. constructor. apply peq_refl. Qed.
Lemma takes_one p k q : tok1 p k q -> takes p [k] q. Proof. intros H. econstructor; [eauto|apply takes_refl]. Qed.
Lemma punct_takes fuel p c q : fst p = c -> punct c -> cnext fuel p = Ok q -> takes p [TP c] q.
Proof. intros. apply takes_one. apply (t1_next _ _ _ fuel); auto. now constructor. Qed.

(** From tokens to the text *)
Lemma takes_error p l q : takes p l q -> fst p = T_ERROR -> fst q = T_ERROR /\ l = [].
Proof.
  induction 1 as [p q (A & B)|p k q l r K H IH]; intros E.
  - split; auto. destruct B as [B|(B & _)]; [congruence|]. apply idset_ne in B. tauto.
  - exfalso. destruct K as [fuel T N|fuel f2 p' E']; [|rewrite E in E'; discriminate]. inversion T; subst; try congruence; try (apply idset_ne in H0; tauto); try (rewrite E in H0; discriminate). apply punct_lt in H1. unfold T_ERROR in E. lia.
Qed.
Definition posl (l : list Z) : Prop := forall x, In x l -> 0 < x.
Lemma posl_app a b : posl (a ++ b) -> posl a /\ posl b.
Proof. unfold posl. intros H. split; intros x I; apply H; rewrite in_app_iff; auto. Qed.
Lemma path_loop_inv fuel : forall c ok c', cpath fuel c = Ok (ok, c') -> c_dirty c = false -> posl (c_rest c) -> ok = true -> exists s r, c_rest c = s ++ 62 :: r /\ ~ In 62 s /\ c' = adv s (62 :: r) c.
Proof.
  intros c ok c' H D P ->. set (m := (fuel + S (length (c_rest c)))%nat). pose proof (rle_ok _ _ _ (path_mono fuel m c ltac:(unfold m; lia)) H) as H'. assert (N0 : ~ In 0 (c_rest c)) by (intros I; apply P in I; lia).
  destruct (in_dec Z.eq_dec 62 (c_rest c)) as [I|I].
  - assert (K : exists s r, c_rest c = s ++ 62 :: r /\ ~ In 62 s). { clear - I. induction (c_rest c) as [|x l IH]; [destruct I|]. destruct (Z.eq_dec x 62) as [->|N]; [exists [], l; auto|]. destruct I as [I|I]; [congruence|]. destruct (IH I) as (s & r & -> & Q). exists (x :: s), r. split; [reflexivity|]. intros [J|J]; auto. }
    destruct K as (s & r & E & Ns). exists s, r. split; [auto|]. split; [auto|]. rewrite (path_loop_eq s Ns) with (r := r) in H'; auto; [congruence|intros J; apply N0; rewrite E, in_app_iff; auto|unfold m; rewrite E, app_length; lia].
  - destruct (path_loop_none _ I N0 c m eq_refl D) as (c2 & Q); [unfold m; lia|]. congruence.
Qed.
Lemma shape1_ty l t c : shape1 l t c -> (t = 0 /\ l = []) \/ (0 < t < 128) \/ t = T_ID \/ t = T_INT \/ t = T_FLOAT \/ t = T_STRING.
Proof. intros [c' -> E|x r c' -> X|s r c' -> I|s tx fl r c' -> N|s r c' -> B]; try destruct fl; tauto. Qed.
Lemma apart_of fuel c t' c' : cnext fuel (t', c) = Ok c' -> t' <> T_ERROR -> posl (c_rest c) -> fst c' <> T_ERROR -> c_dirty c = true -> apart (c_rest c).
Proof. intros H T P N D. destruct c' as (t2, c2). destruct (next_any _ _ _ _ _ H T P) as [E|(_ & S)]; [now elim N|]. apply apart_stop. auto. Qed.
Lemma takes_lexes p toks q : takes p toks q -> fst q = T_EOF -> forall l, posl l -> shape l (fst p) (snd p) -> lexes l toks.
Proof.
  induction 1 as [p q (A & B)|p k q l q' K H IH]; intros E file P S.
  - assert (E0 : fst p = 0) by (destruct B as [B|(_ & B)]; [rewrite B; exact E|]; apply idset_ne in B; unfold T_EOF in E; lia). constructor. destruct S as [w r W -> S1|w b W N -> _ _]; [|now constructor].
    apply shape1_ty in S1. rewrite E0 in S1. destruct S1 as [(_ & ->)|S1]; [rewrite app_nil_r; now constructor|unfold T_ID, T_INT, T_FLOAT, T_STRING in S1; lia].
  - assert (NE : fst q <> T_ERROR) by (intros Q; destruct (takes_error _ _ _ H Q) as (Q2 & _); rewrite E in Q2; discriminate).
    destruct p as (t, c). cbn [fst snd] in *. assert (K2 : exists w r, blank w /\ file = w ++ r /\ shape1 r t c).
    { destruct S as [w r W -> S1|w b W N -> E0 _]; [eauto|]. exfalso. subst t. destruct K as [fuel T _|fuel f2 p' E' _ _ _ _]; [|discriminate]. inversion T; subst; cbn [fst] in *; try (apply idset_ne in H0; tauto); try discriminate; try (apply punct_lt in H1; lia). unfold idset, T_ID, K_INCLUDE, K_USE, K_MODULE, K_FUNCTION in *. lia. }
    destruct K2 as (w & r & W & -> & S1). destruct (posl_app _ _ P) as (_ & Pr). clear S.
    assert (G : forall fuel c2 t2, cnext fuel (t2, c2) = Ok q -> t2 <> T_ERROR -> posl (c_rest c2) -> lexes (c_rest c2) l /\ (c_dirty c2 = true -> apart (c_rest c2))).
    { intros fuel c2 t2 N T2 P2. split; [|intros D2; eapply apart_of; eauto]. apply IH; auto. destruct q as (t3, c3). destruct (next_any _ _ _ _ _ N T2 P2) as [Q|(Q & _)]; [now elim NE|exact Q]. }
    destruct K as [fuel T N|fuel f2 p' E' TP' Ty -> N].
    + assert (TE : t <> T_ERROR) by (intros ->; apply next_error in N; subst q; now elim NE). inversion T as [I|I|I|I|x I X]; cbn [fst snd] in *; subst k.
      * pose proof (shape1_ty _ _ _ S1) as T1. assert (t = T_ID) by (unfold idset, T_ID, K_INCLUDE, K_USE, K_MODULE, K_FUNCTION, T_INT, T_FLOAT, T_STRING in *; lia). subst t.
        inversion S1 as [|x ? ? ? X|s r' c' Q I2 A R D Tx|s tx fl r' c' Q I2 R D Tx F|]; subst; try (unfold T_ID in *; lia); [|destruct fl; discriminate]. apply posl_app in Pr. destruct Pr as (_ & Pr). destruct (G _ _ _ N TE Pr) as (G1 & G2). constructor; auto.
      * subst t. inversion S1 as [|x ? ? ? X|s r' c' Q I2 A R D Tx|s tx fl r' c' Q I2 R D Tx F|]; subst; try (unfold T_INT in *; lia). destruct fl; [discriminate|]. apply posl_app in Pr. destruct Pr as (_ & Pr). destruct (G _ _ _ N TE Pr) as (G1 & G2). eapply (lx_num w s _ false); eauto.
      * subst t. inversion S1 as [|x ? ? ? X|s r' c' Q I2 A R D Tx|s tx fl r' c' Q I2 R D Tx F|]; subst; try (unfold T_FLOAT in *; lia). destruct fl; [|discriminate]. apply posl_app in Pr. destruct Pr as (_ & Pr). destruct (G _ _ _ N TE Pr) as (G1 & G2). eapply (lx_num w s _ true); eauto.
      * subst t. inversion S1 as [|x ? ? ? X|s r' c' Q I2 A R D Tx|s tx fl r' c' Q I2 R D Tx F|s r' c' Q I2 R D Tx]; subst; try (unfold T_STRING in *; lia); [destruct fl; discriminate|]. change (34 :: c_txt c ++ 34 :: c_rest c) with ((34 :: c_txt c) ++ 34 :: c_rest c) in Pr. apply posl_app in Pr. destruct Pr as (_ & Pr). destruct (G _ _ _ N TE ltac:(intros y Hy; apply Pr; now right)) as (G1 & G2). constructor; auto.
      * subst t. pose proof (punct_lt _ X) as LX. inversion S1 as [|y r' c' Q X1 X2 X3 X4 X5 X6 R D|s r' c' Q I2 A R D Tx|s tx fl r' c' Q I2 R D Tx F|s r' c' Q I2 R D Tx]; subst; try (unfold T_STRING, T_ID, T_EOF in *; lia); [|destruct fl; unfold T_INT, T_FLOAT in *; lia]. destruct (G _ _ _ N TE ltac:(intros y Hy; apply Pr; now right)) as (G1 & G2). constructor; auto.
    + cbn in E'. subst t. inversion S1 as [|y r' c' Q X1 X2 X3 X4 X5 X6 R D|s r' c' Q I2 A R D Tx|s tx fl r' c' Q I2 R D Tx F|s r' c' Q I2 R D Tx]; subst; try (destruct fl; discriminate).
      assert (Pc : posl (c_rest c)) by (intros y Hy; apply Pr; now right). unfold tok_path in TP'. cbn [Z.eqb Pos.eqb negb] in TP'. destruct (cpath f2 (mark copying c)) as [(ok, c1)| | | |] eqn:PL; try discriminate. cbn [bind] in TP'. destruct ok; cbn [negb] in TP'; [|inversion TP'; subst; discriminate].
      destruct (path_loop_inv _ _ _ _ PL D Pc eq_refl) as (s & r & Er & Ns & ->). cbn [c_rest mark copying] in Er. cbn [cut copying bind step] in TP'. rewrite (step_eq 62 r) in TP' by reflexivity. inversion TP'; subst p'. clear TP'. cbn [snd fst] in *.
      rewrite Er in Pc. apply posl_app in Pc. destruct Pc as (_ & Pc). destruct (G _ _ _ N ltac:(discriminate) ltac:(intros y Hy; apply Pc; now right)) as (G1 & G2). cbn in G1. rewrite Er. cbn. rewrite app_nil_r, rev_involutive. now constructor.
Qed.
