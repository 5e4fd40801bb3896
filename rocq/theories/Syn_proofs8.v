(** C35: the parser terminates *)
From Coq Require Import ZArith Bool List Lia Arith ZifyBool.
From Verif Require Import Syn_model Syn_spec Syn_proofs3 Syn_proofs4 Syn_proofs5 Syn_proofs6 Syn_proofs7.
Import ListNotations.
Local Open Scope Z_scope.

Definition tot {A} (P : A -> Prop) (x : res A) : Prop := match x with Ok a => P a | Err | Inc => True | Crash | NoFuel => False end.
Lemma tot_bind {A B} (P : A -> Prop) (Q : B -> Prop) x f : tot P x -> (forall a, P a -> tot Q (f a)) -> tot Q (bind x f).
Proof. destruct x; cbn; intuition. Qed.
Lemma tot_imp {A} (P Q : A -> Prop) x : tot P x -> (forall a, P a -> Q a) -> tot Q x.
Proof. destruct x; cbn; intuition. Qed.

Lemma len_step c : len (c_step c) = pred (len c).
Proof. unfold len, c_step. destruct (c_rest c) eqn:E; cbn; rewrite ?E; reflexivity. Qed.
Lemma len_pos c : hd 0 (c_rest c) <> 0 -> (0 < len c)%nat.
Proof. unfold len. destruct (c_rest c); cbn; lia. Qed.
Lemma len_mark c : len (mark copying c) = len c. Proof. reflexivity. Qed.
Lemma skip_tot f fuel c : f 0 = false -> (len c < fuel)%nat -> tot (fun c' => (len c' <= len c)%nat /\ (f (ccur c) = true -> (len c' < len c)%nat) /\ (f (ccur c) = false -> c' = c)) (cskip f fuel c).
Proof.
  intros Z L. destruct (span_ex f (c_rest c) Z) as (a & r & E & A & H). rewrite (skip_eq f a r) by (auto; unfold len in L; rewrite E, app_length in L; lia). cbn [tot]. unfold len. cbn [adv c_rest cur copying]. rewrite E, app_length. split; [lia|]. split.
  - intros Q. destruct a; [|cbn; lia]. cbn in *. rewrite Q in H. discriminate.
  - intros Q. destruct a as [|x a]; [|inversion A; subst; cbn in Q; congruence]. cbn in E. rewrite <- E. apply adv_nil.
Qed.
Lemma number_tot fuel c : num_start (ccur c) = true -> (len c < fuel)%nat -> tot (fun p => (fst p = T_INT \/ fst p = T_FLOAT \/ fst p = T_ERROR) /\ (len (snd p) <= len c)%nat /\ (fst p = T_ERROR \/ (len (snd p) < len c)%nat)) (cnumber fuel c).
Proof.
  intros N L. destruct (c_dirty c) eqn:D; [rewrite dirty_number by auto; cbn; auto|]. assert (LP : (0 < len c)%nat) by (apply len_pos; cbn in N; unfold num_start, is_digit in N; lia).
  unfold scan_number. cbn [here copying bind]. unfold c_here. rewrite D. replace (hd 0 (c_rest c) =? 0) with false by (cbn in N; unfold num_start, is_digit in N; lia).
  eapply (tot_bind (fun s => (len s <= len c)%nat /\ ((len s < len c)%nat \/ (s = c /\ (is_digit (ccur c) = true \/ ccur c = 46))))).
  { cbn [cur copying step bind] in *. destruct (hd 0 (c_rest c) =? 43) eqn:C1; [|destruct (hd 0 (c_rest c) =? 45) eqn:C2]; cbn [tot]; rewrite ?len_mark, ?len_step; try (split; [|left]; lia). split; [lia|]. right. split; [auto|]. unfold num_start in N. lia. }
  intros s (S1 & S2). eapply tot_bind; [apply (skip_tot is_digit); [reflexivity|lia]|]. intros s1 (S3 & S4 & S5).
  eapply (tot_bind (fun p => (fst p = T_INT \/ fst p = T_FLOAT) /\ (len (snd p) < len c)%nat)).
  { destruct (ccur s1 =? 46) eqn:C.
    - cbn [step copying bind]. assert (L1 : (0 < len s1)%nat) by (apply len_pos; cbn in C; lia). eapply tot_bind; [apply (skip_tot is_digit); [reflexivity|rewrite len_step; lia]|]. intros s2 (S6 & _). rewrite len_step in S6. cbn. split; [auto|lia].
    - cbn [tot fst snd]. split; [auto|]. destruct S2 as [S2|(-> & [S2|S2])]; [lia|specialize (S4 S2); lia|]. exfalso. rewrite S5 in C by (rewrite S2; reflexivity). lia. }
  intros (t, s2) (T2 & L2). cbn [fst snd] in *.
  eapply (tot_bind (fun p => (fst p = T_INT \/ fst p = T_FLOAT) /\ (len (snd p) < len c)%nat)).
  { destruct ((ccur s2 =? 101) || (ccur s2 =? 69)); [|cbn; auto]. cbn [step copying bind].
    eapply (tot_bind (fun s => (len s < len c)%nat)). { destruct (_ || _); cbn [tot]; rewrite ?len_step; lia. } intros s3 L3. eapply tot_bind; [apply (skip_tot is_digit); [reflexivity|lia]|]. intros s4 (L4 & _). cbn. split; [auto|lia]. }
  intros (t3, s3) (T3 & L3). cbn in *. unfold len in *. cbn. split; [tauto|]. split; [lia|auto].
Qed.
Lemma id_tot fuel c : id_start (ccur c) = true -> (len c < fuel)%nat -> tot (fun p => (fst p = T_ID \/ fst p = T_ERROR) /\ (len (snd p) <= len c)%nat /\ (fst p = T_ERROR \/ (len (snd p) < len c)%nat)) (cid fuel c).
Proof.
  intros N L. destruct (c_dirty c) eqn:D; [rewrite dirty_id by auto; cbn; auto|]. assert (LP : (0 < len c)%nat) by (apply len_pos; cbn in N; unfold id_start, is_alpha in N; lia).
  unfold scan_id. cbn [here copying bind]. unfold c_here. rewrite D. replace (hd 0 (c_rest c) =? 0) with false by (cbn in N; unfold id_start, is_alpha in N; lia).
  cbn [cur copying step] in *. destruct (hd 0 (c_rest c) =? 36) eqn:C1; cbn [bind].
  - eapply tot_bind; [apply (skip_tot id_char); [reflexivity|rewrite len_step; lia]|]. intros s1 (S3 & _). rewrite len_step in S3. cbn. unfold len in *. cbn. split; [auto|]. split; [lia|right; lia].
  - eapply tot_bind; [apply (skip_tot id_char); [reflexivity|lia]|]. intros s1 (S3 & S4 & _). cbn [cur copying] in S4. specialize (S4 ltac:(unfold id_start, id_char in *; lia)). cbn. unfold len in *. cbn. split; [auto|]. split; [lia|right; lia].
Qed.
Lemma sloop_tot fuel : forall c, (len c < fuel)%nat -> tot (fun p => (len (snd p) <= len c)%nat) (csloop fuel c).
Proof.
  induction fuel as [|fuel IH]; intros c L; [lia|]. cbn [scan_string_loop here copying bind step]. unfold c_here. destruct (c_dirty c) eqn:D; [cbn; lia|].
  destruct (hd 0 (c_rest c) =? 34); [cbn; lia|]. destruct (hd 0 (c_rest c) =? 92) eqn:C.
  - assert (LP : (0 < len c)%nat) by (apply len_pos; lia). destruct (128 <=? _); [cbn [tot snd]; rewrite len_step; lia|]. destruct (_ =? 0); [cbn [tot snd]; rewrite len_step; lia|]. eapply tot_imp; [apply IH; rewrite !len_step; lia|]. cbv beta. intros a. rewrite !len_step. lia.
  - destruct (hd 0 (c_rest c) =? 0) eqn:C0; [cbn; lia|]. assert (LP : (0 < len c)%nat) by (apply len_pos; lia). eapply tot_imp; [apply IH; rewrite !len_step; lia|]. cbv beta. intros a. rewrite !len_step. lia.
Qed.
Lemma string_tot fuel c : (0 < len c)%nat -> (len c < fuel)%nat -> tot (fun p => (fst p = T_STRING \/ fst p = T_ERROR) /\ (len (snd p) < len c)%nat) (scan_string copy (list Z) copying fuel c).
Proof.
  intros LP L. unfold scan_string. cbn [step copying bind]. eapply tot_bind; [apply sloop_tot; rewrite len_mark, len_step; lia|]. intros (ok, s) H. cbn [fst snd] in H. rewrite len_mark, len_step in H. destruct ok; cbn [negb tot fst snd]; [|split; [auto|lia]]. cbn [cut copying bind tot fst snd]. rewrite len_step. unfold len in *. cbn. split; [auto|lia].
Qed.
Lemma ccloop_tot fuel : forall p c, (len c < fuel)%nat -> tot (fun q => (fst q = T_BCOM \/ fst q = T_ERROR) /\ (len (snd q) <= len c)%nat) (ccloop fuel p c).
Proof.
  induction fuel as [|fuel IH]; intros p c L; [lia|]. cbn [scan_comment_loop cur copying]. destruct (_ || _); [|cbn; auto]. destruct (hd 0 (c_rest c) =? 0) eqn:C; [cbn; auto|]. assert (LP : (0 < len c)%nat) by (apply len_pos; lia). cbv zeta. cbn [step copying bind]. eapply tot_imp; [apply IH; rewrite len_step; lia|]. cbv beta. intros a. rewrite len_step. intros (A & A2). split; [auto|lia].
Qed.
(** a token that can be taken *)
Definition full (t : Z) : Prop := t <> T_EOF /\ t <> T_ERROR.
Lemma scan_tot fuel t c : t <> T_ERROR -> (len c < fuel)%nat -> tot (fun p => (len (snd p) <= len c)%nat /\ (full (fst p) -> (len (snd p) < len c)%nat) /\ fst p <> T_PATH) (cscan fuel (t, c)).
Proof.
  intros T L. unfold scan. replace (t =? T_ERROR) with false by lia. eapply tot_bind; [apply (skip_tot is_space); [reflexivity|lia]|]. intros s (S1 & _). cbv zeta.
  set (s1 := mark copying s). assert (L1 : len s1 = len s) by reflexivity. clearbody s1.
  destruct (num_start (ccur s1)) eqn:C1. { eapply tot_imp; [apply number_tot; auto; lia|]. cbv beta. intros (t2, c2) (A & A2 & A3). cbn [fst snd] in *. split; [lia|]. split; [intros (_ & Q); destruct A3; [tauto|lia]|unfold T_INT, T_FLOAT, T_ERROR, T_PATH in *; lia]. }
  destruct (id_start (ccur s1)) eqn:C2. { eapply tot_imp; [apply id_tot; auto; lia|]. cbv beta. intros (t2, c2) (A & A2 & A3). cbn [fst snd] in *. split; [lia|]. split; [intros (_ & Q); destruct A3; [tauto|lia]|unfold T_ID, T_ERROR, T_PATH in *; lia]. }
  destruct (ccur s1 =? 34) eqn:C3. { eapply tot_imp; [apply string_tot; [apply len_pos; cbn in C3; lia|lia]|]. cbv beta. intros (t2, c2) (A & A2). cbn [fst snd] in *. split; [lia|]. split; [lia|unfold T_STRING, T_ERROR, T_PATH in *; lia]. }
  assert (KA : exists a, (if ccur s1 =? 47 then ahead copying s1 else Ok 0) = Ok a /\ ((a = 47 \/ a = 42) -> ccur s1 = 47)). { destruct (ccur s1 =? 47) eqn:C4; cbn [ahead copying]; eexists; (split; [reflexivity|lia]). }
  destruct KA as (a & -> & HA). cbn [bind]. destruct (a =? 47) eqn:C5.
  { assert (LP : (0 < len s1)%nat) by (apply len_pos; cbn in HA; lia). eapply tot_bind; [apply skip_tot; [reflexivity|lia]|]. intros s2 (A & A2 & _). cbn [tot fst snd]. specialize (A2 ltac:(rewrite HA by lia; reflexivity)). split; [lia|]. split; [lia|discriminate]. }
  destruct (a =? 42) eqn:C6.
  { assert (LP : (0 < len s1)%nat) by (apply len_pos; cbn in HA; lia). cbn [step copying bind]. eapply tot_bind; [apply ccloop_tot; rewrite !len_step; lia|]. intros (t2, s2) (A & A2). cbn [fst snd tot] in *. rewrite !len_step in *. split; [lia|]. split; [lia|unfold T_BCOM, T_ERROR, T_PATH in *; lia]. }
  destruct (128 <=? ccur s1) eqn:C7; [cbn [tot fst snd]; split; [lia|]; split; [intros (_ & Q); now elim Q|discriminate]|]. cbn [step copying bind tot fst snd]. rewrite len_step. split; [lia|]. split; [|unfold T_PATH; cbn in *; lia]. intros (Q & _). assert (LP : (0 < len s1)%nat) by (apply len_pos; exact Q). lia.
Qed.
Lemma next_tot fuel : forall t c, t <> T_ERROR -> (S (len c) < fuel)%nat -> tot (fun p => (len (snd p) <= len c)%nat /\ (full (fst p) -> (len (snd p) < len c)%nat) /\ fst p <> T_PATH) (cnext fuel (t, c)).
Proof.
  induction fuel as [|fuel IH]; intros t c T L; [lia|]. cbn [next]. eapply tot_bind; [apply scan_tot; auto; lia|]. intros (t2, c2) (A & A2 & A3). cbn [fst snd] in *. destruct ((t2 =? T_LCOM) || (t2 =? T_BCOM)) eqn:C; [|cbn; auto]. assert (FL : full t2) by (unfold full, T_LCOM, T_BCOM, T_EOF, T_ERROR in *; lia). specialize (A2 FL). eapply tot_imp; [apply IH; [apply FL|lia]|]. cbv beta. intros a (H1 & H2 & H3). split; [lia|]. split; [intros Q; specialize (H2 Q); lia|auto].
Qed.

(** ** The parser *)
Section Tot.
Context {F : Type}.
Variable strtod : list Z -> F.
Variable B : nat.
Definition fullb (t : Z) : bool := negb (t =? T_EOF) && negb (t =? T_ERROR).
Definition mu (p : pst) : nat := (len (snd p) + (if fullb (fst p) then 1 else 0))%nat.
Definition bd (p : pst) : Prop := (len (snd p) <= B)%nat.
Lemma next_mu fuel p : bd p -> fullb (fst p) = true -> (B + 2 <= fuel)%nat -> tot (fun q => (mu q < mu p)%nat /\ bd q /\ fst q <> T_PATH) (cnext fuel p).
Proof.
  destruct p as (t, c). unfold bd, mu. cbn [fst snd]. intros H E L. rewrite E. eapply tot_imp; [apply next_tot; [unfold fullb in E; lia|lia]|]. cbv beta. intros (t2, c2) (A & A2 & A3). cbn [fst snd] in *. split; [|split; [lia|auto]]. destruct (fullb t2) eqn:C; [|lia]. specialize (A2 ltac:(unfold full, fullb in *; lia)). lia.
Qed.
Lemma expect_mu fuel t p : bd p -> fullb t = true -> (B + 2 <= fuel)%nat -> tot (fun x : bool * pst => let (b, q) := x in if b then (mu q < mu p)%nat /\ bd q else q = p /\ fst p <> t) (cexpect fuel t p).
Proof.
  intros H E L. unfold expect. destruct (fst p =? t) eqn:C; [|cbn; split; [auto|lia]]. eapply tot_bind; [apply next_mu; auto; now replace (fst p) with t by lia|]. cbn. tauto.
Qed.
Lemma expect_err_mu fuel t p : bd p -> fullb t = true -> (B + 2 <= fuel)%nat -> tot (fun q => (mu q < mu p)%nat /\ bd q) (cexpect_err fuel t p).
Proof. intros H E L. unfold expect_err. eapply tot_bind; [apply expect_mu; auto|]. intros ([|], q); cbn; auto. Qed.
Notation pvalue := (parse_value copy (list Z) F copying strtod). Notation pelems := (parse_elems copy (list Z) F copying strtod).
Notation pargs := (parse_args copy (list Z) F copying strtod). Notation parg := (parse_arg copy (list Z) F copying strtod).
Notation pmod := (parse_modifier copy (list Z) copying).
Notation pitem := (parse_item copy (list Z) F copying strtod). Notation ppush := (push_item copy (list Z) F copying strtod). Notation pitems := (parse_items copy (list Z) F copying strtod).
Notation pstmts := (parse_stmts copy (list Z) F copying strtod). Notation puse := (parse_use copy (list Z) F copying).
Lemma value_mu fuel :
  (forall p, bd p -> (2 * mu p + B + 4 <= fuel)%nat -> tot (fun x => (mu (snd x) < mu p)%nat /\ bd (snd x)) (pvalue fuel p)) /\
  (forall p, bd p -> (2 * mu p + B + 3 <= fuel)%nat -> tot (fun x => (mu (snd x) <= mu p)%nat /\ bd (snd x)) (pelems fuel p)).
Proof.
  induction fuel as [|fuel (IHv & IHe)]; [split; intros; lia|]. split; intros p H L.
  - rewrite pvalue_S. destruct p as (t, s).
    assert (N : t = T_INT \/ t = T_FLOAT \/ t = T_STRING \/ t = T_ID \/ t = 91 -> tot (fun q => (mu q < mu (t, s))%nat /\ bd q /\ fst q <> T_PATH) (cnext fuel (t, s))) by (intros Q; apply next_mu; auto; [unfold fullb, T_EOF, T_ERROR, T_INT, T_FLOAT, T_STRING, T_ID in *; cbn; lia|lia]).
    destruct (t =? T_INT) eqn:C1; [eapply tot_bind; [apply N; lia|cbn; tauto]|]. destruct (t =? T_FLOAT) eqn:C2; [eapply tot_bind; [apply N; lia|cbn; tauto]|]. destruct (t =? T_STRING) eqn:C3; [eapply tot_bind; [apply N; lia|cbn; tauto]|]. destruct (t =? T_ID) eqn:C4; [eapply tot_bind; [apply N; lia|cbn; tauto]|]. destruct (t =? 91) eqn:C5; [|exact I].
    eapply tot_bind; [apply N; lia|]. intros p1 (M1 & B1 & _). eapply tot_bind; [apply (expect_mu fuel 93 p1 B1 eq_refl); lia|]. intros ([|], p2); [intros (M2 & B2)|intros (-> & _)]; cbn [fst snd] in *. { cbn. split; [lia|auto]. }
    eapply tot_bind; [apply (IHv p1 B1); lia|]. intros (v, p3) (M3 & B3). cbn [fst snd] in *. eapply tot_bind; [apply (expect_mu fuel 58 p3 B3 eq_refl); lia|]. intros ([|], p4); [intros (M4 & B4)|intros (-> & _)]; cbn [fst snd] in *.
    + eapply tot_bind; [apply (IHv p4 B4); lia|]. intros (v5, p5) (M5 & B5). cbn [fst snd] in *. eapply tot_bind; [apply (expect_mu fuel 58 p5 B5 eq_refl); lia|]. intros ([|], p6); [intros (M6 & B6)|intros (-> & _)]; cbn [fst snd] in *.
      * eapply tot_bind; [apply (IHv p6 B6); lia|]. intros (v7, p7) (M7 & B7). cbn [fst snd] in *. eapply tot_bind; [apply (expect_err_mu fuel 93 p7 B7 eq_refl); lia|]. intros p8 (M8 & B8). cbn. split; [lia|auto].
      * eapply tot_bind; [apply (expect_err_mu fuel 93 p5 B5 eq_refl); lia|]. intros p8 (M8 & B8). cbn. split; [lia|auto].
    + eapply tot_bind; [apply (IHe p3 B3); lia|]. intros (l, p5) (M5 & B5). cbn [fst snd] in *. eapply tot_bind; [apply (expect_err_mu fuel 93 p5 B5 eq_refl); lia|]. intros p8 (M8 & B8). cbn. split; [lia|auto].
  - rewrite pelems_S. eapply tot_bind; [apply (expect_mu fuel 44 p H eq_refl); lia|]. intros ([|], p1); [intros (M1 & B1)|intros (-> & _)]; cbn [fst snd andb] in *; [|cbn; split; [lia|auto]]. destruct (looking_at_value copy p1); [|cbn; split; [lia|auto]].
    eapply tot_bind; [apply (IHv p1 B1); lia|]. intros (v, p2) (M2 & B2). cbn [fst snd] in *. eapply tot_bind; [apply (IHe p2 B2); lia|]. intros (l, p3) (M3 & B3). cbn in *. split; [lia|auto].
Qed.
Lemma arg_mu fuel p : bd p -> (2 * mu p + B + 4 <= fuel)%nat -> tot (fun x => (mu (snd x) < mu p)%nat /\ bd (snd x)) (parg fuel p).
Proof.
  intros H L. unfold parse_arg. destruct (fst p =? T_ID) eqn:C.
  - eapply tot_bind; [apply (next_mu fuel p H); [replace (fst p) with T_ID by lia; reflexivity|lia]|]. intros p1 (M1 & B1 & _). eapply tot_bind; [apply (expect_mu fuel 61 p1 B1 eq_refl); lia|]. intros ([|], p2); [intros (M2 & B2)|intros (-> & _)]; cbn [fst snd] in *; [|cbn; split; [lia|auto]]. eapply tot_bind; [apply (proj1 (value_mu fuel) p2 B2); lia|]. intros (v, p3) (M3 & B3). cbn in *. split; [lia|auto].
  - eapply tot_bind; [apply (proj1 (value_mu fuel) p H); lia|]. intros (v, p3) (M3 & B3). cbn in *. auto.
Qed.
Lemma args_mu fuel : forall p, bd p -> (2 * mu p + B + 5 <= fuel)%nat -> tot (fun x => (mu (snd x) <= mu p)%nat /\ bd (snd x)) (pargs fuel p).
Proof.
  induction fuel as [|fuel IH]; intros p H L; [lia|]. cbn [parse_args]. destruct (negb _); [cbn; auto|]. eapply tot_bind; [apply (arg_mu fuel p H); lia|]. intros (a, p1) (M1 & B1). cbn [fst snd] in *. destruct (fst p1 =? 41); [cbn; split; [lia|auto]|]. eapply tot_bind; [apply (expect_err_mu fuel 44 p1 B1 eq_refl); lia|]. intros p2 (M2 & B2). eapply tot_bind; [apply (IH p2 B2); lia|]. intros (l, p3) (M3 & B3). cbn in *. split; [lia|auto].
Qed.
Lemma mod_mu fuel : forall m p, bd p -> (mu p + B + 3 <= fuel)%nat -> tot (fun x => (mu (snd x) <= mu p)%nat /\ bd (snd x)) (pmod fuel m p).
Proof.
  induction fuel as [|fuel IH]; intros m p H L; [lia|]. cbn [parse_modifier]. destruct (mod_bits (fst p)) as [b|] eqn:M; [|cbn; auto]. eapply tot_bind; [apply (next_mu fuel p H); [|lia]|].
  - unfold mod_bits in M. unfold fullb, T_EOF, T_ERROR. destruct (fst p =? 33) eqn:?; [lia|]. destruct (fst p =? 42) eqn:?; [lia|]. destruct (fst p =? 37) eqn:?; [lia|]. destruct (fst p =? 35) eqn:?; [lia|discriminate].
  - intros p1 (M1 & B1 & _). eapply tot_imp; [apply (IH _ p1 B1); lia|]. cbv beta. intros a (A1 & A2). split; [lia|auto].
Qed.
Lemma sieve_mu p : mu (csieve p) = mu p /\ snd (csieve p) = snd p.
Proof.
  destruct p as (t, c). unfold sieve. destruct (t =? T_ID) eqn:C; [|auto]. replace t with T_ID by lia. cbn [text copying]. split; [|reflexivity]. unfold mu. cbn [fst snd]. destruct (sieve_cases (c_txt c)) as [(_ & I & _)|(_ & ->)]; [|reflexivity]. unfold fullb, idset, T_ID, K_INCLUDE, K_USE, K_MODULE, K_FUNCTION, T_EOF, T_ERROR in *. destruct I as [-> | [-> | [-> | [-> | ->]]]]; reflexivity.
Qed.
Lemma item_mu fuel :
  (forall p, bd p -> (3 * mu p + B + 6 <= fuel)%nat -> tot (fun x => (mu (snd x) < mu p)%nat /\ bd (snd x)) (pitem fuel p)) /\
  (forall p, bd p -> (3 * mu p + B + 7 <= fuel)%nat -> tot (fun x => (mu (snd x) < mu p)%nat /\ bd (snd x)) (ppush fuel p)) /\
  (forall p, bd p -> (3 * mu p + B + 8 <= fuel)%nat -> tot (fun x => (mu (snd x) <= mu p)%nat /\ bd (snd x)) (pitems fuel p)).
Proof.
  induction fuel as [|fuel (IHi & IHp & IHl)]; [repeat split; intros; lia|]. split; [|split]; intros p H L.
  - rewrite pitem_S. eapply (tot_bind (fun x => bd (snd x) /\ ((mu (snd x) < mu p)%nat \/ (snd x = p /\ fst p = 123)))).
    { destruct (fst p =? 123) eqn:C; [cbn; split; [auto|right; split; [auto|lia]]|]. eapply tot_bind; [apply (mod_mu fuel 0 p H); lia|]. intros (m, p1) (M1 & B1). cbn [fst snd] in *. cbv zeta. eapply tot_bind; [apply (expect_err_mu fuel T_ID p1 B1 eq_refl); lia|]. intros p2 (M2 & B2). eapply tot_bind; [apply (expect_err_mu fuel 40 p2 B2 eq_refl); lia|]. intros p3 (M3 & B3). eapply tot_bind; [apply (args_mu fuel p3 B3); lia|]. intros (a, p4) (M4 & B4). cbn [fst snd] in *. eapply tot_bind; [apply (expect_err_mu fuel 41 p4 B4 eq_refl); lia|]. intros p5 (M5 & B5). cbn. split; [auto|left; lia]. }
    intros (((f, a), m), p5) (B5 & M5). cbn [fst snd] in *. destruct (fst p5 =? 123) eqn:C5.
    + eapply tot_bind; [apply (expect_mu fuel 123 p5 B5 eq_refl); lia|]. intros ([|], p6); [intros (M6 & B6)|intros (_ & Q); lia]. assert (K : (mu p6 < mu p)%nat) by (destruct M5 as [M5|(-> & _)]; lia).
      eapply tot_bind; [apply (IHl p6 B6); lia|]. intros (l, p7) (M7 & B7). cbn [fst snd] in *. eapply tot_bind; [apply (expect_err_mu fuel 125 p7 B7 eq_refl); lia|]. intros p8 (M8 & B8). cbn. split; [lia|auto].
    + destruct M5 as [M5|(-> & M5)]; [|lia]. eapply tot_bind; [apply (IHp p5 B5); lia|]. intros (l, p6) (M6 & B6). cbn in *. split; [lia|auto].
  - rewrite ppush_S. eapply tot_bind; [apply (expect_mu fuel 59 p H eq_refl); lia|]. intros ([|], p1); [intros (M1 & B1); cbn; auto|intros (-> & _)]. cbv zeta. destruct (sieve_mu p) as (S1 & S2). destruct (fst (csieve p) =? K_INCLUDE); [exact I|]. eapply tot_bind; [apply (IHi (csieve p)); [unfold bd; now rewrite S2|lia]|]. intros (i, p2) (M2 & B2). cbn in *. split; [lia|auto].
  - rewrite pitems_S. cbv zeta. destruct (sieve_mu p) as (S1 & S2). assert (H1 : bd (csieve p)) by (unfold bd; now rewrite S2). destruct (negb _); [cbn; split; [lia|auto]|]. eapply tot_bind; [apply (IHp (csieve p) H1); lia|]. intros (l, p1) (M1 & B1). cbn [fst snd] in *. eapply tot_bind; [apply (IHl p1 B1); lia|]. intros (r, p2) (M2 & B2). cbn in *. split; [lia|auto].
Qed.
Lemma path_loop_tot fuel : forall c, (len c < fuel)%nat -> tot (fun x => (len (snd x) <= len c)%nat /\ (fst x = true -> (0 < len (snd x))%nat)) (cpath fuel c).
Proof.
  induction fuel as [|fuel IH]; intros c L; [lia|]. cbn [path_loop here copying bind step]. unfold c_here. destruct (c_dirty c); [cbn; split; [lia|discriminate]|]. destruct (hd 0 (c_rest c) =? 62) eqn:C; [cbn; split; [lia|intros _; apply len_pos; lia]|]. destruct (hd 0 (c_rest c) =? 0) eqn:C0; [cbn; split; [lia|discriminate]|]. assert (LP : (0 < len c)%nat) by (apply len_pos; lia). eapply tot_imp; [apply IH; rewrite len_step; lia|]. cbv beta. intros a. rewrite len_step. intros (A & A2). split; [lia|auto].
Qed.
Lemma use_mu fuel p : bd p -> (mu p + B + 3 <= fuel)%nat -> tot (fun x => (mu (snd x) < mu p)%nat /\ bd (snd x)) (puse fuel p).
Proof.
  intros H L. unfold parse_use. eapply tot_bind; [apply (expect_mu fuel K_USE p H eq_refl); lia|]. intros ([|], p1); [intros (M1 & B1)|intros _; exact I]. cbn [negb].
  eapply (tot_bind (fun q => (mu q <= mu p1)%nat /\ bd q)).
  { unfold tok_path. destruct p1 as (t, c). destruct (negb (t =? 60)) eqn:C; [cbn; auto|]. unfold bd in *. cbn [snd] in *. eapply tot_bind; [apply path_loop_tot; rewrite len_mark; lia|]. intros (ok, c2) (A & A2). cbn [fst snd] in *. rewrite len_mark in A. unfold mu. cbn [fst snd]. replace t with 60 by lia. cbn [fullb]. destruct ok; cbn [negb].
    - specialize (A2 eq_refl). cbn [cut copying bind step tot fst snd]. rewrite len_step. unfold len in *. cbn. lia.
    - cbn [tot fst snd]. cbn. lia. }
  intros p2 (M2 & B2). cbv zeta. eapply tot_bind; [apply (expect_mu fuel T_PATH p2 B2 eq_refl); lia|]. intros ([|], p3); [intros (M3 & B3)|intros _; exact I]. cbn. split; [lia|auto].
Qed.
Lemma stmts_mu fuel : forall p, bd p -> (3 * mu p + B + 9 <= fuel)%nat -> tot (fun x => True) (pstmts fuel p).
Proof.
  induction fuel as [|fuel IH]; intros p H L; [lia|]. cbn [parse_stmts]. cbv zeta. destruct (sieve_mu p) as (S1 & S2). assert (H1 : bd (csieve p)) by (unfold bd; now rewrite S2). destruct (negb _); [exact I|]. destruct (_ =? K_USE).
  - eapply tot_bind; [apply (use_mu fuel _ H1); lia|]. intros (u, p1) (M1 & B1). cbn [fst snd] in *. eapply tot_bind; [apply (IH p1 B1); lia|]. intros (r, p2) _. exact I.
  - destruct (is_key _); [exact I|]. eapply tot_bind; [apply (proj1 (proj2 (item_mu fuel)) _ H1); lia|]. intros (l, p1) (M1 & B1). cbn [fst snd] in *. eapply tot_bind; [apply (IH p1 B1); lia|]. intros (r, p2) _. exact I.
Qed.
End Tot.

Lemma parse_total {F} (strtod : list Z -> F) fuel file : (4 * length file + 12 <= fuel)%nat -> copy_parse strtod fuel file <> NoFuel /\ copy_parse strtod fuel file <> Crash.
Proof.
  intros L. assert (T : tot (fun _ => True) (copy_parse strtod fuel file)).
  { unfold copy_parse, parse. eapply tot_bind; [apply next_tot; [discriminate|cbn; lia]|]. intros p (A & _). cbn in A. change (len (mk_copy file false [] [])) with (length file) in A. eapply tot_bind; [apply (stmts_mu strtod (length file) fuel p A); unfold mu; destruct (fullb (fst p)); lia|]. intros (l, q) _. destruct (fst q =? T_EOF); exact I. }
  destruct (copy_parse strtod fuel file); cbn in T; split; try discriminate; tauto.
Qed.
