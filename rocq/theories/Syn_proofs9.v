(** C35: printing and parsing again *)
From Coq Require Import ZArith Bool List Lia Arith ZifyBool.
From Verif Require Import Syn_model Syn_spec Syn_proofs3 Syn_proofs4 Syn_proofs5 Syn_proofs6 Syn_proofs7.
Import ListNotations.
Local Open Scope Z_scope.

(** ** Trees that come from files *)
Section Wf.
Context {F : Type}.
Definition all {A} (P : A -> Prop) : list A -> Prop := fix all l := match l with [] => True | x :: l => P x /\ all l end.
Fixpoint wf_value (v : value (list Z) F) : Prop :=
  match v with
  | VId s => ident s
  | VInt n => - 2 ^ 63 <= n <= 2 ^ 63 - 1
  | VFloat _ => True
  | VString s => body s /\ posl s
  | VRange a b c => wf_value a /\ wf_value b /\ match c with Some c => wf_value c | None => True end
  | VArray l => all wf_value l
  end.
Definition wf_arg (a : arg (list Z) F) : Prop := match fst a with Some k => ident k | None => True end /\ wf_value (snd a).
Fixpoint wf_item (i : item (list Z) F) : Prop :=
  let '(Item f a b m) := i in match f with Some f => ident f | None => True end /\ all wf_arg a /\ all wf_item b.
Definition wf_stmt (s : stmt (list Z) F) : Prop := match s with SItem i => wf_item i | SUse p => ~ In 62 p /\ posl p end.
Lemma all_app {A} (P : A -> Prop) a b : all P (a ++ b) <-> all P a /\ all P b.
Proof. induction a as [|x a IH]; cbn; [tauto|]. rewrite IH. tauto. Qed.
Definition tok_ok (k : tok) : Prop :=
  match k with TId s => ident s | TInt _ | TFloat _ | TP _ => True | TStr s => body s /\ posl s | TPath s => ~ In 62 s /\ posl s end.
Lemma lexes_ok l toks : lexes l toks -> posl l -> Forall tok_ok toks.
Proof.
  induction 1 as [w|w x r l Bw X H IH|w s r l Bw I Ar H IH|w s tx fl r l Bw I Ar H IH|w s r l Bw I H IH|w s r l Bw I H IH]; intros P; [constructor|..]; apply posl_app in P; destruct P as (_ & P).
  - constructor; [exact Logic.I|]. apply IH. intros y Hy. apply P. now right.
  - apply posl_app in P. constructor; [auto|]. now apply IH.
  - apply posl_app in P. constructor; [destruct fl; exact Logic.I|]. now apply IH.
  - assert (P1 : posl (s ++ 34 :: r)) by (intros y Hy; apply P; now right). apply posl_app in P1. destruct P1 as (P1 & P2). constructor; [split; auto|]. apply IH. intros y Hy. apply P2. now right.
  - assert (P1 : posl (s ++ 62 :: r)) by (intros y Hy; apply P; now right). apply posl_app in P1. destruct P1 as (P1 & P2). constructor; [split; auto|]. apply IH. intros y Hy. apply P2. now right.
Qed.
Lemma clamp_range v : - 2 ^ 63 <= clamp v <= 2 ^ 63 - 1.
Proof. rewrite clamp_eq. lia. Qed.
Variable strtod : list Z -> F.
Lemma fa_app {A} (P : A -> Prop) a b : Forall P (a ++ b) -> Forall P a /\ Forall P b. Proof. apply Forall_app. Qed.
Ltac fa := repeat match goal with H : Forall _ (_ ++ _) |- _ => apply fa_app in H; destruct H | H : Forall _ (_ :: _) |- _ => inversion H; subst; clear H end.
Lemma val_wf : (forall t v, val strtod t v -> Forall tok_ok t -> wf_value v) /\ (forall t l, vals strtod t l -> Forall tok_ok t -> all wf_value l).
Proof.
  apply val_vals_ind; intros; fa; cbn; auto.
  match goal with H : int_value _ _ |- _ => destruct H end; apply clamp_range.
Qed.
Lemma arg_wf t a : argument strtod t a -> Forall tok_ok t -> wf_arg a.
Proof. intros [t' v V|k t' v V] H; fa; split; cbn; auto; eapply val_wf; eauto. Qed.
Lemma args_wf t l : arguments strtod t l -> Forall tok_ok t -> all wf_arg l.
Proof. induction 1 as [|t a A|t a u l A H IH]; intros O; fa; cbn; auto; (split; [eapply arg_wf; eauto|]); cbn; auto. Qed.
Lemma itm_wf : (forall t l, itm strtod t l -> Forall tok_ok t -> all wf_item l) /\ (forall t l, calls strtod t l -> Forall tok_ok t -> all wf_item l) /\ (forall t l, itms strtod t l -> Forall tok_ok t -> all wf_item l).
Proof.
  apply itm_all_ind; intros; fa; cbn; auto.
  - split; [|auto]. split; [assumption|]. split; [eapply args_wf; eauto|auto].
  - apply all_app. auto.
Qed.
Lemma program_wf t l : program strtod t l -> Forall tok_ok t -> all wf_stmt l.
Proof.
  induction 1 as [|s t l H IH|t l u r I H IH]; intros O; fa; cbn; auto. apply all_app. split; [|auto]. assert (W : all wf_item l) by (eapply (proj1 itm_wf); eauto). clear - W. induction l; cbn in *; tauto.
Qed.
Lemma source_wf file t : source strtod file t -> posl file -> all wf_stmt t.
Proof. intros (toks & L & P) PF. eapply program_wf; eauto. eapply lexes_ok; eauto. Qed.
End Wf.

(** ** Numbers *)
Lemma digits_ok fuel : forall n, 0 <= n < 10 ^ Z.of_nat fuel -> (0 < fuel)%nat -> dec (digits fuel n) n /\ digits fuel n <> [].
Proof.
  induction fuel as [|fuel IH]; intros n N L; [lia|]. cbn [digits]. pose proof (Z.mod_pos_bound n 10 ltac:(lia)) as M. split; [|destruct (if n <? 10 then _ else _); discriminate].
  assert (E : n = 10 * (n / 10) + (48 + n mod 10 - 48)) by (pose proof (Z.div_mod n 10 ltac:(lia)); lia). rewrite E at 4. apply dec_app; [|unfold dig; lia]. destruct (n <? 10) eqn:C.
  - rewrite Z.div_small by lia. constructor.
  - assert (N10 : 0 <= n / 10 < 10 ^ Z.of_nat fuel). { split; [apply Z.div_pos; lia|]. apply Z.div_lt_upper_bound; [lia|]. replace (10 * 10 ^ Z.of_nat fuel) with (10 ^ Z.of_nat (S fuel)) by (rewrite Nat2Z.inj_succ, Z.pow_succ_r; lia). lia. }
    apply IH; auto. destruct fuel; [|lia]. cbn in N10. pose proof (Z.div_le_lower_bound n 10 1 ltac:(lia) ltac:(lia)). lia.
Qed.
Lemma digits_20 n : 0 <= n <= 2 ^ 63 -> dec (digits 20 n) n /\ digits 20 n <> [].
Proof.
  intros N. apply digits_ok; [|apply Nat.lt_0_succ]. split; [apply N|]. eapply Z.le_lt_trans; [apply N|]. reflexivity.
Qed.
Global Opaque digits.
Lemma put_int_ok n : - 2 ^ 63 <= n <= 2 ^ 63 - 1 -> number (put_int n) (put_int n) false /\ int_value (put_int n) n.
Proof.
  intros N. unfold put_int. destruct (n <? 0) eqn:C.
  - destruct (digits_20 (- n) ltac:(lia)) as (D & _). pose proof (dec_inv _ _ D) as (DD & _). split.
    + pose proof (nb_minus _ [] [] DD ltac:(now left) ltac:(now left)) as Q. cbn [app] in Q. rewrite !app_nil_r in Q. exact Q.
    + replace n with (clamp (- - n)) at 2 by (rewrite clamp_eq; lia). apply iv_minus. exact D.
  - destruct (digits_20 n ltac:(lia)) as (D & NE). pose proof (dec_inv _ _ D) as (DD & _). split.
    + pose proof (nb_plain _ [] [] DD ltac:(now left) ltac:(now left) ltac:(now rewrite app_nil_r)) as Q. cbn [app] in Q. rewrite !app_nil_r in Q. exact Q.
    + replace n with (clamp n) at 2 by (rewrite clamp_eq; lia). constructor. exact D.
Qed.

(** ** The text that is printed *)
Lemma lexes_blank w l toks : blank w -> lexes l toks -> lexes (w ++ l) toks.
Proof.
  intros W [v V|v x r l' Bw X H|v s r l' Bw I Ar H|v s tx fl r l' Bw I Ar H|v s r l' Bw I H|v s r l' Bw I H]; rewrite ?app_assoc; rewrite <- ?app_assoc; try (rewrite app_assoc; constructor; auto using blank_app; fail).
  - constructor. destruct V as [v V|v b V N]; [constructor; auto using blank_app|]. rewrite app_assoc. apply lb_line; auto using blank_app.
Qed.
Lemma spaces d : blank (repeat 32 d).
Proof. induction d; cbn; [constructor|]. constructor; auto. now left. Qed.
Lemma lex0_punct x r l : punct x -> lexes r l -> lexes (x :: r) (TP x :: l).
Proof. intros X H. apply (lx_punct [] x r l); auto. constructor. Qed.
Lemma lex_space d r l : lexes r l -> lexes (repeat 32 d ++ r) l.
Proof. apply lexes_blank, spaces. Qed.
Lemma lex_nl r l : lexes r l -> lexes (10 :: r) l.
Proof. apply (lexes_blank [10]). constructor; [unfold spc; auto|constructor]. Qed.
Lemma lex_sp r l : lexes r l -> lexes (32 :: r) l.
Proof. apply (lexes_blank [32]). constructor; [unfold spc; auto|constructor]. Qed.

Section Put.
Context {F : Type}.
Variables (strtod : list Z -> F) (fmt : F -> list Z) (again : F -> value (list Z) F).
Notation putv := (put_value F fmt). Notation putarg := (put_arg F fmt). Notation puti := (put_item F fmt).
Lemma value_ind2 (P : value (list Z) F -> Prop) :
  (forall s, P (VId s)) -> (forall n, P (VInt n)) -> (forall x, P (VFloat x)) -> (forall s, P (VString s)) ->
  (forall a b c, P a -> P b -> (match c with Some c => P c | None => True end) -> P (VRange a b c)) -> (forall l, all P l -> P (VArray l)) -> forall v, P v.
Proof.
  intros H1 H2 H3 H4 H5 H6. fix IH 1. intros [s|n|x|s|a b c|l].
  - apply H1.
  - apply H2.
  - apply H3.
  - apply H4.
  - apply H5; [apply IH|apply IH|]. destruct c as [c|]; [apply IH|exact Logic.I].
  - apply H6. induction l as [|v l IHl]; [exact Logic.I|]. split; [apply IH|apply IHl].
Qed.
Lemma item_ind2 (P : item (list Z) F -> Prop) : (forall f a b m, all P b -> P (Item f a b m)) -> forall i, P i.
Proof. intros H. fix IH 1. intros [f a b m]. apply H. induction b as [|i b IHb]; [exact Logic.I|]. split; [apply IH|apply IHb]. Qed.
Definition readable (x : F) : Prop := reads strtod (fmt x) (again x).
Lemma apart_punct x r : punct x -> apart (x :: r).
Proof. intros X. unfold punct, apart, dig, letter in *. cbn [In] in *. lia. Qed.
Ltac pu := unfold punct; cbn [In]; tauto.
(** the values: what follows is a punctuation character *)
Definition put_ok (v : value (list Z) F) : Prop := wf_value v -> Forall readable (floats_value v) ->
  exists t, val strtod t (plain_value again v) /\ forall x r l, punct x -> lexes (x :: r) l -> lexes (putv v ++ x :: r) (t ++ l).
Lemma put_value_ok v : put_ok v.
Proof.
  induction v as [s|n|x|s|a b c IHa IHb IHc|l IH] using value_ind2; intros W R; cbn [wf_value floats_value plain_value put_value] in *.
  - exists [TId s]. split; [constructor|]. intros x r l X H. apply (lx_id [] s (x :: r) l); auto; [constructor|now apply apart_punct].
  - destruct (put_int_ok n W) as (N & V). exists [TInt (put_int n)]. split; [now constructor|]. intros x r l X H. apply (lx_num [] _ _ false (x :: r) l); auto; [constructor|now apply apart_punct].
  - inversion R as [|? ? R1 R2]; subst. unfold readable in R1. inversion R1 as [t n N V E|t N E].
    + exists [TInt t]. split; [now constructor|]. intros y r l X H. apply (lx_num [] _ _ false (y :: r) l); auto; [constructor|now apply apart_punct].
    + exists [TFloat t]. split; [now constructor|]. intros y r l X H. apply (lx_num [] _ _ true (y :: r) l); auto; [constructor|now apply apart_punct].
  - exists [TStr s]. split; [constructor|]. intros x r l X H. cbn. rewrite <- app_assoc. apply (lx_str [] s (x :: r) l); auto; [constructor|tauto].
  - destruct W as (Wa & Wb & Wc). rewrite !Forall_app in R. destruct R as (Ra & Rb & Rc). destruct (IHa Wa Ra) as (ta & Va & La). destruct (IHb Wb Rb) as (tb & Vb & Lb). destruct c as [c|].
    + destruct (IHc Wc Rc) as (tc & Vc & Lc). exists (TP 91 :: ta ++ TP 58 :: tc ++ TP 58 :: tb ++ [TP 93]). split; [now constructor|]. intros x r l X H. cbn [app]. rewrite <- ?app_assoc. cbn [app]. rewrite <- ?app_assoc. cbn [app]. rewrite <- ?app_assoc. cbn [app]. rewrite <- ?app_assoc. cbn [app]. apply lex0_punct; [pu|]. apply La; [pu|]. apply lex0_punct; [pu|]. apply Lc; [pu|]. apply lex0_punct; [pu|]. apply Lb; [pu|]. apply lex0_punct; [pu|auto].
    + exists (TP 91 :: ta ++ TP 58 :: tb ++ [TP 93]). split; [now constructor|]. intros x r l X H. cbn [app]. rewrite <- ?app_assoc. cbn [app]. rewrite <- ?app_assoc. cbn [app]. apply lex0_punct; [pu|]. apply La; [pu|]. apply lex0_punct; [pu|]. apply Lb; [pu|]. apply lex0_punct; [pu|auto].
  - assert (K : l <> [] -> exists t, vals strtod t (map (plain_value again) l) /\ forall x r k, punct x -> lexes (x :: r) k -> lexes (sep (map putv l) ++ x :: r) (t ++ k)).
    { clear - IH W R. induction l as [|v l IHl]; [congruence|]. intros _. cbn [all flat_map] in *. rewrite Forall_app in R. destruct IH as (I1 & I2), W as (W1 & W2), R as (R1 & R2). destruct (I1 W1 R1) as (t1 & V1 & L1). destruct l as [|w l].
      - exists t1. split; [now constructor|]. intros x r k X H. cbn [map sep]. now apply L1.
      - destruct (IHl I2 W2 R2 ltac:(discriminate)) as (t2 & V2 & L2). exists (t1 ++ TP 44 :: t2). split; [now constructor|]. intros x r k X H. change (sep (map putv (v :: w :: l))) with (putv v ++ 44 :: sep (map putv (w :: l))). rewrite <- !app_assoc. cbn [app]. apply L1; [pu|]. apply lex0_punct; [pu|]. now apply L2. }
    destruct l as [|v l].
    + exists [TP 91; TP 93]. split; [constructor|]. intros x r k X H. cbn. apply lex0_punct; [pu|]. apply lex0_punct; [pu|auto].
    + destruct (K ltac:(discriminate)) as (t & V & L). exists (TP 91 :: t ++ [TP 93]). split; [now constructor|]. intros x r k X H. cbn [app]. rewrite <- !app_assoc. cbn [app]. apply lex0_punct; [pu|]. apply L; [pu|]. apply lex0_punct; [pu|auto].
Qed.
Lemma put_arg_ok a : wf_arg a -> Forall readable (floats_value (snd a)) -> exists t, argument strtod t (plain_arg again a) /\ forall x r l, punct x -> lexes (x :: r) l -> lexes (putarg a ++ x :: r) (t ++ l).
Proof.
  destruct a as ([k|], v); intros (W1 & W2) R; cbn [fst snd] in *; destruct (put_value_ok v W2 R) as (t & V & L).
  - exists (TId k :: TP 61 :: t). split; [now constructor|]. intros x r l X H. unfold put_arg. cbn [fst snd]. rewrite <- !app_assoc. cbn [app]. apply (lx_id [] k); auto; [constructor|apply apart_punct; pu|]. apply lex0_punct; [pu|]. now apply L.
  - exists t. split; [now constructor|]. intros x r l X H. unfold put_arg. cbn [fst snd app]. now apply L.
Qed.
Lemma put_args_ok l : all wf_arg l -> Forall readable (flat_map (fun x => floats_value (snd x)) l) -> exists t, arguments strtod t (map (plain_arg again) l) /\ forall r k, lexes (41 :: r) k -> lexes (sep (map putarg l) ++ 41 :: r) (t ++ k).
Proof.
  induction l as [|a l IH]; intros W R; [exists []; split; [constructor|auto]|]. cbn [all flat_map] in *. rewrite Forall_app in R. destruct W as (W1 & W2), R as (R1 & R2). destruct (put_arg_ok a W1 R1) as (t1 & A1 & L1). destruct l as [|b l].
  - exists t1. split; [now constructor|]. intros r k H. cbn [map sep]. apply L1; [pu|auto].
  - destruct (IH W2 R2) as (t2 & A2 & L2). exists (t1 ++ TP 44 :: t2). split; [now constructor|]. intros r k H. change (sep (map putarg (a :: b :: l))) with (putarg a ++ 44 :: sep (map putarg (b :: l))). rewrite <- !app_assoc. cbn [app]. apply L1; [pu|]. apply lex0_punct; [pu|]. now apply L2.
Qed.
Definition callable (f : option (list Z)) : Prop := exists s, f = Some s /\ ~ In s keywords.
Definition item_ok (i : item (list Z) F) : Prop := wf_item i -> Forall readable (floats_item i) -> Forall callable (functors_item i) ->
  exists t, itm strtod t [plain_item again i] /\ forall d r l, lexes r l -> lexes (puti d i ++ r) (t ++ l).
Lemma put_item_ok i : item_ok i.
Proof.
  induction i as [f a b m IH] using item_ind2. intros W R C. cbn [wf_item floats_item functors_item plain_item] in *. rewrite Forall_app in R. destruct W as (Wf & Wa & Wb), R as (Ra & Rb). inversion C as [|? ? C1 C2]; subst. destruct C1 as (s & -> & NK). destruct (put_args_ok a Wa Ra) as (ta & A & La).
  assert (K : exists t, itms strtod t (map (plain_item again) b) /\ forall d r l, lexes r l -> lexes (flat_map (puti d) b ++ r) (t ++ l)).
  { clear - IH Wb Rb C2. induction b as [|i b IHb]; [exists []; split; [constructor|auto]|]. cbn [all flat_map] in *. rewrite Forall_app in Rb, C2. destruct IH as (I1 & I2), Wb as (W1 & W2), Rb as (R1 & R2), C2 as (C1 & C2). destruct (I1 W1 R1 C1) as (t1 & V1 & L1). destruct (IHb I2 W2 R2 C2) as (t2 & V2 & L2). exists (t1 ++ t2). split; [apply (is_cons strtod t1 [plain_item again i]); auto|]. intros d r l H. rewrite <- !app_assoc. apply L1. now apply L2. }
  assert (HEAD : forall d r l, lexes r l -> lexes (repeat 32 d ++ s ++ 40 :: sep (map putarg a) ++ 41 :: r) (TId s :: TP 40 :: ta ++ TP 41 :: l)).
  { intros d r l H. apply lex_space. apply (lx_id [] s); [constructor|auto|apply apart_punct; pu|]. apply lex0_punct; [pu|]. apply La. apply lex0_punct; [pu|auto]. }
  destruct b as [|i b].
  - exists (TId s :: TP 40 :: ta ++ TP 41 :: [TP 59]). split.
    + apply (i_call strtod [] 0 s ta _ [TP 59] []); auto; [constructor|]. apply ca_itm; [constructor|discriminate].
    + intros d r l H. cbn [put_item]. rewrite <- !app_assoc. cbn [app]. rewrite <- !app_assoc. cbn [app]. apply HEAD. apply lex0_punct; [pu|]. now apply lex_nl.
  - destruct K as (tb & I & Lb). exists (TId s :: TP 40 :: ta ++ TP 41 :: TP 123 :: tb ++ [TP 125]). split.
    + apply (i_call strtod [] 0 s ta _ (TP 123 :: tb ++ [TP 125])); auto; [constructor|]. now constructor.
    + intros d r l H. change (puti d (Item (Some s) a (i :: b) m)) with (repeat 32 d ++ s ++ 40 :: sep (map putarg a) ++ 41 :: [32; 123; 10] ++ flat_map (puti (2 + d)) (i :: b) ++ repeat 32 d ++ [125; 10]).
      rewrite <- !app_assoc. cbn [app]. rewrite <- !app_assoc. cbn [app]. rewrite <- !app_assoc. cbn [app]. apply HEAD. apply lex_sp. apply lex0_punct; [pu|]. apply lex_nl. rewrite <- ?app_assoc. apply Lb. apply lex_space. cbn [app]. apply lex0_punct; [pu|]. now apply lex_nl.
Qed.
Lemma put_tree_ok t : all wf_stmt t -> Forall readable (floats t) -> Forall callable (functors t) -> source strtod (put_tree F fmt t) (map (plain again) t).
Proof.
  unfold floats, functors, source. induction t as [|s t IH]; intros W R C; [exists []; split; [constructor; constructor; constructor|constructor]|]. destruct W as (W1 & W2). cbn [items flat_map] in R, C. rewrite !flat_map_app, Forall_app in R, C. destruct R as (R1 & R2), C as (C1 & C2). destruct (IH W2 R2 C2) as (toks & L & P). destruct s as [i|p].
  - cbn in R1, C1. rewrite app_nil_r in R1, C1. destruct (put_item_ok i W1 R1 C1) as (t1 & I & L1). exists (t1 ++ toks). split; [now apply L1|]. apply (pg_itm strtod t1 [plain_item again i]); auto.
  - exists (TId s_use :: TPath p :: toks). split; [|now constructor]. cbn [put_tree flat_map put_stmt]. rewrite <- !app_assoc. apply (lx_id [] s_use (32 :: 60 :: p ++ 62 :: 10 :: put_tree F fmt t)).
    + constructor.
    + apply id_plain; [unfold letter; lia|]. repeat constructor; unfold idc, letter; lia.
    + cbn. unfold dig, letter. intros Q. lia.
    + apply lex_sp. apply (lx_path [] p (10 :: put_tree F fmt t)); [constructor|apply W1|]. now apply lex_nl.
Qed.

(** the text has no NUL *)
Lemma posl_intro a b : posl a -> posl b -> posl (a ++ b).
Proof. intros A B x I. rewrite in_app_iff in I. destruct I; auto. Qed.
Lemma posl_cons a b : 0 < a -> posl b -> posl (a :: b).
Proof. intros A B x [<-|I]; auto. Qed.
Lemma posl_nil : posl []. Proof. intros x []. Qed.
Lemma posl_forall (P : Z -> Prop) l : (forall x, P x -> 0 < x) -> Forall P l -> posl l.
Proof. intros H A x I. rewrite Forall_forall in A. auto. Qed.
Lemma ident_pos s : ident s -> posl s.
Proof. intros [r H|c r C H]; (apply posl_cons; [unfold letter in *; lia|]); eapply posl_forall; try exact H; unfold idc, letter, dig; lia. Qed.
Lemma number_pos s t fl : number s t fl -> posl s.
Proof.
  assert (D : forall d, digs d -> posl d) by (intros d H; eapply posl_forall; [|exact H]; unfold dig; lia).
  assert (Fr : forall f, frac f -> posl f) by (intros f [->|(d & -> & H)]; [apply posl_nil|apply posl_cons; [lia|auto]]).
  assert (Ex : forall x, expo x -> posl x) by (intros x [->|(c & sg & d & -> & C & S & H)]; [apply posl_nil|apply posl_cons; [lia|apply posl_intro; [destruct S as [-> | [-> | ->]]; repeat (apply posl_cons; [lia|]); apply posl_nil|auto]]]).
  intros [d f x A B C N|d f x A B C|d f x A B C]; repeat (apply posl_cons; [lia|]); repeat apply posl_intro; auto.
Qed.
Lemma sep_pos l : all posl l -> posl (sep l).
Proof. induction l as [|x [|y l] IH]; intros H; [apply posl_nil|apply H|]. change (sep (x :: y :: l)) with (x ++ 44 :: sep (y :: l)). destruct H as (H1 & H2). apply posl_intro; auto. apply posl_cons; [lia|auto]. Qed.
Lemma putv_pos v : wf_value v -> Forall readable (floats_value v) -> posl (putv v).
Proof.
  induction v as [s|n|x|s|a b c IHa IHb IHc|l IH] using value_ind2; intros W R; cbn [wf_value floats_value put_value] in *.
  - now apply ident_pos.
  - eapply number_pos. apply (proj1 (put_int_ok n W)).
  - inversion R as [|? ? R1 R2]; subst. unfold readable in R1. inversion R1; eapply number_pos; eauto.
  - apply posl_cons; [lia|]. apply posl_intro; [tauto|]. apply posl_cons; [lia|apply posl_nil].
  - destruct W as (Wa & Wb & Wc). rewrite !Forall_app in R. destruct R as (Ra & Rb & Rc). apply posl_cons; [lia|]. apply posl_intro; auto. apply posl_cons; [lia|]. apply posl_intro; [destruct c; [apply posl_intro; auto; apply posl_cons; [lia|]|]; apply posl_nil|]. apply posl_intro; auto. apply posl_cons; [lia|apply posl_nil].
  - apply posl_cons; [lia|]. apply posl_intro; [|apply posl_cons; [lia|apply posl_nil]]. apply sep_pos. induction l as [|v l IHl]; cbn in *; [exact Logic.I|]. rewrite Forall_app in R. destruct IH, W, R. auto.
Qed.
Lemma puti_pos i : wf_item i -> Forall readable (floats_item i) -> forall d, posl (puti d i).
Proof.
  induction i as [f a b m IH] using item_ind2. intros W R d. cbn [wf_item floats_item] in *. rewrite Forall_app in R. destruct W as (Wf & Wa & Wb), R as (Ra & Rb).
  assert (SP : forall n, posl (repeat 32 n)) by (intros n x I; apply repeat_spec in I; lia).
  assert (AP : all posl (map putarg a)). { clear - Wa Ra. induction a as [|(k, v) a IHa]; cbn in *; [exact Logic.I|]. rewrite Forall_app in Ra. destruct Wa as ((W1 & W2) & W3), Ra as (R1 & R2). split; [|auto]. unfold put_arg. cbn [fst snd] in *. apply posl_intro; [|now apply putv_pos]. destruct k; [|apply posl_nil]. apply posl_intro; [now apply ident_pos|apply posl_cons; [lia|apply posl_nil]]. }
  assert (BP : forall n, posl (flat_map (puti n) b)). { intros n. clear - IH Wb Rb. induction b as [|i b IHb]; [apply posl_nil|]. cbn [all flat_map] in *. rewrite Forall_app in Rb. destruct IH, Wb, Rb. apply posl_intro; auto. }
  cbn [put_item]. apply posl_intro; auto. apply posl_intro; [destruct f; [now apply ident_pos|apply posl_cons; [lia|apply posl_nil]]|]. apply posl_cons; [lia|]. apply posl_intro; [now apply sep_pos|]. apply posl_cons; [lia|]. destruct b as [|i b]; [repeat (apply posl_cons; [lia|]); apply posl_nil|]. repeat (apply posl_cons; [lia|]). apply posl_intro; [apply BP|]. apply posl_intro; auto. repeat (apply posl_cons; [lia|]). apply posl_nil.
Qed.
Lemma put_tree_pos t : all wf_stmt t -> Forall readable (floats t) -> posl (put_tree F fmt t).
Proof.
  unfold floats. induction t as [|s t IH]; intros W R; [apply posl_nil|]. destruct W as (W1 & W2). cbn [items flat_map] in R. rewrite !flat_map_app, Forall_app in R. destruct R as (R1 & R2). cbn [put_tree flat_map]. apply posl_intro; [|auto]. destruct s as [i|p]; cbn [put_stmt].
  - cbn in R1. rewrite app_nil_r in R1. now apply puti_pos.
  - repeat (apply posl_cons; [lia|]). apply posl_intro; [apply W1|]. repeat (apply posl_cons; [lia|]). apply posl_nil.
Qed.
(** trees without modifiers, if numbers are read as they were *)
Lemma plain_value_id v : (forall x, In x (floats_value v) -> again x = VFloat x) -> plain_value again v = v.
Proof.
  induction v as [s|n|x|s|a b c IHa IHb IHc|l IH] using value_ind2; intros H; cbn [floats_value plain_value] in *; auto.
  - apply H. now left.
  - rewrite IHa, IHb by (intros x I; apply H; rewrite !in_app_iff; auto). destruct c; auto. rewrite IHc by (intros x I; apply H; rewrite !in_app_iff; auto). auto.
  - f_equal. induction l as [|v l IHl]; cbn in *; auto. destruct IH. f_equal; [apply H0|apply IHl; auto]; intros x I; apply H; rewrite in_app_iff; auto.
Qed.
Lemma plain_item_id i : (forall x, In x (floats_item i) -> again x = VFloat x) -> (forall m, In m (modifiers_item i) -> m = 0) -> plain_item again i = i.
Proof.
  induction i as [f a b m IH] using item_ind2. intros H M. cbn [floats_item modifiers_item plain_item] in *. f_equal.
  - assert (H' : forall x, In x (flat_map (fun x => floats_value (snd x)) a) -> again x = VFloat x) by (intros x I; apply H; rewrite in_app_iff; auto). clear - H'. induction a as [|(k, v) a IHa]; cbn in *; auto. f_equal; [unfold plain_arg; cbn; f_equal; apply plain_value_id|apply IHa]; intros x I; apply H'; rewrite in_app_iff; auto.
  - assert (H' : forall x, In x (flat_map floats_item b) -> again x = VFloat x) by (intros x I; apply H; rewrite in_app_iff; auto). assert (M' : forall x, In x (flat_map modifiers_item b) -> x = 0) by (intros x I; apply M; now right). clear - H' M' IH. induction b as [|i b IHb]; cbn in *; auto. destruct IH as (I1 & I2). f_equal; [apply I1|apply IHb; auto]; intros x I; apply H' || apply M'; rewrite in_app_iff; auto.
  - symmetry. apply M. now left.
Qed.
Lemma plain_id t : (forall x, In x (floats t) -> again x = VFloat x) -> (forall m, In m (modifiers t) -> m = 0) -> map (plain again) t = t.
Proof.
  unfold floats, modifiers. induction t as [|s t IH]; intros H M; auto. cbn [items flat_map] in H, M. rewrite !flat_map_app in H, M. cbn [map]. f_equal; [|apply IH; intros x I; apply H || apply M; rewrite in_app_iff; auto].
  destruct s as [i|p]; [|auto]. cbn [plain]. f_equal. apply plain_item_id; intros x I; apply H || apply M; rewrite in_app_iff; left; cbn; rewrite app_nil_r; auto.
Qed.
End Put.
