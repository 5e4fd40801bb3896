(** Reading a copy, and the words of a file. *)
From Coq Require Import ZArith Bool String List Lia ZifyBool.
From Verif Require Import Stl_model Stl_spec Stltext_model Stltext_spec Stltext_proofs Stltext_proofs2.
Import ListNotations.
Local Open Scope Z_scope.

(** *** a token and the words *)

Definition keywords : list (Z * list Z) :=
  [(K_SOLID, chars "solid"); (K_ENDSOLID, chars "endsolid"); (K_FACET, chars "facet"); (K_NORMAL, chars "normal");
   (K_ENDFACET, chars "endfacet"); (K_OUTER, chars "outer"); (K_LOOP, chars "loop"); (K_ENDLOOP, chars "endloop");
   (K_VERTEX, chars "vertex")].

Lemma str_eqb_iff a : forall b, str_eqb a b = true <-> a = b.
Proof.
  induction a as [|x a IH]; intros [|y b]; cbn; split; intros H; try reflexivity; try discriminate.
  - apply andb_prop in H as [H1 H2]. apply Z.eqb_eq in H1. apply IH in H2. congruence.
  - injection H as -> ->. rewrite Z.eqb_refl. cbn. apply IH. reflexivity.
Qed.

Lemma sieve_kw k w : In (k, w) keywords -> sieve_id w (length w) = k.
Proof. intros H. repeat (destruct H as [[= <- <-]|H]; [reflexivity|]). destruct H. Qed.
Lemma sieve_inv w k : sieve_id w (length w) = k -> k = T_ID \/ In (k, w) keywords.
Proof.
  unfold sieve_id. intros <-. destruct (Nat.ltb _ _); [auto|].
  repeat match goal with
  | |- context [if str_eqb w ?x then _ else _] => let H := fresh in destruct (str_eqb w x) eqn:H; [apply str_eqb_iff in H; subst w; right; cbn; tauto|clear H]
  | |- context [if ?b then _ else _] => destruct b
  end; auto.
Qed.
Lemma kw_alpha k w : In (k, w) keywords -> Forall (fun c => is_alpha c = true) w /\ w <> [].
Proof. intros H. repeat (destruct H as [[= <- <-]|H]; [split; [repeat constructor|discriminate]|]). destruct H. Qed.
Lemma kw_key k w : In (k, w) keywords -> 513 <= k <= 521.
Proof. intros H. repeat (destruct H as [[= <- <-]|H]; [cbv; split; discriminate|]). destruct H. Qed.
Lemma kw_fun k w w' : In (k, w) keywords -> In (k, w') keywords -> w = w'.
Proof.
  intros H H'. repeat (destruct H as [[= <- <-]|H];
    [repeat (destruct H' as [H'|H']; [first [discriminate H'|injection H' as <-; reflexivity]|]); destruct H'|]). destruct H.
Qed.

Definition starts_blank (s : list Z) : Prop := exists c s', s = c :: s' /\ is_space c = true.

Lemma blank_starts b s : blank b -> b <> [] -> starts is_space (b ++ s) = true.
Proof. intros H N. destruct b as [|c b]; [contradiction|]. inversion H; subst. assumption. Qed.
Lemma space_not_alpha c : is_space c = true -> is_alpha c = false.
Proof. unfold is_space, is_alpha. lia. Qed.
Lemma alpha_not_space c : is_alpha c = true -> is_space c = false.
Proof. unfold is_space, is_alpha. lia. Qed.
Lemma alpha_not_num c : is_alpha c = true -> num_start c = false.
Proof. unfold num_start, is_digit, is_alpha. lia. Qed.

(** a keyword is read *)
Lemma ptok_kw k w b s g : In (k, w) keywords -> blank b -> (g = true -> b <> []) -> no_letter s ->
  ptok (b ++ w ++ s) g = (k, w, s, true).
Proof.
  intros K B G N. destruct (kw_alpha _ _ K) as [A NE].
  destruct w as [|c w]; [contradiction|]. inversion A as [|? ? AC AW]; subst.
  unfold ptok. rewrite dropw_app by exact B. cbn [app dropw]. rewrite (alpha_not_space _ AC).
  rewrite (alpha_not_num _ AC), AC.
  replace (g && negb (starts is_space (b ++ c :: w ++ s))) with false.
  2:{ destruct g; [|reflexivity]. rewrite blank_starts by auto. reflexivity. }
  change (c :: w ++ s) with ((c :: w) ++ s). rewrite takew_app, dropw_app by exact A.
  rewrite take_stop, drop_stop by exact N. rewrite app_nil_r. rewrite (sieve_kw _ _ K). reflexivity.
Qed.
(** and only then *)
Lemma ptok_kw_inv k w s s' g g' t : In (k, w) keywords -> ptok s g = (k, t, s', g') ->
  g' = true /\ no_letter s' /\ exists b, s = b ++ w ++ s' /\ blank b /\ (g = true -> b <> []).
Proof.
  intros K. pose proof (kw_key _ _ K) as KR. unfold ptok.
  pose proof (takew_dropw is_space s) as SP. pose proof (takew_all is_space s) as BL.
  destruct (dropw is_space s) as [|c r] eqn:D; [intros [= E]; unfold T_EOF in E; lia|].
  destruct (num_start c) eqn:NS.
  { destruct (_ && _); intros [= E]; unfold T_ERROR, T_FLOAT in E; lia. }
  destruct (is_alpha c) eqn:AL.
  2:{ destruct (negb (c <? 128)) eqn:BIG; intros [= E]; [unfold T_ERROR in E; lia|lia]. }
  destruct (g && negb (starts is_space s)) eqn:ST; [intros [= E]; unfold T_ERROR in E; lia|].
  intros [= E1 E2 E3 E4]. split; [congruence|].
  destruct (sieve_inv (takew is_alpha (c :: r)) k) as [E|E].
  { exact E1. }
  { rewrite E in KR. unfold T_ID in KR. lia. }
  rewrite AL in E3. rewrite (kw_fun _ _ _ K E). split.
  - rewrite <- E3. pose proof (dropw_hd is_alpha (c :: r)) as Q. cbn [dropw] in Q. rewrite AL in Q. exact Q.
  - exists (takew is_space s). rewrite <- E3.
    pose proof (takew_dropw is_alpha (c :: r)) as Q. cbn [dropw] in Q. rewrite AL in Q. rewrite Q. split; [congruence|].
    split; [exact BL|]. intros -> Z. destruct s as [|d s]; [discriminate D|]. cbn [takew starts] in *.
    destruct (is_space d); [discriminate Z|discriminate ST].
Qed.

(** *** numbers *)
Lemma opt_app P k c s : P c = true -> opt P k (c :: s) = k s.
Proof. intros H. cbn. rewrite H. reflexivity. Qed.
Lemma opt_not P k s : match s with [] => True | c :: _ => P c = false end -> opt P k s = s.
Proof. destruct s as [|c s]; cbn; [reflexivity|]. intros ->. reflexivity. Qed.
Definition stops (s : list Z) : Prop := match s with [] => True | c :: _ => is_space c = true end.

Lemma digits_drop d s : digits d -> match s with [] => True | c :: _ => is_digit c = false end -> dropw is_digit (d ++ s) = s.
Proof. intros H N. rewrite dropw_app by exact H. apply drop_stop, N. Qed.

Ltac dig := unfold is_space, is_sign, is_e, is_dot, is_digit in *; lia.
Lemma expo_ok e s : (e = [] \/ exists x s' d', e = x :: s' ++ d' /\ (x = 101 \/ x = 69) /\ sign s' /\ digits d') ->
  stops s -> expo (e ++ s) = s.
Proof.
  intros E N. unfold stops in N. destruct E as [->|(x & sg & d & -> & X & SG & D)].
  - cbn [app]. unfold expo. apply opt_not. destruct s; [exact I|dig].
  - unfold expo. cbn [app]. rewrite opt_app by (destruct X as [-> | ->]; reflexivity). rewrite <- app_assoc.
    assert (Q : dropw is_digit (d ++ s) = s) by (apply digits_drop; [exact D|]; destruct s; [exact I|dig]).
    destruct SG as [->|[->| ->]]; cbn [app]; [|rewrite opt_app by reflexivity; exact Q|rewrite opt_app by reflexivity; exact Q].
    rewrite opt_not; [exact Q|]. destruct d as [|x' d]; cbn [app]; [destruct s; [exact I|dig]|]. inversion D; subst. dig.
Qed.
Lemma expo_hd e s : (e = [] \/ exists x s' d', e = x :: s' ++ d' /\ (x = 101 \/ x = 69) /\ sign s' /\ digits d') ->
  stops s -> match e ++ s with [] => True | c :: _ => is_space c = true \/ is_e c = true end.
Proof.
  intros E N. destruct E as [->|(x & sg & d & -> & X & _)]; cbn [app].
  - destruct s; [exact I|]. left. exact N.
  - right. dig.
Qed.
Lemma frac_ok fr r : (fr = [] \/ exists d', fr = 46 :: d' /\ digits d') ->
  match r with [] => True | c :: _ => is_space c = true \/ is_e c = true end -> frac (fr ++ r) = r.
Proof.
  intros F R. unfold frac. destruct F as [->|(d & -> & D)]; cbn [app].
  - apply opt_not. destruct r; [exact I|dig].
  - rewrite opt_app by reflexivity. apply digits_drop; [exact D|]. destruct r; [exact I|dig].
Qed.
Lemma num_rest_ok w s : loose_number w -> stops s -> num_rest (w ++ s) = s.
Proof.
  intros (sg & d & fr & e & -> & SG & D & F & E & _) N. rewrite <- !app_assoc. unfold num_rest.
  pose proof (expo_hd e s E N) as H1.
  assert (H2 : match fr ++ e ++ s with [] => True | c :: _ => is_digit c = false /\ is_sign c = false end).
  { destruct F as [->|(d' & -> & _)]; cbn [app]; [|split; reflexivity]. destruct (e ++ s); [exact I|]. dig. }
  assert (H3 : match d ++ fr ++ e ++ s with [] => True | c :: _ => is_sign c = false end).
  { destruct d as [|c d]; cbn [app]; [destruct (fr ++ e ++ s); tauto|]. inversion D; subst. dig. }
  replace (opt is_sign (fun r => r) (sg ++ d ++ fr ++ e ++ s)) with (d ++ fr ++ e ++ s).
  2:{ destruct SG as [->|[->| ->]]; cbn [app]; [symmetry; apply opt_not, H3|reflexivity|reflexivity]. }
  rewrite digits_drop; [|exact D|destruct (fr ++ e ++ s); tauto].
  rewrite frac_ok by assumption. apply expo_ok; assumption.
Qed.
Lemma loose_start w : loose_number w -> exists c r, w = c :: r /\ num_start c = true.
Proof.
  intros (sg & d & fr & e & -> & SG & D & F & _ & NE).
  destruct SG as [->|[->| ->]]; cbn [app]; [|eexists _, _; split; reflexivity|eexists _, _; split; reflexivity].
  destruct d as [|c d]; cbn [app]; [|inversion D; subst; eexists _, _; split; [reflexivity|unfold num_start; lia]].
  destruct F as [->|(d' & -> & _)]; [cbn in NE; congruence|]. eexists _, _. split; reflexivity.
Qed.
Lemma num_not_space c : num_start c = true -> is_space c = false.
Proof. unfold num_start, is_space, is_digit. lia. Qed.

Lemma ptok_num w b s : loose_number w -> blank b -> b <> [] -> stops s ->
  ptok (b ++ w ++ s) true = (T_FLOAT, unplus w, s, true).
Proof.
  intros W B NE N. unfold ptok. rewrite dropw_app by exact B.
  destruct (loose_start w W) as (c & r & E & NS). rewrite (blank_starts b _ B NE). cbn [negb andb].
  rewrite drop_stop by (rewrite E; cbn [app]; apply num_not_space, NS).
  destruct (w ++ s) as [|c' r'] eqn:WS; [rewrite E in WS; discriminate WS|].
  assert (c' = c) by (rewrite E in WS; cbn in WS; congruence). subst c'. rewrite NS. rewrite <- WS.
  rewrite num_rest_ok by assumption. unfold used. rewrite app_length.
  replace (length w + length s - length s)%nat with (length w) by lia.
  rewrite firstn_app, Nat.sub_diag, firstn_all, app_nil_r. reflexivity.
Qed.

Lemma opt_inv P k s : (opt P k s = s) \/ exists c r, s = c :: r /\ P c = true /\ opt P k s = k r.
Proof. destruct s as [|c s]; cbn; [auto|]. destruct (P c) eqn:E; [|auto]. right. eauto. Qed.
Lemma sign_inv s : exists sg, sign sg /\ s = sg ++ opt is_sign (fun r => r) s.
Proof.
  destruct (opt_inv is_sign (fun r => r) s) as [->|(c & r & -> & P & ->)].
  - exists []. split; [left; reflexivity|reflexivity].
  - exists [c]. split; [|reflexivity]. unfold is_sign in P. unfold sign. destruct (Z.eqb_spec c 45); [subst; tauto|].
    destruct (Z.eqb_spec c 43); [subst; tauto|discriminate].
Qed.
Lemma num_rest_inv s : exists sg d fr e, s = (sg ++ d ++ fr ++ e) ++ num_rest s /\ sign sg /\ digits d /\
  (fr = [] \/ exists d', fr = 46 :: d' /\ digits d') /\
  (e = [] \/ exists x s' d', e = x :: s' ++ d' /\ (x = 101 \/ x = 69) /\ sign s' /\ digits d').
Proof.
  destruct (sign_inv s) as (sg & SG & E1). set (s1 := opt is_sign (fun r => r) s) in *.
  pose proof (takew_dropw is_digit s1) as E2. pose proof (takew_all is_digit s1) as D2. set (s2 := dropw is_digit s1) in *.
  assert (E3 : exists fr, s2 = fr ++ frac s2 /\ (fr = [] \/ exists d', fr = 46 :: d' /\ digits d')).
  { unfold frac. destruct (opt_inv is_dot (dropw is_digit) s2) as [->|(c & r & -> & P & ->)].
    - exists []. auto.
    - exists (46 :: takew is_digit r). unfold is_dot in P. assert (c = 46) by lia. subst c. cbn [app]. rewrite takew_dropw.
      split; [reflexivity|]. right. eexists. split; [reflexivity|]. apply takew_all. }
  destruct E3 as (fr & E3 & F). set (s3 := frac s2) in *.
  assert (E4 : exists e, s3 = e ++ expo s3 /\ (e = [] \/ exists x s' d', e = x :: s' ++ d' /\ (x = 101 \/ x = 69) /\ sign s' /\ digits d')).
  { unfold expo. destruct (opt_inv is_e (fun r => dropw is_digit (opt is_sign (fun r => r) r)) s3) as [->|(c & r & -> & P & ->)].
    - exists []. auto.
    - destruct (sign_inv r) as (sg' & SG' & E5). set (r1 := opt is_sign (fun r => r) r) in *.
      exists (c :: sg' ++ takew is_digit r1). split.
      + cbn [app]. rewrite <- app_assoc, takew_dropw. congruence.
      + right. exists c, sg', (takew is_digit r1). split; [reflexivity|]. split; [unfold is_e in P; lia|]. split; [exact SG'|apply takew_all]. }
  destruct E4 as (e & E4 & X).
  exists sg, (takew is_digit s1), fr, e. split; [|auto].
  unfold num_rest. fold s1. fold s2. fold s3. rewrite <- !app_assoc, <- E4, <- E3, E2. exact E1.
Qed.
Lemma ptok_num_inv s s' g' t : ptok s true = (T_FLOAT, t, s', g') ->
  g' = true /\ exists b w, s = b ++ w ++ s' /\ blank b /\ b <> [] /\ loose_number w /\ t = unplus w.
Proof.
  unfold ptok. pose proof (takew_dropw is_space s) as SP. pose proof (takew_all is_space s) as BL.
  destruct (dropw is_space s) as [|c r] eqn:D; [discriminate|].
  destruct (num_start c) eqn:NS.
  2:{ destruct (is_alpha c).
      - destruct (_ && _); [discriminate|]. intros [= E _ _ _]. exfalso. apply sieve_inv in E as [E|E]; [discriminate E|].
        apply kw_key in E. unfold T_FLOAT in E. lia.
      - destruct (negb (c <? 128)) eqn:BIG; intros [= E]; unfold T_FLOAT in *; lia. }
  destruct (true && negb (starts is_space s)) eqn:ST; [discriminate|].
  intros [= E2 E3 E4]. split; [congruence|]. exists (takew is_space s), (used (c :: r) (num_rest (c :: r))).
  destruct (num_rest_inv (c :: r)) as (sg & d & fr & e & E & SG & DD & F & X).
  assert (U : used (c :: r) (num_rest (c :: r)) = sg ++ d ++ fr ++ e).
  { unfold used. rewrite E at 1 3. rewrite app_length.
    match goal with |- firstn (?a + ?b - ?b) _ = _ => replace (a + b - b)%nat with a by lia end.
    rewrite firstn_app, Nat.sub_diag, firstn_all, app_nil_r. reflexivity. }
  rewrite U in E2 |- *. rewrite <- E3. rewrite <- E. split; [congruence|]. split; [exact BL|]. split.
  { intros Z. destruct s as [|x s]; [discriminate D|]. cbn [takew starts] in *.
    destruct (is_space x); [discriminate Z|discriminate ST]. }
  split; [|congruence]. exists sg, d, fr, e. do 5 (split; [try reflexivity; assumption|]).
  intros Z. apply app_eq_nil in Z as [-> Z]. apply app_eq_nil in Z as [-> ->]. cbn [app] in E.
  (* then it starts with the exponent, which is no start of a number *)
  destruct X as [->|(x & sg' & d' & -> & X & _)].
  - cbn [app] in E. revert E NS. unfold num_rest. cbn [opt]. intros E NS. unfold num_start in NS.
    assert (L : forall P l, (length (dropw P l) <= length l)%nat).
    { intros P l. pose proof (takew_dropw P l) as Q. apply (f_equal (@length Z)) in Q. rewrite app_length in Q. lia. }
    assert (LF : forall l, (length (frac l) <= length l)%nat).
    { intros l. unfold frac. destruct (opt_inv is_dot (dropw is_digit) l) as [->|(c0 & r0 & -> & _ & ->)]; [lia|]. specialize (L is_digit r0). cbn. lia. }
    assert (LE : forall l, (length (expo l) <= length l)%nat).
    { intros l. unfold expo. destruct (opt_inv is_e (fun r => dropw is_digit (opt is_sign (fun r => r) r)) l) as [->|(c0 & r0 & -> & _ & ->)]; [lia|].
      specialize (L is_digit (opt is_sign (fun r => r) r0)). destruct (opt_inv is_sign (fun r => r) r0) as [Q|(c1 & r1 & -> & _ & Q)]; rewrite Q in *; cbn; cbn in L; lia. }
    apply (f_equal (@length Z)) in E. cbn [length] in E.
    assert (HL : (length (c :: r) <= length (frac (dropw is_digit (if is_sign c then r else c :: r))))%nat).
    { etransitivity; [|apply LE]. cbn [length]. rewrite <- E. lia. }
    destruct (is_sign c) eqn:SC.
    + specialize (LF (dropw is_digit r)). specialize (L is_digit r). cbn [length] in HL. lia.
    + cbn [dropw] in HL. destruct (is_digit c) eqn:DC.
      * specialize (LF (dropw is_digit r)). specialize (L is_digit r). cbn [length] in HL. lia.
      * assert (c = 46) by (unfold is_sign in SC; lia). subst c. unfold frac in HL. rewrite opt_app in HL by reflexivity.
        specialize (L is_digit r). cbn [length] in HL. lia.
  - injection E as E _. subst x. destruct X as [-> | ->]; discriminate NS.
Qed.
