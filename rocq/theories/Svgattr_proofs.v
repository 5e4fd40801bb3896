(** Proofs about lengths and the attribute [transform] of SVG files. *)
From Coq Require Import ZArith QArith List Bool Lia ZifyBool.
From Verif Require Import Svgpath_model Svgpath_spec Svgpath_proofs2 Svgpath_proofs3 Svgdoc_model Svgattr_model Svgattr_spec.
Import ListNotations.
Local Open Scope Z_scope.

Lemma expect_app w t : expect_raw w (w ++ t) = Some t.
Proof. induction w as [|x w IH]; cbn; [reflexivity|]. now rewrite Z.eqb_refl. Qed.
Lemma expect_inv w t r : expect_raw w t = Some r -> t = w ++ r.
Proof.
  revert t. induction w as [|x w IH]; intros t; cbn; [congruence|]. destruct t as [|y t]; [discriminate|].
  destruct (x =? y) eqn:E; [|discriminate]. intros H. apply Z.eqb_eq in E as ->. f_equal. now apply IH.
Qed.

Lemma sep_all b sp : sep b sp -> s_sep b sp = [].
Proof.
  intros [S|(-> & a & c & A & C & ->)].
  - pose proof (sep_spaces b sp [] S) as H. rewrite app_nil_r in H. rewrite H. now destruct b.
  - rewrite sep_spaces by assumption. cbn. pose proof (sep_spaces false c [] C) as H. rewrite app_nil_r in H. rewrite H. reflexivity.
Qed.

Lemma end_iff t : at_end t = true <-> spaces t.
Proof.
  unfold at_end. destruct (sep_false_inv t) as (a & A & E & _). split.
  - destruct (s_sep false t); [|discriminate]. intros _. rewrite E, app_nil_r. exact A.
  - intros S. rewrite (sep_all false t); [reflexivity|]. now left.
Qed.

Section S.
Variable strtod : text -> Q * nat.
Variable val : text -> Q.
Hypothesis ST : strtod_reads Q val strtod.
Notation s_double := (s_double Q strtod).

(** lengths *)
Lemma unit_ok p1 u1 u sp : spaces sp -> exists x, unit_dim p1 u1 (unit_text u ++ sp) = (x, sp) /\ (x == unit_px p1 u1 u)%Q.
Proof.
  intros S. destruct u; cbn; try (eexists; split; [reflexivity|]; unfold U_CM_PX, U_MM_PX; cbn; reflexivity).
  destruct S as [|c sp C S]; [eexists; split; reflexivity|].
  unfold space in C. destruct C as [ -> | [ -> | [ -> | [ -> | -> ]]]]; eexists; split; reflexivity.
Qed.

Lemma try_inv w u t (els z : Q * text) : try_unit w u t els = z -> (exists r, t = w ++ r /\ z = (u, r)) \/ z = els.
Proof.
  unfold try_unit. destruct (expect_raw w t) as [r|] eqn:E; intros <-; [left; exists r; split; [now apply expect_inv|reflexivity]|now right].
Qed.

Lemma unit_inv p1 u1 t x r : unit_dim p1 u1 t = (x, r) -> exists u, t = unit_text u ++ r /\ (x == unit_px p1 u1 u)%Q.
Proof.
  assert (NO : unit_dim p1 u1 t = (u1, t) -> unit_dim p1 u1 t = (x, r) -> exists u, t = unit_text u ++ r /\ (x == unit_px p1 u1 u)%Q).
  { intros -> H. injection H as <- <-. exists NoUnit. split; reflexivity. }
  intros H.
  assert (C : unit_dim p1 u1 t = (u1, t) \/ exists u, t = unit_text u ++ r /\ (x == unit_px p1 u1 u)%Q); [|destruct C as [C|C]; [exact (NO C H)|exact C]].
  clear NO. destruct t as [|c t]; [now left|].
  assert (TR : forall u y, try_unit (unit_text u) y (c :: t) (u1, c :: t) = (x, r) -> (y == unit_px p1 u1 u)%Q ->
     try_unit (unit_text u) y (c :: t) (u1, c :: t) = (u1, c :: t) \/ exists u, c :: t = unit_text u ++ r /\ (x == unit_px p1 u1 u)%Q).
  { intros u y E Y. destruct (try_inv _ _ _ _ _ E) as [(r' & ET & EZ)|EZ].
    - injection EZ as -> ->. right. exists u. split; assumption.
    - left. congruence. }
  destruct (Z.eq_dec c 37) as [->|N1].
  { right. injection H as <- <-. exists Percent. split; reflexivity. }
  destruct (Z.eq_dec c 105) as [->|N2].
  { apply (TR In_ _ H). reflexivity. }
  destruct (Z.eq_dec c 109) as [->|N3].
  { apply (TR Mm _ H). reflexivity. }
  destruct (Z.eq_dec c 99) as [->|N4].
  { apply (TR Cm _ H). reflexivity. }
  destruct (Z.eq_dec c 112) as [->|N5].
  { cbn [unit_dim] in H |- *.
    destruct (try_inv _ _ _ _ _ H) as [(r' & ET & EZ)|EZ].
    { right. injection EZ as -> ->. exists Px. split; [exact ET|reflexivity]. }
    symmetry in EZ. destruct (try_inv _ _ _ _ _ EZ) as [(r' & ET & EZ')|EZ'].
    { right. injection EZ' as -> ->. exists Pt. split; [exact ET|reflexivity]. }
    symmetry in EZ'. destruct (try_inv _ _ _ _ _ EZ') as [(r' & ET & EZ'')|EZ''].
    { right. injection EZ'' as -> ->. exists Pc. split; [exact ET|reflexivity]. }
    left. congruence. }
  left. cbn. destruct c as [|c|c]; try reflexivity. do 7 (destruct c as [c|c|]; try reflexivity; try congruence).
Qed.

Lemma unit_ends w u sp : num false w -> spaces sp -> ends w (unit_text u ++ sp).
Proof.
  intros N S. assert (C : forall c r, unit_text u ++ sp = c :: r -> (c = 105 \/ c = 99 \/ c = 109 \/ c = 112 \/ c = 37 \/ space c)).
  { intros c r E. destruct u; cbn in E; try (injection E as <- _; tauto). destruct S; [discriminate E|]. injection E as <- _. tauto. }
  destruct (unit_text u ++ sp) as [|c r]; [exact I|]. specialize (C c r eq_refl). unfold space in C. cbn. unfold digit. lia.
Qed.

Lemma dim_complete p1 u1 w u t : length_text w u t -> exists x, attr_dim strtod p1 u1 t = Some x /\ (x == val w * unit_px p1 u1 u)%Q.
Proof.
  destruct 1 as [sp w u sp' S N S']. unfold attr_dim, s_dim.
  rewrite (double_sep Q strtod).
  rewrite (double_ok Q strtod val ST false sp w (unit_text u ++ sp')); [|now left|assumption|now apply unit_ends].
  destruct (unit_ok p1 u1 u sp' S') as (x & E & X). rewrite E.
  rewrite (proj2 (end_iff sp') S'). eexists. split; [reflexivity|]. rewrite X. reflexivity.
Qed.

Lemma dim_sound p1 u1 t x : attr_dim strtod p1 u1 t = Some x -> exists w u, length_text w u t /\ (x == val w * unit_px p1 u1 u)%Q.
Proof.
  unfold attr_dim, s_dim. rewrite (double_sep Q strtod). destruct (s_double false t) as [[v r]|] eqn:E; [|discriminate].
  destruct (unit_dim p1 u1 r) as [y r'] eqn:U. destruct (at_end r') eqn:A; [|discriminate]. intros H. injection H as <-.
  apply end_iff in A. destruct (unit_inv _ _ _ _ _ U) as (u & -> & Y).
  assert (G : goodrest (unit_text u ++ r')).
  { destruct u; cbn; try lia. destruct A as [|c r' C A]; [exact I|]. cbn. unfold space in C. lia. }
  destruct (double_sound Q strtod val ST _ _ _ _ E G) as (sp & w & S & N & EN & -> & ->).
  exists w, u. split; [|rewrite Y; reflexivity]. constructor; [|assumption|assumption]. destruct S as [S|[S _]]; [assumption|discriminate].
Qed.

(** transformations *)
Lemma alpha_iff c : is_alpha c = true <-> alpha c.
Proof. unfold is_alpha, alpha. lia. Qed.

Lemma alphas_ok n t : Forall alpha n -> match t with [] => True | c :: _ => ~ alpha c end -> alphas (n ++ t) = (n, t).
Proof.
  intros F H. induction F as [|c n C F IH]; cbn.
  - destruct t as [|c t]; [reflexivity|]. cbn. destruct (is_alpha c) eqn:E; [apply alpha_iff in E; contradiction|reflexivity].
  - apply alpha_iff in C. rewrite C, IH. reflexivity.
Qed.

(** a bracket is no number *)
Lemma no_number b sp t : sep b sp -> s_double b (sp ++ 41 :: t) = None.
Proof.
  intros S. unfold Svgpath_model.s_double. rewrite sep_ok; [reflexivity|assumption|unfold space; lia|lia].
Qed.

Lemma more_ok vs t sp r : forall k, (length vs <= k)%nat -> nums Q val false true vs t (sp ++ 41 :: r) ->
  sep (Nat.ltb (length vs) k) sp -> exists u, more strtod k t = (vs, u) /\ expect [41] u = Some r.
Proof.
  revert t. induction vs as [|v vs IH]; intros t k L N S.
  - inversion N; subst. destruct k as [|k].
    + exists (sp ++ 41 :: r). split; [reflexivity|]. unfold expect. cbn in S. rewrite sep_ok; [reflexivity|assumption|unfold space; lia|lia].
    + cbn in S. exists (41 :: r). cbn [more]. rewrite no_number by assumption.
      rewrite sep_ok by (assumption || unfold space; lia). split; reflexivity.
  - destruct k as [|k]; [cbn in L; lia|]. inversion N as [|c vs' sp' w t' r' S' NW EW N']; subst.
    cbn [more]. rewrite (double_ok Q strtod val ST) by assumption.
    destruct (IH t' k) as (u & E & X); [cbn in L; lia|exact N'|exact S|]. rewrite E. exists u. split; [reflexivity|exact X].
Qed.

Lemma xform_ok n vs sp1 t sp r : Forall alpha n -> spaces sp1 -> vs <> [] -> (length vs <= 8)%nat ->
  nums Q val false false vs t (sp ++ 41 :: r) -> sep (Nat.ltb (length vs) 8) sp ->
  xform_text strtod (n ++ sp1 ++ 40 :: t) = Some ((n, vs), r).
Proof.
  intros A S1 NE L N S. unfold xform_text.
  rewrite alphas_ok; [|assumption|].
  2:{ destruct S1 as [|c sp1 C S1]; cbn; unfold alpha, space in *; lia. }
  unfold expect at 1. rewrite sep_spaces by assumption. rewrite sep_stop_false by (unfold space; lia). cbn [expect_raw]. rewrite Z.eqb_refl.
  destruct vs as [|v vs]; [congruence|]. inversion N as [|c vs' sp' w t' r' S' NW EW N']; subst.
  rewrite (double_ok Q strtod val ST) by assumption.
  destruct (more_ok vs t' sp r 7) as (u & E & X); [cbn in L; lia|exact N'|exact S|]. rewrite E, X. reflexivity.
Qed.

Lemma sep_alpha b sp c r : sep b sp -> alpha c -> s_sep b (sp ++ c :: r) = c :: r.
Proof. intros S C. apply sep_ok; [assumption|unfold alpha, space in *; lia|unfold alpha in C; lia]. Qed.

Lemma nums_len s b vs t r : nums Q val s b vs t r -> (length r <= length t)%nat.
Proof. apply nums_shrink. Qed.

Lemma loop_complete cs t : transforms val cs t -> forall fuel, (length t < fuel)%nat ->
  transform_loop strtod fuel t = Some (cs, true).
Proof.
  induction 1 as [|n vs sp1 t sp sp2 cs r NE A S1 VN L N S S2 T IH]; intros fuel F; (destruct fuel as [|fuel]; [lia|]).
  - reflexivity.
  - assert (X := xform_ok n vs sp1 t sp (sp2 ++ r) A S1 VN L N S).
    assert (SR : s_sep true (sp2 ++ r) = r).
    { destruct T as [|n' vs' sp1' t' sp' sp2' cs' r' NE' A'].
      - rewrite app_nil_r. now apply sep_all.
      - destruct n' as [|c n']; [congruence|]. inversion A'; subst. cbn. apply sep_alpha; assumption. }
    pose proof (nums_len _ _ _ _ _ N) as LN. rewrite !app_length in LN. cbn in LN. rewrite app_length in LN.
    rewrite !app_length in F. cbn in F.
    cbn [transform_loop]. destruct (n ++ sp1 ++ 40 :: t) as [|c0 t0] eqn:E0; [destruct n; [congruence|discriminate E0]|].
    rewrite X, SR, IH by lia. reflexivity.
Qed.

Lemma transform_complete sp cs t : spaces sp -> transforms val cs t -> transform_text strtod (sp ++ t) = Some (cs, true).
Proof.
  intros S T. unfold transform_text.
  assert (E : s_sep false (sp ++ t) = t).
  { rewrite sep_spaces by assumption. destruct T as [|n' vs' sp1' t' sp' sp2' cs' r' NE' A']; [reflexivity|].
    destruct n' as [|c n']; [congruence|]. inversion A'; subst. cbn. apply (sep_alpha false []); [left; constructor|assumption]. }
  rewrite E. apply loop_complete; [assumption|]. rewrite app_length. lia.
Qed.

(** nothing else is read *)
Lemma sep_more b sp a : sep b sp -> spaces a -> sep b (sp ++ a).
Proof.
  intros [S|(-> & x & y & X & Y & ->)] A.
  - left. now apply Forall_app.
  - right. split; [reflexivity|]. exists x, (y ++ a). split; [assumption|]. split; [now apply Forall_app|].
    now rewrite <- app_assoc.
Qed.

Lemma good_bracket b sp r : sep b sp -> goodrest (sp ++ 41 :: r).
Proof.
  intros [S|(_ & x & y & X & _ & ->)].
  - destruct S as [|c sp C S]; cbn; [lia|]. unfold space in C. lia.
  - rewrite <- app_assoc. destruct X as [|c x C X]; cbn; [lia|]. unfold space in C. lia.
Qed.

Lemma expect1_inv c u r : expect [c] u = Some r -> exists a, spaces a /\ u = a ++ c :: r.
Proof.
  unfold expect. intros H. apply expect_inv in H. destruct (sep_false_inv u) as (a & A & E & _). exists a.
  split; [assumption|]. rewrite H in E. exact E.
Qed.

Lemma more_sound k : forall t vs u r, more strtod k t = (vs, u) -> expect [41] u = Some r ->
  goodrest t /\ (length vs <= k)%nat /\ exists sp, nums Q val false true vs t (sp ++ 41 :: r) /\ sep (Nat.ltb (length vs) k) sp.
Proof.
  induction k as [|k IH]; intros t vs u r H X; destruct (expect1_inv _ _ _ X) as (a & A & EU).
  - injection H as <- <-. assert (S : sep false a) by now left. subst t. split; [exact (good_bracket _ _ _ S)|].
    split; [reflexivity|]. exists a. split; [constructor|exact S].
  - cbn [more] in H. destruct (s_double true t) as [[v t']|] eqn:E.
    + destruct (more strtod k t') as [vs' u'] eqn:M. injection H as <- <-.
      destruct (IH _ _ _ _ M X) as (G & L & sp & N & S).
      split; [exact (double_good Q strtod _ _ _ _ E)|]. split; [cbn; lia|]. exists sp. split; [|exact S].
      destruct (double_sound Q strtod val ST _ _ _ _ E G) as (sp' & w & S' & NW & EW & -> & ->). now constructor.
    + injection H as <- <-. destruct (sep_inv true t) as (b & B & ET). rewrite EU, app_assoc in ET.
      assert (S := sep_more true b a B A). rewrite ET. split; [exact (good_bracket _ _ _ S)|].
      split; [cbn; lia|]. exists (b ++ a). split; [constructor|exact S].
Qed.

Lemma alphas_inv t : forall n r, alphas t = (n, r) -> t = n ++ r /\ Forall alpha n.
Proof.
  induction t as [|c t IH]; intros n r; cbn.
  - intros H. injection H as <- <-. split; [reflexivity|constructor].
  - destruct (is_alpha c) eqn:C.
    + destruct (alphas t) as [a r'] eqn:E. intros H. injection H as <- <-. destruct (IH _ _ eq_refl) as [-> F].
      split; [reflexivity|]. constructor; [now apply alpha_iff|assumption].
    + intros H. injection H as <- <-. split; [reflexivity|constructor].
Qed.

Lemma xform_sound t n vs r : xform_text strtod t = Some ((n, vs), r) ->
  exists sp1 t2 sp, t = n ++ sp1 ++ 40 :: t2 /\ Forall alpha n /\ spaces sp1 /\ vs <> [] /\ (length vs <= 8)%nat /\
    nums Q val false false vs t2 (sp ++ 41 :: r) /\ sep (Nat.ltb (length vs) 8) sp.
Proof.
  unfold xform_text. destruct (alphas t) as [n' t1] eqn:EA. destruct (expect [40] t1) as [t2|] eqn:E1; [|discriminate].
  destruct (s_double false t2) as [[v t3]|] eqn:D; [|discriminate]. destruct (more strtod 7 t3) as [vs' t4] eqn:M.
  destruct (expect [41] t4) as [t5|] eqn:E2; [|discriminate]. intros H. injection H as <- <- <-.
  destruct (alphas_inv _ _ _ EA) as [-> F]. destruct (expect1_inv _ _ _ E1) as (sp1 & S1 & ->).
  destruct (more_sound _ _ _ _ _ M E2) as (G & L & sp & N & S).
  destruct (double_sound Q strtod val ST _ _ _ _ D G) as (sp' & w & S' & NW & EW & -> & ->).
  exists sp1, (sp' ++ w ++ t3), sp. repeat split; auto; [discriminate|cbn; lia|now constructor].
Qed.

Lemma loop_sound fuel : forall t cs, transform_loop strtod fuel t = Some (cs, true) -> Forall (fun c => fst c <> []) cs ->
  transforms val cs t.
Proof.
  induction fuel as [|fuel IH]; intros t cs; cbn [transform_loop]; [discriminate|].
  destruct t as [|c0 t0].
  - intros H _. injection H as <-. constructor.
  - destruct (xform_text strtod (c0 :: t0)) as [[[n vs] r]|] eqn:X; [|discriminate].
    destruct (transform_loop strtod fuel (s_sep true r)) as [[cs' ok]|] eqn:R; [|discriminate].
    intros H F. injection H as <- ->. apply Forall_cons_iff in F as [F1 F2].
    destruct (xform_sound _ _ _ _ X) as (sp1 & t2 & sp & -> & A & S1 & VN & L & N & S).
    destruct (sep_inv true r) as (sp2 & S2 & ER). rewrite ER in N.
    exact (tr_cons val n vs sp1 t2 sp sp2 cs' (s_sep true r) F1 A S1 VN L N S S2 (IH _ _ R F2)).
Qed.

Lemma transform_sound t cs : transform_text strtod t = Some (cs, true) -> Forall (fun c => fst c <> []) cs ->
  exists sp u, t = sp ++ u /\ spaces sp /\ transforms val cs u.
Proof.
  intros H F. destruct (sep_false_inv t) as (a & A & E & _). exists a, (s_sep false t).
  split; [assumption|]. split; [assumption|]. exact (loop_sound _ _ _ H F).
Qed.

Lemma transforms_named cs t : transforms val cs t -> Forall (fun c => fst c <> []) cs.
Proof. induction 1; constructor; assumption. Qed.
End S.

(** reading ends *)
Section F.
Variable strtod : text -> Q * nat.
Lemma alphas_length t : (length (snd (alphas t)) <= length t)%nat.
Proof.
  induction t as [|c t IH]; cbn; [lia|]. destruct (is_alpha c); [|cbn; lia]. destruct (alphas t). cbn in *. lia.
Qed.
Lemma expect_length w t r : expect w t = Some r -> (length r <= length t)%nat.
Proof.
  unfold expect. intros H. apply expect_inv in H. pose proof (sep_length false t). rewrite H, app_length in H0. lia.
Qed.
Lemma more_length k t : (length (snd (more strtod k t)) <= length t)%nat.
Proof.
  revert t. induction k as [|k IH]; intros t; cbn; [lia|]. destruct (Svgpath_model.s_double Q strtod true t) as [[v t']|] eqn:E.
  - apply double_length in E. specialize (IH t'). destruct (more strtod k t'). cbn in *. lia.
  - cbn. apply sep_length.
Qed.
Lemma xform_length t c r : xform_text strtod t = Some (c, r) -> (length r < length t)%nat.
Proof.
  unfold xform_text. pose proof (alphas_length t) as A. destruct (alphas t) as [n t1]. cbn in A.
  destruct (expect [40] t1) as [t2|] eqn:E; [|discriminate]. apply expect_length in E.
  destruct (Svgpath_model.s_double Q strtod false t2) as [[v t3]|] eqn:D; [|discriminate]. apply double_length in D.
  pose proof (more_length 7 t3) as M. destruct (more strtod 7 t3) as [vs t4]. cbn [snd] in M.
  destruct (expect [41] t4) as [t5|] eqn:E2; [|discriminate]. apply expect_length in E2. intros H. injection H as <- <-. lia.
Qed.
Lemma loop_fuel2 fuel : forall t, (length t < fuel)%nat -> transform_loop strtod fuel t <> None.
Proof.
  induction fuel as [|fuel IH]; intros t L; [lia|]. cbn [transform_loop]. destruct t as [|c t]; [discriminate|].
  destruct (xform_text strtod (c :: t)) as [[x r]|] eqn:E; [|discriminate]. apply xform_length in E.
  pose proof (sep_length true r). specialize (IH (s_sep true r) ltac:(lia)).
  destruct (transform_loop strtod fuel (s_sep true r)) as [[cs ok]|]; [discriminate|congruence].
Qed.

(** reading and applying in one loop, or one after the other *)
Lemma apply_ok (tand sind cosd : Q -> Q) fuel : forall t m cs ok, transform_loop strtod fuel t = Some (cs, ok) ->
  apply_loop strtod tand sind cosd fuel t m =
  Some (fst (xform_list tand sind cosd cs m), snd (xform_list tand sind cosd cs m) && ok).
Proof.
  induction fuel as [|fuel IH]; intros t m cs ok; cbn [transform_loop apply_loop]; [discriminate|].
  destruct t as [|c0 t0]; [intros H; injection H as <- <-; reflexivity|].
  destruct (xform_text strtod (c0 :: t0)) as [[c r]|]; [|intros H; injection H as <- <-; reflexivity].
  destruct (transform_loop strtod fuel (s_sep true r)) as [[cs' ok']|] eqn:R; [|discriminate].
  intros H. injection H as <- <-. cbn [xform_list]. destruct (xform_cmd tand sind cosd c) as [ms|]; [|reflexivity].
  exact (IH _ _ _ _ R).
Qed.
End F.
