(** C35: what the scanner reads, for the machine that copies texts *)
From Coq Require Import ZArith Bool List Lia Arith ZifyBool.
From Verif Require Import Syn_model Syn_spec.
Import ListNotations.
Local Open Scope Z_scope.

Notation cskip := (skip copy (list Z) copying).
Notation ccur := (cur copying).
Definition adv (a r : list Z) (c : copy) : copy := mk_copy r (match a with [] => c_dirty c | _ => false end) (rev a ++ c_acc c) (c_txt c).
Lemma span_ex (f : Z -> bool) l : f 0 = false -> exists a r, l = a ++ r /\ Forall (fun c => f c = true) a /\ f (hd 0 r) = false.
Proof.
  intros F0. induction l as [|c l (a & r & -> & A & H)]; [exists [], []; auto|]. destruct (f c) eqn:E; [exists (c :: a), r; auto|exists [], (c :: a ++ r); auto].
Qed.
Lemma skip_eq f a : forall r c fuel, c_rest c = a ++ r -> Forall (fun c => f c = true) a -> f (hd 0 r) = false -> (length a < fuel)%nat -> cskip f fuel c = Ok (adv a r c).
Proof.
  induction a as [|x a IH]; intros r c fuel E A H L; (destruct fuel as [|fuel]; [cbn in L; lia|]); cbn [skip].
  - cbn [cur copying]. rewrite E. cbn [app]. rewrite H. destruct c; cbn in *; subst; reflexivity.
  - inversion A; subst. cbn [cur copying step bind]. rewrite E. cbn [app hd]. match goal with H : f x = true |- _ => rewrite H end.
    unfold c_step. rewrite E. cbn [app]. rewrite (IH r); cbn; auto; [|cbn in L; lia]. unfold adv. cbn. rewrite <- app_assoc. now destruct a.
Qed.
Lemma step_eq x r c : c_rest c = x :: r -> c_step c = adv [x] r c.
Proof. intros E. unfold c_step. now rewrite E. Qed.
Lemma adv_adv a b q r c : adv b r (adv a q c) = adv (a ++ b) r c.
Proof. unfold adv. cbn. rewrite rev_app_distr, app_assoc. destruct a, b; cbn; auto. Qed.
Lemma adv_nil c : adv [] (c_rest c) c = c.
Proof. now destruct c. Qed.
Definition st (r : list Z) (d : bool) (t : list Z) (c : copy) : Prop := c_rest c = r /\ c_dirty c = d /\ c_txt c = t.

Definition isdig (l : list Z) : Prop := Forall (fun c => is_digit c = true) l.
Lemma digs_isdig l : digs l <-> isdig l.
Proof. unfold digs, isdig. split; intros H; (eapply Forall_impl; [|exact H]); cbn; unfold dig, is_digit; lia. Qed.
(** Optional parts *)
Definition ffrac (f : list Z) : Prop := f = [] \/ exists d, f = 46 :: d /\ isdig d.
Definition fexpo (x : list Z) : Prop := x = [] \/ exists c s d, x = c :: s ++ d /\ (c = 101 \/ c = 69) /\ (s = [] \/ s = [45] \/ s = [43]) /\ isdig d.
(** what cannot follow *)
Definition stop (c : Z) : Prop := num_start c = false /\ id_start c = false.
Lemma apart_stop r : apart r <-> stop (hd 0 r).
Proof.
  unfold apart, stop, num_start, id_start, is_digit, is_alpha, dig, letter. destruct r as [|c r]; [cbn; tauto|]. cbn [hd In]. split.
  - intros H. split; lia.
  - intros (A & B). lia.
Qed.
Lemma dig_hd f r : ffrac f -> is_digit (hd 0 r) = false -> is_digit (hd 0 (f ++ r)) = false.
Proof. intros [->|(d & -> & _)]; cbn; auto. Qed.
Lemma dig_hd_x x r : fexpo x -> is_digit (hd 0 r) = false -> is_digit (hd 0 (x ++ r)) = false.
Proof. intros [->|(c & s & d & -> & [-> | ->] & _)]; cbn; auto. Qed.

(** the part of scan_number behind the sign *)
Definition rest_number (fuel : nat) (s : copy) : res (Z * copy) :=
  do s <- cskip is_digit fuel s;
  do (t, s) <- (if ccur s =? 46 then do s <- step copying s; do s <- cskip is_digit fuel s; Ok (T_FLOAT, s) else Ok (T_INT, s));
  do (t, s) <- (if (ccur s =? 101) || (ccur s =? 69) then
    do s <- step copying s;
    do s <- (if (ccur s =? 45) || (ccur s =? 43) then step copying s else Ok s);
    do s <- cskip is_digit fuel s; Ok (T_FLOAT, s) else Ok (t, s));
  do s <- cut copying s; Ok (t, s).
Lemma rest_number_eq fuel c d f x r : c_rest c = d ++ f ++ x ++ r -> isdig d -> ffrac f -> fexpo x ->
  is_digit (hd 0 r) = false -> (f = [] -> hd 0 (x ++ r) <> 46) -> (x = [] -> hd 0 r <> 101 /\ hd 0 r <> 69) -> (forall k, x = [k] -> hd 0 r <> 45 /\ hd 0 r <> 43) -> (length (c_rest c) < fuel)%nat ->
  exists acc, rest_number fuel c = Ok ((if negb (equ (f ++ x) []) then T_FLOAT else T_INT), mk_copy r true acc (rev (c_acc c) ++ d ++ f ++ x)).
Proof.
  intros E D Hf Hx Dr Nf Nx Nk L. unfold rest_number. rewrite E, !app_length in L.
  rewrite (skip_eq _ d (f ++ x ++ r)); auto; [|apply dig_hd; auto; apply dig_hd_x; auto|lia]. cbn [bind].
  assert (A : (if ccur (adv d (f ++ x ++ r) c) =? 46 then do s <- step copying (adv d (f ++ x ++ r) c); do s <- cskip is_digit fuel s; Ok (T_FLOAT, s) else Ok (T_INT, adv d (f ++ x ++ r) c)) = Ok (match f with [] => T_INT | _ => T_FLOAT end, adv (d ++ f) (x ++ r) c)).
  { destruct Hf as [->|(d' & -> & D')].
    - cbn [cur copying adv c_rest app]. replace (hd 0 (x ++ r) =? 46) with false by (specialize (Nf eq_refl); lia). now rewrite app_nil_r.
    - cbn [cur copying adv c_rest app hd Z.eqb Pos.eqb step bind]. rewrite (step_eq 46 (d' ++ x ++ r)) by reflexivity. rewrite adv_adv, (skip_eq _ d' (x ++ r)); auto; [|apply dig_hd_x; auto|cbn in L; lia]. cbn [bind]. rewrite adv_adv, <- app_assoc. reflexivity. }
  rewrite A. cbn [bind]. clear A.
  assert (B : forall t, (if (ccur (adv (d ++ f) (x ++ r) c) =? 101) || (ccur (adv (d ++ f) (x ++ r) c) =? 69) then
    do s <- step copying (adv (d ++ f) (x ++ r) c); do s <- (if (ccur s =? 45) || (ccur s =? 43) then step copying s else Ok s); do s <- cskip is_digit fuel s; Ok (T_FLOAT, s) else Ok (t, adv (d ++ f) (x ++ r) c)) =
    Ok (match x with [] => t | _ => T_FLOAT end, adv (d ++ f ++ x) r c)).
  { intros t. destruct Hx as [->|(k & s & d' & -> & Hk & Hs & D')].
    - cbn [cur copying adv c_rest app]. specialize (Nx eq_refl). replace ((hd 0 r =? 101) || (hd 0 r =? 69)) with false by lia. now rewrite app_nil_r.
    - cbn [cur copying adv c_rest app hd]. replace ((k =? 101) || (k =? 69)) with true by lia. cbn [step copying bind]. rewrite (step_eq k ((s ++ d') ++ r)) by reflexivity. rewrite adv_adv. cbn [c_rest adv].
      assert (G : (if (hd 0 ((s ++ d') ++ r) =? 45) || (hd 0 ((s ++ d') ++ r) =? 43) then Ok (c_step (adv ((d ++ f) ++ [k]) ((s ++ d') ++ r) c)) else Ok (adv ((d ++ f) ++ [k]) ((s ++ d') ++ r) c)) = Ok (adv ((d ++ f) ++ [k] ++ s) (d' ++ r) c)).
      { destruct Hs as [->|[-> | ->]]; cbn [app hd].
        - replace (_ || _) with false; [reflexivity|]. symmetry. destruct d' as [|y d']; [cbn; specialize (Nk k eq_refl); lia|]. inversion D'; subst. cbn. unfold is_digit in *. lia.
        - cbn [Z.eqb Pos.eqb orb]. rewrite (step_eq 45 (d' ++ r)) by reflexivity. rewrite adv_adv, <- app_assoc. reflexivity.
        - cbn [Z.eqb Pos.eqb orb]. rewrite (step_eq 43 (d' ++ r)) by reflexivity. rewrite adv_adv, <- app_assoc. reflexivity. }
      cbn [adv] in G. unfold adv in G |- *. cbn [c_rest] in G |- *. rewrite G. cbn [bind]. fold (adv ((d ++ f) ++ [k] ++ s) (d' ++ r) c). rewrite (skip_eq _ d' r); auto; [|cbn in L; rewrite app_length in L; lia]. cbn [bind]. rewrite adv_adv. replace (((d ++ f) ++ [k] ++ s) ++ d') with (d ++ f ++ k :: s ++ d') by (rewrite <- !app_assoc; reflexivity). reflexivity. }
  rewrite B. cbn [bind cut copying adv c_rest c_acc]. eexists. f_equal. f_equal.
  - unfold equ. destruct f, x; cbn; reflexivity.
  - f_equal. rewrite rev_app_distr, rev_involutive. reflexivity.
Qed.
Notation cnumber := (scan_number copy (list Z) copying).
Lemma number_plain fuel c d f x r : c_rest c = d ++ f ++ x ++ r -> isdig d -> ffrac f -> fexpo x -> d ++ f <> [] -> c_dirty c = false -> c_acc c = [] ->
  is_digit (hd 0 r) = false -> (f = [] -> hd 0 (x ++ r) <> 46) -> (x = [] -> hd 0 r <> 101 /\ hd 0 r <> 69) -> (forall k, x = [k] -> hd 0 r <> 45 /\ hd 0 r <> 43) -> (length (c_rest c) < fuel)%nat ->
  exists acc, cnumber fuel c = Ok ((if negb (equ (f ++ x) []) then T_FLOAT else T_INT), mk_copy r true acc (d ++ f ++ x)).
Proof.
  intros E D Hf Hx N Di Ac Dr Nf Nx Nk L. destruct (rest_number_eq fuel c d f x r E D Hf Hx Dr Nf Nx Nk L) as (acc & Q). rewrite Ac in Q. cbn [rev app] in Q. exists acc. rewrite <- Q.
  assert (K : exists y l, c_rest c = y :: l /\ (is_digit y = true \/ y = 46)). { rewrite E. destruct d as [|y d]; [|inversion D; subst; cbn; eauto]. destruct Hf as [->|(d' & -> & _)]; [now elim N|cbn; eauto]. }
  destruct K as (y & l & K & Y). unfold scan_number. cbn [here copying bind]. unfold c_here. rewrite Di, K. cbn [hd cur copying]. rewrite K. cbn [hd]. unfold is_digit in Y. replace (y =? 0) with false by lia. replace (y =? 43) with false by lia. replace (y =? 45) with false by lia. reflexivity.
Qed.
Lemma number_minus fuel c d f x r : c_rest c = 45 :: d ++ f ++ x ++ r -> isdig d -> ffrac f -> fexpo x -> c_dirty c = false -> c_acc c = [] ->
  is_digit (hd 0 r) = false -> (f = [] -> hd 0 (x ++ r) <> 46) -> (x = [] -> hd 0 r <> 101 /\ hd 0 r <> 69) -> (forall k, x = [k] -> hd 0 r <> 45 /\ hd 0 r <> 43) -> (length (c_rest c) < fuel)%nat ->
  exists acc, cnumber fuel c = Ok ((if negb (equ (f ++ x) []) then T_FLOAT else T_INT), mk_copy r true acc (45 :: d ++ f ++ x)).
Proof.
  intros E D Hf Hx Di Ac Dr Nf Nx Nk L. rewrite E in L. cbn in L. destruct (rest_number_eq fuel (adv [45] (d ++ f ++ x ++ r) c) d f x r eq_refl D Hf Hx Dr Nf Nx Nk ltac:(cbn; lia)) as (acc & Q). cbn [adv c_acc] in Q. rewrite Ac in Q. cbn [rev app] in Q. exists acc. rewrite <- Q.
  unfold scan_number. cbn [here copying bind]. unfold c_here. rewrite Di, E. cbn [hd cur copying]. rewrite E. cbn [hd Z.eqb Pos.eqb step copying bind]. rewrite (step_eq _ _ _ E). reflexivity.
Qed.
Lemma number_plus fuel c d f x r : c_rest c = 43 :: d ++ f ++ x ++ r -> isdig d -> ffrac f -> fexpo x -> c_dirty c = false -> c_acc c = [] ->
  is_digit (hd 0 r) = false -> (f = [] -> hd 0 (x ++ r) <> 46) -> (x = [] -> hd 0 r <> 101 /\ hd 0 r <> 69) -> (forall k, x = [k] -> hd 0 r <> 45 /\ hd 0 r <> 43) -> (length (c_rest c) < fuel)%nat ->
  exists acc, cnumber fuel c = Ok ((if negb (equ (f ++ x) []) then T_FLOAT else T_INT), mk_copy r true acc (d ++ f ++ x)).
Proof.
  intros E D Hf Hx Di Ac Dr Nf Nx Nk L. rewrite E in L. cbn in L. destruct (rest_number_eq fuel (mk_copy (d ++ f ++ x ++ r) false [] (c_txt c)) d f x r eq_refl D Hf Hx Dr Nf Nx Nk ltac:(cbn; lia)) as (acc & Q). cbn [rev app c_acc] in Q. exists acc. rewrite <- Q.
  unfold scan_number. cbn [here copying bind]. unfold c_here. rewrite Di, E. cbn [hd cur copying]. rewrite E. cbn [hd Z.eqb Pos.eqb step copying bind]. rewrite (step_eq _ _ _ E). reflexivity.
Qed.
Notation cid := (scan_id copy (list Z) copying).
Definition isid (l : list Z) : Prop := Forall (fun c => id_char c = true) l.
Lemma idcs l : Forall idc l <-> isid l.
Proof. unfold isid. split; intros H; (eapply Forall_impl; [|exact H]); cbn; unfold idc, letter, dig, id_char, is_alpha, is_digit; lia. Qed.
Lemma id_eq fuel c y l r : c_rest c = y :: l ++ r -> id_start y = true -> isid l -> id_char (hd 0 r) = false -> c_dirty c = false -> c_acc c = [] -> (length (c_rest c) < fuel)%nat ->
  exists acc, cid fuel c = Ok (T_ID, mk_copy r true acc (y :: l)).
Proof.
  intros E Y I N Di Ac L. rewrite E in L. cbn in L. rewrite app_length in L. unfold scan_id. cbn [here copying bind]. unfold c_here. rewrite Di, E. cbn [hd cur copying]. rewrite E. cbn [hd]. replace (y =? 0) with false by (unfold id_start, is_alpha in Y; lia). destruct (y =? 36) eqn:C.
  - cbn [step copying bind]. rewrite (step_eq _ _ _ E), (skip_eq _ l r); auto; [|lia]. cbn [bind cut copying]. rewrite adv_adv. eexists. do 3 f_equal. cbn. now rewrite Ac, app_nil_r, rev_app_distr, rev_involutive.
  - cbn [bind]. rewrite (skip_eq _ (y :: l) r); auto; [|constructor; auto; unfold id_start, id_char in *; lia|cbn; lia]. cbn [bind cut copying]. eexists. do 3 f_equal. cbn. now rewrite Ac, app_nil_r, rev_app_distr, rev_involutive.
Qed.
(** strings *)
Notation csloop := (scan_string_loop copy (list Z) copying).
Lemma string_loop_eq b : body b -> ~ In 0 b -> forall r c fuel, c_rest c = b ++ 34 :: r -> c_dirty c = false -> (length b < fuel)%nat -> csloop fuel c = Ok (true, adv b (34 :: r) c).
Proof.
  intros B. induction B as [|x b N1 N2 B IH|x b N1 B IH]; intros N0 r c fuel E D L; (destruct fuel as [|fuel]; [cbn in L; lia|]); cbn [scan_string_loop here copying bind]; unfold c_here; rewrite D, E; cbn [app hd].
  - cbn [Z.eqb Pos.eqb]. rewrite <- (adv_nil c) at 1. now rewrite E.
  - replace (x =? 34) with false by lia. replace (x =? 92) with false by lia. replace (x =? 0) with false by (destruct (x =? 0) eqn:?; auto; exfalso; apply N0; left; lia). cbn [step copying bind]. rewrite (step_eq x (b ++ 34 :: r)) by auto. rewrite (IH ltac:(intros I; apply N0; right; auto) r); auto; [|cbn in L; lia]. now rewrite adv_adv.
  - cbn [Z.eqb Pos.eqb step copying bind]. rewrite (step_eq 92 (x :: b ++ 34 :: r)) by auto. cbn [adv c_dirty c_rest hd]. replace (128 <=? x) with false by lia. replace (x =? 0) with false by (destruct (x =? 0) eqn:?; auto; exfalso; apply N0; right; left; lia). rewrite (step_eq x (b ++ 34 :: r)) by auto. fold (adv [92] (x :: b ++ 34 :: r) c). rewrite adv_adv. rewrite (IH ltac:(intros I; apply N0; right; right; auto) r); auto; [|cbn in L; lia]. now rewrite adv_adv.
Qed.
Lemma string_eq fuel c b r : c_rest c = 34 :: b ++ 34 :: r -> body b -> ~ In 0 b -> (length (c_rest c) < fuel)%nat -> exists acc, scan_string copy (list Z) copying fuel c = Ok (T_STRING, mk_copy r false acc b).
Proof.
  intros E B N L. rewrite E in L. cbn in L. rewrite app_length in L. unfold scan_string. cbn [step copying bind mark]. rewrite (step_eq _ _ _ E). rewrite (string_loop_eq b B N r); auto; [|lia]. cbn [bind negb cut copying step]. rewrite (step_eq 34 r) by reflexivity. eexists. do 3 f_equal. cbn. now rewrite app_nil_r, rev_involutive.
Qed.
(** what a string is, up to its end, or an error *)
Lemma string_split l : ~ In 0 l -> (exists b r, l = b ++ 34 :: r /\ body b) \/ (forall fuel c, c_rest c = l -> c_dirty c = false -> (length l < fuel)%nat -> exists c', csloop fuel c = Ok (false, c')).
Proof.
  remember (length l) as n eqn:En. revert l En. induction n as [n IH] using lt_wf_ind. intros l En N. destruct l as [|x l].
  { right. intros [|fuel] c E D L; [lia|]. cbn [scan_string_loop here copying bind]. unfold c_here. rewrite D, E. cbn. eauto. }
  cbn in En. assert (Nx : x <> 0) by (intros ->; apply N; now left). destruct (Z.eq_dec x 34) as [->|N34]; [left; exists [], l; split; [reflexivity|constructor]|]. destruct (Z.eq_dec x 92) as [->|N92].
  - destruct l as [|y l].
    { right. intros [|fuel] c E D L; [lia|]. cbn [scan_string_loop here copying bind]. unfold c_here. rewrite D, E. cbn [hd Z.eqb Pos.eqb step copying bind]. rewrite (step_eq _ _ _ E). cbn. eauto. }
    cbn in En. assert (Ny : y <> 0) by (intros ->; apply N; right; now left). destruct (Z_lt_le_dec y 128) as [Hy|Hy].
    + destruct (IH (length l) ltac:(lia) l eq_refl ltac:(intros I; apply N; right; right; auto)) as [(b & r & -> & B)|H]; [left; exists (92 :: y :: b), r; split; [reflexivity|now constructor]|].
      right. intros [|fuel] c E D L; [lia|]. cbn [scan_string_loop here copying bind]. unfold c_here. rewrite D, E. cbn [hd Z.eqb Pos.eqb step copying bind]. rewrite (step_eq _ _ _ E). cbn [adv c_dirty c_rest hd]. replace (128 <=? y) with false by lia. replace (y =? 0) with false by lia. rewrite (step_eq y l) by auto. apply H; auto. lia.
    + right. intros [|fuel] c E D L; [lia|]. cbn [scan_string_loop here copying bind]. unfold c_here. rewrite D, E. cbn [hd Z.eqb Pos.eqb step copying bind]. rewrite (step_eq _ _ _ E). cbn [adv c_dirty c_rest hd]. replace (128 <=? y) with true by lia. eauto.
  - destruct (IH (length l) ltac:(lia) l eq_refl ltac:(intros I; apply N; right; auto)) as [(b & r & -> & B)|H]; [left; exists (x :: b), r; split; [reflexivity|now constructor]|].
    right. intros [|fuel] c E D L; [lia|]. cbn [scan_string_loop here copying bind]. unfold c_here. rewrite D, E. cbn [hd]. replace (x =? 34) with false by lia. replace (x =? 92) with false by lia. replace (x =? 0) with false by lia. cbn [step copying bind]. rewrite (step_eq _ _ _ E). apply H; auto. lia.
Qed.
(** paths *)
Lemma path_loop_eq b : ~ In 62 b -> ~ In 0 b -> forall r c fuel, c_rest c = b ++ 62 :: r -> c_dirty c = false -> (length b < fuel)%nat -> path_loop copy (list Z) copying fuel c = Ok (true, adv b (62 :: r) c).
Proof.
  induction b as [|x b IH]; intros N62 N0 r c fuel E D L; (destruct fuel as [|fuel]; [cbn in L; lia|]); cbn [path_loop here copying bind]; unfold c_here; rewrite D, E; cbn [app hd].
  - cbn [Z.eqb Pos.eqb]. rewrite <- (adv_nil c) at 1. now rewrite E.
  - cbn in N62, N0. replace (x =? 62) with false by lia. replace (x =? 0) with false by lia. cbn [step copying bind]. rewrite (step_eq x (b ++ 62 :: r)) by auto. rewrite (IH ltac:(tauto) ltac:(tauto) r); auto; [|cbn in L; lia]. now rewrite adv_adv.
Qed.
Lemma path_loop_none l : ~ In 62 l -> ~ In 0 l -> forall c fuel, c_rest c = l -> c_dirty c = false -> (length l < fuel)%nat -> exists c', path_loop copy (list Z) copying fuel c = Ok (false, c').
Proof.
  induction l as [|x b IH]; intros N62 N0 c fuel E D L; (destruct fuel as [|fuel]; [cbn in L; lia|]); cbn [path_loop here copying bind]; unfold c_here; rewrite D, E; cbn [hd].
  - cbn. eauto.
  - cbn in N62, N0. replace (x =? 62) with false by lia. replace (x =? 0) with false by lia. cbn [step copying bind]. rewrite (step_eq x b) by auto. apply IH; try tauto; auto. cbn in L; lia.
Qed.
(** block comments: [p] is the character before *)
Definition no_end (p : Z) (b : list Z) : Prop := forall x y, p :: b ++ [42] <> x ++ 42 :: 47 :: y.
Notation ccloop := (scan_comment_loop copy (list Z) copying).
Lemma no_end_tl p x b : no_end p (x :: b) -> no_end x b.
Proof. intros H u v E. apply (H (p :: u) v). cbn. now rewrite <- E. Qed.
Lemma comment_loop_eq b : forall p r c fuel, no_end p b -> ~ In 0 b -> c_rest c = b ++ 42 :: 47 :: r -> (S (length b) < fuel)%nat -> ccloop fuel p c = Ok (T_BCOM, adv (b ++ [42]) (47 :: r) c).
Proof.
  induction b as [|x b IH]; intros p r c fuel N N0 E L; (destruct fuel as [|fuel]; [cbn in L; lia|]); cbn [scan_comment_loop cur copying]; rewrite E; cbn [app hd].
  - replace (negb (p =? 42) || negb (42 =? 47)) with true by (cbn; now rewrite orb_true_r). cbn [Z.eqb Pos.eqb step copying bind]. rewrite (step_eq 42 (47 :: r)) by auto. destruct fuel as [|fuel]; [lia|]. reflexivity.
  - assert (K : negb (p =? 42) || negb (x =? 47) = true). { destruct (p =? 42) eqn:A, (x =? 47) eqn:B; auto. exfalso. apply (N [] (b ++ [42])). cbn. f_equal; [lia|]. f_equal. lia. }
    rewrite K. replace (x =? 0) with false by (destruct (x =? 0) eqn:?; auto; exfalso; apply N0; left; lia). cbv zeta. cbn [step copying bind]. rewrite (step_eq x (b ++ 42 :: 47 :: r)) by auto. rewrite (IH x r); [|eapply no_end_tl; eauto|intros I; apply N0; now right|reflexivity|cbn in L; lia]. now rewrite adv_adv.
Qed.
Lemma comment_split l : ~ In 0 l -> forall p, (exists b r, l = b ++ 42 :: 47 :: r /\ no_end p b) \/ (p = 42 /\ hd 0 l = 47) \/ (forall fuel c, c_rest c = l -> (length l < fuel)%nat -> exists c', ccloop fuel p c = Ok (T_ERROR, c')).
Proof.
  induction l as [|x l IH]; intros N p.
  - right. right. intros [|fuel] c E L; [lia|]. cbn [scan_comment_loop cur copying]. rewrite E. cbn. rewrite orb_true_r. eauto.
  - destruct (Z.eq_dec p 42) as [->|Np]; [destruct (Z.eq_dec x 47) as [->|Nx]; [auto|]|].
    + destruct (IH ltac:(intros I; apply N; now right) x) as [(b & r & -> & B)|[(-> & H)|H]].
      * left. exists (x :: b), r. split; [reflexivity|]. intros [|u0 u] v Q; cbn in Q; inversion Q; subst; [congruence|]. eapply B; eauto.
      * left. destruct l as [|y l]; cbn in H; [lia|]. subst y. exists [], l. split; [reflexivity|]. intros [|u0 [|u1 u]] v Q; cbn in Q; inversion Q. destruct u; discriminate.
      * right. right. intros [|fuel] c E L; [lia|]. cbn [scan_comment_loop cur copying]. rewrite E. cbn [hd]. replace (negb (42 =? 42) || negb (x =? 47)) with true by (cbn; lia). destruct (x =? 0) eqn:Z0; [eauto|]. cbv zeta. cbn [step copying bind]. rewrite (step_eq _ _ _ E). apply H; [reflexivity|cbn in L; lia].
    + destruct (IH ltac:(intros I; apply N; now right) x) as [(b & r & -> & B)|[(-> & H)|H]].
      * left. exists (x :: b), r. split; [reflexivity|]. intros [|u0 u] v Q; cbn in Q; inversion Q; subst; [congruence|]. eapply B; eauto.
      * left. destruct l as [|y l]; cbn in H; [lia|]. subst y. exists [], l. split; [reflexivity|]. intros [|u0 [|u1 u]] v Q; cbn in Q; inversion Q. destruct u; discriminate.
      * right. right. intros [|fuel] c E L; [lia|]. cbn [scan_comment_loop cur copying]. rewrite E. cbn [hd]. replace (negb (p =? 42) || negb (x =? 47)) with true by lia. destruct (x =? 0) eqn:Z0; [eauto|]. cbv zeta. cbn [step copying bind]. rewrite (step_eq _ _ _ E). apply H; [reflexivity|cbn in L; lia].
Qed.
