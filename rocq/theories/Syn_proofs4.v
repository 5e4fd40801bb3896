(** C35: tokens that the scanner finds *)
From Coq Require Import ZArith Bool List Lia Arith ZifyBool.
From Verif Require Import Syn_model Syn_spec Syn_proofs3.
Import ListNotations.
Local Open Scope Z_scope.

Notation cscan := (scan copy (list Z) copying).
Notation cnext := (next copy (list Z) copying).
(** scan, behind spaces *)
Definition scan1 (fuel : nat) (s : copy) : res (Z * copy) :=
  if num_start (ccur s) then cnumber fuel s
  else if id_start (ccur s) then cid fuel s
  else if ccur s =? 34 then scan_string copy (list Z) copying fuel s
  else
    do a <- (if ccur s =? 47 then ahead copying s else Ok 0);
    if a =? 47 then do s <- cskip (fun c => negb (c =? 10) && negb (c =? 0)) fuel s; Ok (T_LCOM, s)
    else if a =? 42 then
      do s <- step copying s; do s <- step copying s; do (t, s) <- ccloop fuel 0 s; do s <- step copying s; Ok (t, s)
    else if 128 <=? ccur s then Ok (T_ERROR, s)
    else let t := ccur s in do s <- step copying s; Ok (t, s).
Lemma scan_space fuel t c x l : t <> T_ERROR -> c_rest c = x :: l -> is_space x = true -> (length (c_rest c) < fuel)%nat -> cscan fuel (t, c) = cscan fuel (t, adv [x] l c).
Proof.
  intros T E X L. rewrite E in L. cbn in L. unfold scan. replace (t =? T_ERROR) with false by lia. destruct (span_ex is_space l eq_refl) as (a & r & -> & A & H). rewrite app_length in L.
  rewrite (skip_eq _ (x :: a) r), (skip_eq _ a r); auto; try lia; [|cbn; lia]. cbn [bind]. rewrite adv_adv. reflexivity.
Qed.
Lemma scan_at fuel t c : t <> T_ERROR -> is_space (hd 0 (c_rest c)) = false -> (0 < fuel)%nat -> cscan fuel (t, c) = scan1 fuel (mk_copy (c_rest c) (c_dirty c) [] (c_txt c)).
Proof.
  intros T E L. unfold scan. replace (t =? T_ERROR) with false by lia. rewrite (skip_eq _ [] (c_rest c)) by auto. reflexivity.
Qed.
Lemma next_space fuel t c x l : t <> T_ERROR -> c_rest c = x :: l -> is_space x = true -> (S (length (c_rest c)) < fuel)%nat -> cnext fuel (t, c) = cnext fuel (t, adv [x] l c).
Proof. intros T E X L. destruct fuel as [|fuel]; [lia|]. cbn [next]. rewrite (scan_space _ _ _ _ _ T E X) by lia. reflexivity. Qed.
Lemma next_line fuel t c b r : t <> T_ERROR -> c_rest c = [47; 47] ++ b ++ r -> ~ In 10 b -> ~ In 0 b -> (r = [] \/ hd 0 r = 10) -> (S (length (c_rest c)) < S fuel)%nat ->
  exists acc, cnext (S fuel) (t, c) = cnext fuel (T_LCOM, mk_copy r false acc (c_txt c)).
Proof.
  intros T E N10 N0 Hr L. rewrite E in L. cbn [next]. cbn in L. rewrite app_length in L. rewrite scan_at; auto; [|rewrite E; reflexivity|lia]. unfold scan1. rewrite E. cbn [cur copying c_rest app hd ahead nth num_start id_start is_digit is_alpha Z.eqb Z.leb Z.compare Pos.eqb Pos.compare Pos.compare_cont andb orb bind].
  rewrite (skip_eq _ (47 :: 47 :: b) r); cbn [c_rest app length]; auto; try lia.
  - cbn [bind fst Z.eqb Pos.eqb T_LCOM orb adv]. eexists. reflexivity.
  - repeat constructor. rewrite Forall_forall. intros x I. destruct (x =? 10) eqn:A; [exfalso; apply N10; now replace 10 with x by lia|]. destruct (x =? 0) eqn:B; [exfalso; apply N0; now replace 0 with x by lia|]. reflexivity.
  - destruct Hr as [-> | ->]; reflexivity.
Qed.
Lemma next_block fuel t c b r : t <> T_ERROR -> c_rest c = [47; 42] ++ b ++ [42; 47] ++ r -> no_end 0 b -> ~ In 0 b -> (S (length (c_rest c)) < S fuel)%nat ->
  exists acc, cnext (S fuel) (t, c) = cnext fuel (T_BCOM, mk_copy r false acc (c_txt c)).
Proof.
  intros T E N N0 L. rewrite E in L. cbn [next]. cbn in L. rewrite app_length in L. cbn in L. rewrite scan_at; auto; [|rewrite E; reflexivity|lia]. unfold scan1. rewrite E. cbn [cur copying c_rest app hd ahead nth num_start id_start is_digit is_alpha Z.eqb Z.leb Z.compare Pos.eqb Pos.compare Pos.compare_cont andb orb bind step].
  rewrite (step_eq 47 (42 :: b ++ 42 :: 47 :: r) (mk_copy _ _ _ _)) by reflexivity. rewrite (step_eq 42 (b ++ 42 :: 47 :: r)) by reflexivity. rewrite (comment_loop_eq b 0 r); auto; [|lia]. cbn [bind]. rewrite (step_eq 47 r) by reflexivity. rewrite !adv_adv. cbn [fst Z.eqb Pos.eqb T_BCOM orb adv]. eexists. f_equal. f_equal. f_equal. now destruct (_ ++ _) eqn:Q; [destruct b; discriminate|].
Qed.
Lemma next_blank w : blank w -> ~ In 0 w -> forall t c fuel l, t <> T_ERROR -> c_rest c = w ++ l -> (S (length (c_rest c)) < fuel)%nat ->
  exists t' c' fuel', cnext fuel (t, c) = cnext fuel' (t', c') /\ t' <> T_ERROR /\ c_rest c' = l /\ (w = [] -> c' = c) /\ (w <> [] -> c_dirty c' = false) /\ (S (length l) < fuel')%nat.
Proof.
  induction 1 as [|x w X B IH|b w N B IH|b w N B IH]; intros N0 t c fuel l T E L.
  - exists t, c, fuel. cbn in E. rewrite <- E. repeat split; auto. congruence.
  - cbn [app] in E. rewrite E in L. cbn in L. rewrite (next_space fuel t c x (w ++ l)); auto; [|unfold is_space, spc in *; lia|rewrite E; cbn; lia]. destruct (IH ltac:(intros I; apply N0; now right) t (adv [x] (w ++ l) c) fuel l T eq_refl ltac:(cbn; lia)) as (t' & c' & f' & E1 & E2 & E3 & E4 & E5 & E6).
    exists t', c', f'. repeat split; auto; [discriminate|]. intros _. destruct w; [rewrite (E4 eq_refl); reflexivity|apply E5; discriminate].
  - rewrite <- !app_assoc in E. cbn [app] in E. rewrite E in L. cbn in L. rewrite !app_length in L. cbn in L. rewrite app_length in L. destruct fuel as [|fuel]; [lia|]. assert (Nb : ~ In 0 b) by (intros I; apply N0; cbn; rewrite !in_app_iff; auto).
    destruct (next_line fuel t c b (10 :: w ++ l)) as (acc & ->); auto; [rewrite E; cbn; rewrite !app_length; cbn; rewrite app_length; lia|].
    rewrite (next_space fuel _ _ 10 (w ++ l)); auto; [|discriminate|cbn; rewrite app_length; lia].
    destruct (IH ltac:(intros I; apply N0; cbn; rewrite !in_app_iff; cbn; tauto) T_LCOM (adv [10] (w ++ l) (mk_copy (10 :: w ++ l) false acc (c_txt c))) fuel l ltac:(discriminate) eq_refl ltac:(cbn; rewrite app_length; lia)) as (t' & c' & f' & E1 & E2 & E3 & E4 & E5 & E6).
    exists t', c', f'. repeat split; auto; [discriminate|]. intros _. destruct w; [rewrite (E4 eq_refl); reflexivity|apply E5; discriminate].
  - rewrite <- !app_assoc in E. cbn [app] in E. rewrite E in L. cbn in L. rewrite !app_length in L. cbn in L. rewrite app_length in L. destruct fuel as [|fuel]; [lia|]. assert (Nb : ~ In 0 b) by (intros I; apply N0; cbn; rewrite !in_app_iff; auto).
    destruct (next_block fuel t c b (w ++ l)) as (acc & ->); auto. { intros [|u0 u] v Q; cbn in Q; inversion Q; subst. eapply N; eauto. } { rewrite E; cbn; rewrite !app_length; cbn; rewrite app_length; lia. }
    destruct (IH ltac:(intros I; apply N0; cbn; rewrite !in_app_iff; cbn; tauto) T_BCOM (mk_copy (w ++ l) false acc (c_txt c)) fuel l ltac:(discriminate) eq_refl ltac:(cbn; rewrite app_length; lia)) as (t' & c' & f' & E1 & E2 & E3 & E4 & E5 & E6).
    exists t', c', f'. repeat split; auto; [discriminate|]. intros _. destruct w; [rewrite (E4 eq_refl); reflexivity|apply E5; discriminate].
Qed.

(** The token at the start of [l]: its type, and the state after it *)
Inductive shape1 (l : list Z) : Z -> copy -> Prop :=
  | s1_end c : l = [] -> c_rest c = [] -> shape1 l 0 c
  | s1_char x r c : l = x :: r -> 0 < x < 128 -> is_space x = false -> num_start x = false -> id_start x = false -> x <> 34 -> (x = 47 -> hd 0 r <> 47 /\ hd 0 r <> 42) -> c_rest c = r -> c_dirty c = false -> shape1 l x c
  | s1_id s r c : l = s ++ r -> ident s -> id_char (hd 0 r) = false -> c_rest c = r -> c_dirty c = true -> c_txt c = s -> shape1 l T_ID c
  | s1_num s t (fl : bool) r c : l = s ++ r -> number s t fl -> c_rest c = r -> c_dirty c = true -> c_txt c = t -> shape1 l (if fl then T_FLOAT else T_INT) c
  | s1_str s r c : l = 34 :: s ++ 34 :: r -> body s -> c_rest c = r -> c_dirty c = false -> c_txt c = s -> shape1 l T_STRING c.

Lemma next_scan1 fuel t c : t <> T_ERROR -> is_space (hd 0 (c_rest c)) = false -> forall t' c', scan1 fuel (mk_copy (c_rest c) (c_dirty c) [] (c_txt c)) = Ok (t', c') -> t' <> T_LCOM -> t' <> T_BCOM -> (0 < fuel)%nat -> cnext (S fuel) (t, c) = Ok (t', c').
Proof. intros T E t' c' H A B L. cbn [next]. rewrite scan_at; auto. rewrite H. cbn [bind fst]. now replace ((t' =? T_LCOM) || (t' =? T_BCOM)) with false by lia. Qed.

Lemma ident_split s : ident s -> exists y l, s = y :: l /\ id_start y = true /\ isid l.
Proof.
  intros [r H|y r Y H]; [exists 36, r|exists y, r]; repeat split; auto; try (apply idcs; auto). unfold id_start, is_alpha, letter in *. lia.
Qed.
Lemma ident_make y l : id_start y = true -> isid l -> ident (y :: l).
Proof. intros Y H. apply idcs in H. destruct (Z.eq_dec y 36) as [->|N]; [now constructor|]. constructor; auto. unfold id_start, is_alpha, letter in *. lia. Qed.
Lemma frac_ff f : frac f <-> ffrac f.
Proof. unfold frac, ffrac. split; (intros [H|(d & H & D)]; [auto|right; exists d; split; auto; apply digs_isdig; auto]). Qed.
Lemma expo_fx x : expo x <-> fexpo x.
Proof. unfold expo, fexpo. split; (intros [H|(c & s & d & H & C & S & D)]; [auto|right; exists c, s, d; repeat split; auto; apply digs_isdig; auto]). Qed.
Lemma id_num y : id_start y = true -> num_start y = false /\ is_space y = false /\ y <> 0 /\ y <> 34.
Proof. unfold id_start, num_start, is_space, is_alpha, is_digit. lia. Qed.
Lemma num_nospace y : num_start y = true -> is_space y = false /\ y <> 0 /\ y <> 34.
Proof. unfold num_start, is_space, is_digit. lia. Qed.

(** Forward: tokens at the start *)
Lemma fwd_end fuel t c : t <> T_ERROR -> c_rest c = [] -> (0 < fuel)%nat -> exists c', cnext (S fuel) (t, c) = Ok (0, c') /\ c_rest c' = [].
Proof. intros T E L. eexists. split; [apply next_scan1; auto; try discriminate; rewrite E; [reflexivity|]; unfold scan1; cbn; reflexivity|]. cbn. auto. Qed.
Lemma fwd_char fuel t c x r : t <> T_ERROR -> c_rest c = x :: r -> 0 < x < 128 -> is_space x = false -> num_start x = false -> id_start x = false -> x <> 34 -> (x = 47 -> hd 0 r <> 47 /\ hd 0 r <> 42) -> (0 < fuel)%nat ->
  exists c', cnext (S fuel) (t, c) = Ok (x, c') /\ c_rest c' = r /\ c_dirty c' = false.
Proof.
  intros T E X S N I Q C L. exists (adv [x] r (mk_copy (c_rest c) (c_dirty c) [] (c_txt c))). split; [|split; reflexivity].
  apply next_scan1; auto; try (unfold T_LCOM, T_BCOM; lia); [now rewrite E|]. unfold scan1. cbn [cur copying c_rest]. rewrite E. cbn [hd]. rewrite N, I. replace (x =? 34) with false by lia.
  assert (A : exists a, (if x =? 47 then ahead copying (mk_copy (x :: r) (c_dirty c) [] (c_txt c)) else Ok 0) = Ok a /\ a <> 47 /\ a <> 42).
  { destruct (x =? 47) eqn:D; [|exists 0; repeat split; lia]. exists (hd 0 r). specialize (C ltac:(lia)). split; [|tauto]. cbn. now destruct r. }
  destruct A as (a & -> & A1 & A2). cbn [bind]. replace (a =? 47) with false by lia. replace (a =? 42) with false by lia. replace (128 <=? x) with false by lia. cbn [step copying bind]. now rewrite (step_eq x r) by reflexivity.
Qed.
Lemma fwd_id fuel t c s r : t <> T_ERROR -> c_rest c = s ++ r -> c_dirty c = false -> ident s -> id_char (hd 0 r) = false -> (length (c_rest c) < fuel)%nat ->
  exists c', cnext (S fuel) (t, c) = Ok (T_ID, c') /\ c_rest c' = r /\ c_dirty c' = true /\ c_txt c' = s.
Proof.
  intros T E D I N L. destruct (ident_split s I) as (y & l & -> & Y & Hl). destruct (id_num y Y) as (Y1 & Y2 & _). destruct (id_eq fuel (mk_copy (c_rest c) (c_dirty c) [] (c_txt c)) y l r) as (acc & Q); auto.
  exists (mk_copy r true acc (y :: l)). split; [|repeat split]. apply next_scan1; auto; try discriminate; [now rewrite E|unfold scan1; cbn [cur copying c_rest]; rewrite E; cbn [app hd]; rewrite Y1, Y; rewrite E in Q; exact Q|lia].
Qed.
Lemma num_scan fuel t c y l t' c' : t <> T_ERROR -> c_rest c = y :: l -> num_start y = true -> cnumber fuel (mk_copy (c_rest c) (c_dirty c) [] (c_txt c)) = Ok (t', c') -> t' <> T_LCOM -> t' <> T_BCOM -> (0 < fuel)%nat -> cnext (S fuel) (t, c) = Ok (t', c').
Proof.
  intros T E Y H A B L. destruct (num_nospace y Y) as (Y1 & _). apply next_scan1; auto; [now rewrite E|]. unfold scan1. cbn [cur copying c_rest]. rewrite E at 1. cbn [hd]. now rewrite Y.
Qed.
Lemma fwd_num fuel t c s tx fl r : t <> T_ERROR -> c_rest c = s ++ r -> c_dirty c = false -> number s tx fl -> stop (hd 0 r) -> (length (c_rest c) < fuel)%nat ->
  exists c', cnext (S fuel) (t, c) = Ok ((if fl then T_FLOAT else T_INT), c') /\ c_rest c' = r /\ c_dirty c' = true /\ c_txt c' = tx.
Proof.
  intros T E D N (S1 & S2) L.
  assert (K1 : is_digit (hd 0 r) = false) by (unfold num_start in S1; lia).
  assert (K2 : forall f x, ffrac f -> fexpo x -> f = [] -> hd 0 (x ++ r) <> 46). { intros f x _ Hx _. destruct Hx as [->|(k & sg & d & -> & [-> | ->] & _)]; cbn; try discriminate. unfold num_start in S1. lia. }
  assert (K3 : forall x : list Z, x = [] -> hd 0 r <> 101 /\ hd 0 r <> 69) by (intros _ _; unfold id_start, is_alpha in S2; lia).
  assert (K4 : forall x k, x = [k : Z] -> hd 0 r <> 45 /\ hd 0 r <> 43) by (intros _ _ _; unfold num_start in S1; lia).
  destruct N as [d f x A B C Ne|d f x A B C|d f x A B C]; apply digs_isdig in A; apply frac_ff in B; apply expo_fx in C.
  - destruct (number_plain fuel (mk_copy (c_rest c) (c_dirty c) [] (c_txt c)) d f x r) as (acc & Q); eauto; [cbn; rewrite E; now rewrite <- !app_assoc|].
    exists (mk_copy r true acc (d ++ f ++ x)). split; [|repeat split]. assert (Y : exists y l, c_rest c = y :: l /\ num_start y = true).
    { rewrite E. destruct d as [|y d]; [destruct B as [->|(d' & -> & _)]; [now elim Ne|cbn; eauto]|]. inversion A; subst. cbn. exists y, ((d ++ f ++ x) ++ r). split; auto. unfold num_start. rewrite H1. lia. }
    destruct Y as (y & l & Y1 & Y2). eapply num_scan; eauto; try (destruct (negb _); discriminate). lia.
  - destruct (number_minus fuel (mk_copy (c_rest c) (c_dirty c) [] (c_txt c)) d f x r) as (acc & Q); eauto; [cbn; rewrite E; cbn; now rewrite <- !app_assoc|].
    exists (mk_copy r true acc (45 :: d ++ f ++ x)). split; [|repeat split]. eapply (num_scan _ _ _ 45); eauto; try (destruct (negb _); discriminate). lia.
  - destruct (number_plus fuel (mk_copy (c_rest c) (c_dirty c) [] (c_txt c)) d f x r) as (acc & Q); eauto; [cbn; rewrite E; cbn; now rewrite <- !app_assoc|].
    exists (mk_copy r true acc (d ++ f ++ x)). split; [|repeat split]. eapply (num_scan _ _ _ 43); eauto; try (destruct (negb _); discriminate). lia.
Qed.
Lemma fwd_str fuel t c b r : t <> T_ERROR -> c_rest c = 34 :: b ++ 34 :: r -> body b -> ~ In 0 b -> (length (c_rest c) < fuel)%nat ->
  exists c', cnext (S fuel) (t, c) = Ok (T_STRING, c') /\ c_rest c' = r /\ c_dirty c' = false /\ c_txt c' = b.
Proof.
  intros T E B N L. destruct (string_eq fuel (mk_copy (c_rest c) (c_dirty c) [] (c_txt c)) b r) as (acc & Q); auto. exists (mk_copy r false acc b). split; [|repeat split]. apply next_scan1; auto; try discriminate; [now rewrite E|unfold scan1; cbn [cur copying c_rest]; rewrite E; cbn [hd num_start id_start is_digit is_alpha Z.eqb Z.leb Z.compare Pos.eqb Pos.compare Pos.compare_cont andb orb]; rewrite E in Q; exact Q|lia].
Qed.

(** Backward: whatever is there, it is a token or an error *)
Inductive shape (l : list Z) (t : Z) (c : copy) : Prop :=
  | sh_blank w r : blank w -> l = w ++ r -> shape1 r t c -> shape l t c
  | sh_line w b : blank w -> ~ In 10 b -> l = w ++ [47; 47] ++ b -> t = 0 -> c_rest c = [] -> shape l t c.
Lemma blank_app a b : blank a -> blank b -> blank (a ++ b).
Proof.
  intros A B. induction A as [|x w X A IH|u w N A IH|u w N A IH]; cbn [app]; auto; [now constructor| |].
  - rewrite <- app_assoc. cbn. now apply (bk_line u (w ++ b)).
  - rewrite <- app_assoc. cbn. now apply (bk_block u (w ++ b)).
Qed.
Lemma shape_blank w l t c : blank w -> shape l t c -> shape (w ++ l) t c.
Proof.
  intros B [v r V -> H|v b V N -> H1 H2].
  - apply (sh_blank _ _ _ (w ++ v) r); auto using blank_app. now rewrite app_assoc.
  - apply (sh_line _ _ _ (w ++ v) b); auto using blank_app. now rewrite app_assoc.
Qed.
Lemma number_ex l y : hd 0 l = y -> num_start y = true -> exists s t fl r, l = s ++ r /\ number s t fl /\
  forall fuel c, c_rest c = l -> c_dirty c = false -> c_acc c = [] -> (length l < fuel)%nat -> exists acc, cnumber fuel c = Ok ((if fl then T_FLOAT else T_INT), mk_copy r true acc t).
Proof.
  intros E Y.
  assert (K : forall l', exists d f x r, l' = d ++ f ++ x ++ r /\ isdig d /\ ffrac f /\ fexpo x /\ is_digit (hd 0 r) = false /\ (f = [] -> hd 0 (x ++ r) <> 46) /\ (x = [] -> hd 0 r <> 101 /\ hd 0 r <> 69) /\ (forall k, x = [k] -> hd 0 r <> 45 /\ hd 0 r <> 43) /\ (is_digit (hd 0 l') = true \/ hd 0 l' = 46 -> d ++ f <> [])).
  { intros l'. destruct (span_ex is_digit l' eq_refl) as (d & r1 & -> & D & H1).
    assert (Kf : exists f r2, r1 = f ++ r2 /\ ffrac f /\ is_digit (hd 0 r2) = false /\ (f = [] -> hd 0 r2 <> 46)).
    { destruct (Z.eq_dec (hd 0 r1) 46) as [Q|Q]; [|exists [], r1; repeat split; auto; now left]. destruct r1 as [|z r1]; [cbn in Q; lia|]. cbn in Q. subst z. destruct (span_ex is_digit r1 eq_refl) as (d' & r2 & -> & D' & H2). exists (46 :: d'), r2. repeat split; auto; [right; eauto|discriminate]. }
    destruct Kf as (f & r2 & -> & Hf & H2 & Nf).
    assert (Kx : exists x r, r2 = x ++ r /\ fexpo x /\ is_digit (hd 0 r) = false /\ (x = [] -> hd 0 r <> 101 /\ hd 0 r <> 69) /\ (forall k, x = [k] -> hd 0 r <> 45 /\ hd 0 r <> 43)).
    { destruct (orb (hd 0 r2 =? 101) (hd 0 r2 =? 69)) eqn:Q; [|exists [], r2; repeat split; auto; try discriminate; try lia; now left]. destruct r2 as [|z r2]; [cbn in Q; lia|]. cbn in Q.
      destruct (orb (hd 0 r2 =? 45) (hd 0 r2 =? 43)) eqn:Q2.
      - destruct r2 as [|u r2]; [cbn in Q2; lia|]. cbn in Q2. destruct (span_ex is_digit r2 eq_refl) as (d' & r3 & -> & D' & H3). exists (z :: [u] ++ d'), r3. split; [reflexivity|]. split; [right; exists z, [u], d'; repeat split; auto; [lia|]; right; destruct (Z.eq_dec u 45); [left; congruence|right; f_equal; lia]|]. split; [auto|]. split; discriminate.
      - destruct (span_ex is_digit r2 eq_refl) as (d' & r3 & -> & D' & H3). exists (z :: [] ++ d'), r3. split; [reflexivity|]. split; [right; exists z, [], d'; repeat split; auto; lia|]. split; [auto|]. split; [discriminate|]. intros k Hk. cbn in Hk. inversion Hk; subst. cbn in Q2. lia. }
    destruct Kx as (x & r & -> & Hx & H3 & Nx & Nk). exists d, f, x, r. repeat split; auto; try (apply Nx; auto); try (eapply Nk; eauto). intros [HH|HH] Q; destruct d; try discriminate; cbn in Q; subst f; cbn [app] in *; [congruence|]. now apply (Nf eq_refl). }
  destruct (Z.eq_dec y 45) as [->|N45]; [|destruct (Z.eq_dec y 43) as [->|N43]].
  - destruct l as [|z l]; cbn in E; [lia|]. subst z. destruct (K l) as (d & f & x & r & -> & D & Hf & Hx & A1 & A2 & A3 & A4 & _). exists (45 :: d ++ f ++ x), (45 :: d ++ f ++ x), (negb (equ (f ++ x) [])), r. split; [cbn; now rewrite <- !app_assoc|]. split; [constructor; [apply digs_isdig|apply frac_ff|apply expo_fx]; auto|]. intros fuel c E Di Ac L. apply number_minus; auto. now rewrite E.
  - destruct l as [|z l]; cbn in E; [lia|]. subst z. destruct (K l) as (d & f & x & r & -> & D & Hf & Hx & A1 & A2 & A3 & A4 & _). exists (43 :: d ++ f ++ x), (d ++ f ++ x), (negb (equ (f ++ x) [])), r. split; [cbn; now rewrite <- !app_assoc|]. split; [constructor; [apply digs_isdig|apply frac_ff|apply expo_fx]; auto|]. intros fuel c E Di Ac L. apply number_plus; auto. now rewrite E.
  - destruct (K l) as (d & f & x & r & El & D & Hf & Hx & A1 & A2 & A3 & A4 & A5). rewrite <- E in *. clear E. assert (Ne : d ++ f <> []) by (apply A5; unfold num_start in Y; lia). exists (d ++ f ++ x), (d ++ f ++ x), (negb (equ (f ++ x) [])), r. split; [rewrite El; now rewrite <- !app_assoc|]. split; [constructor; [apply digs_isdig|apply frac_ff|apply expo_fx|]; auto|]. intros fuel c E Di Ac L. apply number_plain; auto; congruence.
Qed.
Lemma dirty_number fuel c : c_dirty c = true -> cnumber fuel c = Ok (T_ERROR, c).
Proof. intros D. unfold scan_number. cbn [here copying bind]. unfold c_here. now rewrite D. Qed.
Lemma dirty_id fuel c : c_dirty c = true -> cid fuel c = Ok (T_ERROR, c).
Proof. intros D. unfold scan_id. cbn [here copying bind]. unfold c_here. now rewrite D. Qed.
Lemma next_cases n : forall l fuel t c, length l = n -> c_rest c = l -> t <> T_ERROR -> (forall x, In x l -> 0 < x) -> (S (length l) < fuel)%nat ->
  exists t' c', cnext fuel (t, c) = Ok (t', c') /\ (t' = T_ERROR \/ (shape l t' c' /\ (c_dirty c = true -> stop (hd 0 l)))).
Proof.
  induction n as [n IH] using lt_wf_ind. intros l fuel t c En E T P0 L. assert (N0 : ~ In 0 l) by (intros I; specialize (P0 _ I); lia). destruct fuel as [|fuel]; [lia|].
  destruct l as [|x l]. { destruct (fwd_end fuel t c T E ltac:(cbn in L; lia)) as (c' & Q & R). exists 0, c'. split; [auto|]. right. split; [apply (sh_blank _ _ _ [] []); [constructor|auto|now constructor]|]. intros _. split; reflexivity. }
  assert (Nx : 0 < x) by (apply P0; now left). assert (Pl : forall y, In y l -> 0 < y) by (intros y I; apply P0; now right). assert (Nl : ~ In 0 l) by (intros I; apply N0; now right). cbn [length] in *.
  destruct (is_space x) eqn:Sp.
  { rewrite (next_space (S fuel) t c x l); auto; [|rewrite E; cbn; lia]. destruct (IH (length l) ltac:(lia) l (S fuel) t (adv [x] l c) eq_refl eq_refl T Pl ltac:(lia)) as (t' & c' & Q & H). exists t', c'. split; [auto|]. destruct H as [H|(H & _)]; [auto|]. right. split; [apply (shape_blank [x] l); auto; constructor; [unfold spc, is_space in *; lia|constructor]|]. intros _. cbn [hd]. unfold stop, is_space, num_start, id_start, is_digit, is_alpha in *. lia. }
  destruct (num_start x) eqn:Nu.
  { destruct (c_dirty c) eqn:D. { exists T_ERROR. eexists. split; [eapply (num_scan fuel t c x l); eauto; try discriminate; [apply dirty_number; exact D|lia]|auto]. }
    destruct (number_ex (x :: l) x eq_refl Nu) as (s & tx & fl & r & El & Hn & Hf). destruct (Hf fuel (mk_copy (c_rest c) (c_dirty c) [] (c_txt c))) as (acc & Q); auto; [cbn; lia|].
    exists (if fl then T_FLOAT else T_INT), (mk_copy r true acc tx). split; [eapply (num_scan fuel t c x l); eauto; try (destruct fl; discriminate); try lia|]. right. split; [|discriminate]. apply (sh_blank _ _ _ [] (x :: l)); [constructor|auto|]. now apply (s1_num _ s tx fl r). }
  destruct (id_start x) eqn:Id.
  { destruct (c_dirty c) eqn:D. { exists T_ERROR. eexists. split; [apply next_scan1; auto; try discriminate; [now rewrite E|unfold scan1; cbn [cur copying c_rest]; rewrite E; cbn [hd]; rewrite Nu, Id; apply dirty_id; auto|lia]|auto]. }
    destruct (span_ex id_char l eq_refl) as (a & r & -> & A & H). destruct (fwd_id fuel t c (x :: a) r) as (c' & Q & R1 & R2 & R3); auto; [apply ident_make; auto|rewrite E; cbn; lia|]. exists T_ID, c'. split; [auto|]. right. split; [|discriminate]. apply (sh_blank _ _ _ [] (x :: a ++ r)); [constructor|auto|]. apply (s1_id _ (x :: a) r); auto. apply ident_make; auto. }
  assert (St : c_dirty c = true -> stop (hd 0 (x :: l))) by (intros _; split; auto).
  destruct (Z.eq_dec x 34) as [->|N34].
  { destruct (string_split l Nl) as [(b & r & -> & B)|H].
    - destruct (fwd_str fuel t c b r) as (c' & Q & R1 & R2 & R3); auto; [intros I; apply Nl; rewrite in_app_iff; auto|rewrite E; cbn; lia|]. exists T_STRING, c'. split; [auto|]. right. split; [|auto]. apply (sh_blank _ _ _ [] (34 :: b ++ 34 :: r)); [constructor|auto|]. now apply (s1_str _ b r).
    - destruct (H fuel (mark copying (adv [34] l (mk_copy (34 :: l) (c_dirty c) [] (c_txt c)))) eq_refl eq_refl ltac:(lia)) as (c' & Q). exists T_ERROR, c'. split; [|auto]. apply next_scan1; auto; try discriminate; [now rewrite E|unfold scan1; cbn [cur copying c_rest]; rewrite E; cbn [hd num_start id_start is_digit is_alpha Z.eqb Z.leb Z.compare Pos.eqb Pos.compare Pos.compare_cont andb orb]|lia].
      unfold scan_string. cbn [step copying bind]. rewrite (step_eq 34 l) by reflexivity. rewrite Q. reflexivity. }
  destruct (Z_le_gt_dec 128 x) as [G|G].
  { exists T_ERROR. eexists. split; [apply next_scan1; auto; try discriminate; [now rewrite E|unfold scan1; cbn [cur copying c_rest]; rewrite E; cbn [hd]; rewrite Nu, Id; replace (x =? 34) with false by lia; replace (x =? 47) with false by lia; cbn [bind Z.eqb]; replace (128 <=? x) with true by lia; reflexivity|lia]|auto]. }
  destruct (Z.eq_dec x 47) as [->|N47]; [destruct (Z.eq_dec (hd 0 l) 47) as [H47|H47]; [|destruct (Z.eq_dec (hd 0 l) 42) as [H42|H42]]|].
  - (* line comment *)
    destruct l as [|y l]; cbn in H47; [lia|]. subst y. destruct (span_ex (fun c => negb (c =? 10) && negb (c =? 0)) l eq_refl) as (b & r & -> & B & H). cbn [length] in *. rewrite app_length in *. rewrite Forall_forall in B. assert (B10 : ~ In 10 b) by (intros I; apply B in I; cbn in I; lia). assert (B0 : ~ In 0 b) by (intros I; apply B in I; cbn in I; lia).
    assert (Hr : r = [] \/ hd 0 r = 10). { destruct r as [|z r]; [auto|]. right. cbn in H |- *. destruct (z =? 10) eqn:Z1; [lia|]. exfalso. apply Nl. right. rewrite in_app_iff. right. left. cbn in H. lia. }
    destruct (next_line fuel t c b r T ltac:(rewrite E; reflexivity) B10 B0 Hr ltac:(rewrite E; cbn; rewrite app_length; lia)) as (acc & ->).
    destruct r as [|z r].
    + destruct fuel as [|fuel]; [lia|]. destruct (fwd_end fuel T_LCOM (mk_copy [] false acc (c_txt c)) ltac:(discriminate) eq_refl ltac:(lia)) as (c' & Q & R). exists 0, c'. split; [auto|]. right. split; [|auto]. apply (sh_line _ _ _ [] b); auto; [constructor|]. now rewrite app_nil_r.
    + destruct Hr as [Hr|Hr]; [discriminate|]. cbn in Hr. subst z. cbn [length] in *. rewrite (next_space fuel _ _ 10 r); auto; [|discriminate|cbn; lia]. destruct (IH (length r) ltac:(lia) r fuel T_LCOM (adv [10] r (mk_copy (10 :: r) false acc (c_txt c))) eq_refl eq_refl ltac:(discriminate)) as (t' & c' & Q & S); [intros y I; apply Pl; right; rewrite in_app_iff; right; now right|lia|].
      exists t', c'. split; [auto|]. destruct S as [S|(S & _)]; [auto|]. right. split; [|auto]. replace (47 :: 47 :: b ++ 10 :: r) with (([47; 47] ++ b ++ [10]) ++ r) by (cbn; now rewrite <- app_assoc). apply shape_blank; auto. apply bk_line; auto. constructor.
  - (* block comment *)
    destruct l as [|y l]; cbn in H42; [lia|]. subst y. cbn [length] in *. destruct (comment_split l ltac:(intros I; apply Nl; now right) 0) as [(b & r & -> & B)|[(Q & _)|H]]; [|discriminate|].
    + rewrite app_length in *. cbn [length] in *. assert (B0 : ~ In 0 b) by (intros I; apply Nl; right; rewrite in_app_iff; auto). destruct (next_block fuel t c b r T ltac:(rewrite E; reflexivity) B B0 ltac:(rewrite E; cbn; rewrite app_length; cbn; lia)) as (acc & ->).
      destruct (IH (length r) ltac:(lia) r fuel T_BCOM (mk_copy r false acc (c_txt c)) eq_refl eq_refl ltac:(discriminate)) as (t' & c' & Q & S); [intros y I; apply Pl; right; rewrite in_app_iff; right; right; now right|lia|].
      exists t', c'. split; [auto|]. destruct S as [S|(S & _)]; [auto|]. right. split; [|auto]. replace (47 :: 42 :: b ++ 42 :: 47 :: r) with (([47; 42] ++ b ++ [42; 47] ++ []) ++ r) by (cbn; now rewrite <- app_assoc). apply shape_blank; auto. apply bk_block; [|constructor]. intros u v Q2. apply (B (0 :: u) v). cbn. now rewrite Q2.
    + destruct (H fuel (adv [42] l (adv [47] (42 :: l) (mk_copy (47 :: 42 :: l) (c_dirty c) [] (c_txt c)))) eq_refl ltac:(lia)) as (c' & Q). exists T_ERROR. eexists. split; [|auto]. apply next_scan1; auto; try discriminate; [now rewrite E|unfold scan1; cbn [cur copying c_rest]; rewrite E; cbn [hd num_start id_start is_digit is_alpha Z.eqb Z.leb Z.compare Pos.eqb Pos.compare Pos.compare_cont andb orb ahead copying c_rest nth bind step]|lia].
      rewrite (step_eq 47 (42 :: l) (mk_copy _ _ _ _)) by reflexivity. rewrite (step_eq 42 l) by reflexivity. rewrite Q. cbn [bind]. reflexivity.
  - destruct (fwd_char fuel t c 47 l T E ltac:(lia) Sp Nu Id N34 ltac:(auto) ltac:(lia)) as (c' & Q & R1 & R2). exists 47, c'. split; [auto|]. right. split; [|auto]. apply (sh_blank _ _ _ [] (47 :: l)); [constructor|auto|]. apply (s1_char _ 47 l); auto; lia.
  - destruct (fwd_char fuel t c x l T E ltac:(lia) Sp Nu Id N34 ltac:(lia) ltac:(lia)) as (c' & Q & R1 & R2). exists x, c'. split; [auto|]. right. split; [|auto]. apply (sh_blank _ _ _ [] (x :: l)); [constructor|auto|]. apply (s1_char _ x l); auto; lia.
Qed.
