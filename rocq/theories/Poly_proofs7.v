(** Proofs about the construction of paths: three points per path, winding numbers *)
From Coq Require Import ZArith NArith List Bool Lia Arith Permutation Sorted ZifyBool.
From Verif Require Import Reduce_model Reduce_spec Reduce_proofs Reduce_proofs2 Reduce_proofs3 Poly_model Poly_spec Poly_proofs Poly_proofs6.
Import ListNotations.
Open Scope Z_scope.

(** ** Three points *)
Lemma directed_ne : forall E ids e b x y, planar E ids -> In e ids -> directed (E e) b = (x, y) -> x <> y.
Proof.
  intros E ids e b x y (_ & LR & _) I Q. specialize (LR e I). unfold directed in Q. destruct b; injection Q as <- <-; intros X; rewrite X in LR; unfold lex_lt in LR; lia.
Qed.
Lemma directed_opp : forall E ids e f b c x y, planar E ids -> In e ids -> In f ids -> directed (E e) b = (x, y) -> directed (E f) c = (y, x) -> e = f.
Proof.
  intros E ids e f b c x y (_ & LR & PL) Ie If Qe Qf. destruct (Nat.eq_dec e f) as [|N]; [assumption|exfalso].
  pose proof (LR e Ie) as Le. pose proof (LR f If) as Lf.
  assert (SE : left (E e) = left (E f) /\ rigt (E e) = rigt (E f)).
  { unfold directed in *. destruct b, c; inversion Qe; inversion Qf; subst; unfold lex_lt in *; split; try congruence; exfalso;
      repeat match goal with H : _ = _ |- _ => rewrite H in * end; lia. }
  destruct SE as (S1 & S2).
  set (p := mk_point (fst (left (E e)) + fst (rigt (E e))) (snd (left (E e)) + snd (rigt (E e))) 2).
  assert (O : forall g, left (E g) = left (E e) -> rigt (E g) = rigt (E e) -> on_edge p (E g)).
  { intros g G1 G2. unfold on_edge, height, lex_le, scale, pt, p. cbn [px py pd fst snd]. rewrite G1, G2. unfold lex_lt in Le. split; [ring|]. split; lia. }
  destruct (PL e f p Ie If N ltac:(reflexivity) (O e eq_refl eq_refl) (O f (eq_sym S1) (eq_sym S2))) as (X & _).
  unfold is_end, pt, scale, p in X. cbn [px py pd] in X. unfold lex_lt in Le. destruct X as [X|X]; pose proof (f_equal fst X) as X1; pose proof (f_equal snd X) as X2; cbn [fst snd] in X1, X2; lia.
Qed.
Lemma three_points : forall E ids b pts ps, planar E ids -> NoDup pts ->
  Forall (fun w : list nat => NoDup w /\ w <> [] /\ forall i, In i w -> (i < length pts)%nat) ps ->
  Permutation (path_edges pts ps) (map (fun e => directed (E e) (b e)) ids) ->
  Forall (fun w : list nat => (3 <= length w)%nat) ps.
Proof.
  intros E ids b pts ps HP ND F P. apply Forall_forall. intros w Iw. rewrite Forall_forall in F. destruct (F w Iw) as (Nw & Ne & _).
  assert (SUB : forall x, In x (cyc_pairs (coords pts w)) -> exists e, In e ids /\ directed (E e) (b e) = x).
  { intros x J. assert (K : In x (path_edges pts ps)) by (apply in_flat_map; eauto). apply (Permutation_in _ P) in K. apply in_map_iff in K. destruct K as (e & K1 & K2). eauto. }
  destruct w as [|i [|j [|k w]]]; [congruence| | |cbn [length]; lia].
  - exfalso. destruct (SUB (at_points pts i, at_points pts i)) as (e & Ie & Q); [left; reflexivity|]. exact (directed_ne E ids e (b e) _ _ HP Ie Q eq_refl).
  - exfalso. destruct (SUB (at_points pts i, at_points pts j)) as (e & Ie & Qe); [left; reflexivity|]. destruct (SUB (at_points pts j, at_points pts i)) as (f & If & Qf); [right; left; reflexivity|].
    pose proof (directed_opp E ids e f _ _ _ _ HP Ie If Qe Qf) as Q. subst f. rewrite Qe in Qf. injection Qf as X _. exact (directed_ne E ids e (b e) _ _ HP Ie Qe X).
Qed.

(** ** Winding numbers *)
Lemma wind_directed : forall p e b, fst (left e) <= fst (rigt e) -> wind p (directed e b) = if beneath p e then if b then 1 else -1 else 0.
Proof.
  intros p e b L. assert (BE : forall m, beneath p (mk_edge (left e) (rigt e) m) = beneath p e) by reflexivity.
  assert (V : fst (left e) = fst (rigt e) -> beneath p e = false).
  { intros Q. unfold beneath. rewrite Q. destruct (Z.leb_spec (pd p * fst (rigt e)) (px p)), (Z.ltb_spec (px p) (pd p * fst (rigt e))); try reflexivity; lia. }
  unfold directed. destruct b; unfold wind.
  - destruct (Z.ltb_spec (fst (rigt e)) (fst (left e))); [lia|]. destruct (Z.ltb_spec (fst (left e)) (fst (rigt e))); [rewrite BE; reflexivity|]. rewrite V by lia. reflexivity.
  - destruct (Z.ltb_spec (fst (left e)) (fst (rigt e))); [rewrite BE; reflexivity|]. rewrite V by lia. destruct (Z.ltb_spec (fst (rigt e)) (fst (left e))); [lia|reflexivity].
Qed.
Lemma winding_perm : forall p a b, Permutation a b -> winding p a = winding p b.
Proof. intros p a b P. unfold winding. induction P; cbn [map fold_right]; lia. Qed.
Definition signs (b : nat -> bool) (l : list nat) : Z := fold_right Z.add 0 (map (fun e => if b e then 1 else -1) l).
Lemma winding_directed : forall p E b ids, (forall e, In e ids -> fst (left (E e)) <= fst (rigt (E e))) ->
  winding p (map (fun e => directed (E e) (b e)) ids) = signs b (filter (fun e => beneath p (E e)) ids).
Proof.
  intros p E b. induction ids as [|e ids IH]; intros H; [reflexivity|]. unfold winding in *. cbn [map fold_right]. rewrite IH by (intros; apply H; right; assumption).
  rewrite wind_directed by (apply H; left; reflexivity). cbn [filter]. destruct (beneath p (E e)); reflexivity.
Qed.
Lemma signs_app : forall b x y, signs b (x ++ y) = signs b x + signs b y.
Proof. intros b x y. unfold signs. induction x as [|e x IH]; cbn [app map fold_right]; lia. Qed.
Lemma signs_ext : forall b c l, (forall e, In e l -> b e = c e) -> signs b l = signs c l.
Proof. intros b c l H. unfold signs. f_equal. apply map_ext_in. intros e I. rewrite H by exact I. reflexivity. Qed.

Section Signs.
Variable lt : nat -> nat -> bool.
Lemma tele_sign : forall n A, length A = n -> NoDup A -> total lt A -> transl lt A -> irr lt A ->
  signs (fun e => Nat.even (length (filter (fun f => lt f e) A))) A = if Nat.odd (length A) then 1 else 0.
Proof.
  induction n as [|n IH]; intros A L N T R I.
  - destruct A; [|discriminate]. reflexivity.
  - destruct (max_exists lt A N T R) as (e & Ie & H); [intros ->; discriminate|].
    destruct (in_split e A Ie) as (a & c & ->).
    assert (Nab : ~ In e (a ++ c)) by (apply NoDup_remove_2 in N; exact N).
    assert (SUB : forall f, In f (a ++ c) -> In f (a ++ e :: c)) by (intros f F; apply in_app_or in F; apply in_or_app; simpl; tauto).
    assert (LL : length (a ++ e :: c) = S (length (a ++ c))) by (rewrite !app_length; cbn [length]; lia).
    assert (UE : length (filter (fun f => lt f e) (a ++ e :: c)) = length (a ++ c)).
    { rewrite filter_app. cbn [filter]. rewrite (I e Ie).
      rewrite <- filter_app. assert (FA : forall l, (forall f, In f l -> lt f e = true) -> filter (fun f => lt f e) l = l).
      { induction l as [|x l IHl]; intros HH; [reflexivity|]. simpl. rewrite HH by (left; auto). f_equal. apply IHl. intros; apply HH; right; auto. }
      rewrite FA; [reflexivity|]. intros f F. apply H; [apply SUB, F|intros ->; contradiction]. }
    assert (UF : forall f, In f (a ++ c) -> filter (fun g => lt g f) (a ++ e :: c) = filter (fun g => lt g f) (a ++ c)).
    { intros f F. rewrite !filter_app. cbn [filter]. assert (lt e f = false) as ->; [|reflexivity].
      assert (FE : f <> e) by (intros ->; contradiction).
      rewrite T; [rewrite (H f (SUB f F) FE); reflexivity|exact Ie|apply SUB, F|congruence]. }
    assert (IHab : signs (fun e => Nat.even (length (filter (fun f => lt f e) (a ++ c)))) (a ++ c) = if Nat.odd (length (a ++ c)) then 1 else 0).
    { apply IH.
      - lia.
      - apply NoDup_remove_1 in N. exact N.
      - intros x y X Y. apply T; apply SUB; auto.
      - intros x y z X Y Z. apply R; apply SUB; auto.
      - intros x X. apply I, SUB, X. }
    set (bb := fun x => Nat.even (length (filter (fun f => lt f x) (a ++ e :: c)))) in *.
    assert (SP : signs bb (a ++ e :: c) = (if bb e then 1 else -1) + signs bb (a ++ c)).
    { rewrite !signs_app. change (signs bb (e :: c)) with ((if bb e then 1 else -1) + signs bb c). lia. }
    rewrite SP, (signs_ext bb (fun x => Nat.even (length (filter (fun f => lt f x) (a ++ c)))) (a ++ c)), IHab by (intros f F; unfold bb; rewrite UF by exact F; reflexivity).
    unfold bb. rewrite UE, LL, Nat.odd_succ, <- Nat.negb_even. destruct (Nat.even (length (a ++ c))); reflexivity.
Qed.
End Signs.

Lemma winding_ok : forall E ids b r, planar E ids -> 0 < pd r ->
  (forall e, In e ids -> pd r * fst (left (E e)) <> px r /\ pd r * fst (rigt (E e)) <> px r) ->
  (forall e p, In e ids -> 0 < pd p -> inside_edge p (E e) -> b e = Nat.even (length (filter (fun f => beneath p (E f)) ids))) ->
  winding r (map (fun e => directed (E e) (b e)) ids) = if Nat.odd (length (filter (fun e => beneath r (E e)) ids)) then 1 else 0.
Proof.
  intros E ids b r HP Hd HV HB.
  assert (LR : forall e, In e ids -> fst (left (E e)) <= fst (rigt (E e))).
  { intros e I. destruct HP as (_ & LR & _). specialize (LR e I). unfold lex_lt in LR. lia. }
  rewrite winding_directed by exact LR. change (filter (fun e => beneath r (E e)) ids) with (A E ids r).
  rewrite <- (tele_sign (ltr E r) (length (A E ids r)) (A E ids r) eq_refl).
  - apply signs_ext. intros e I. destruct (pp_in E ids r Hd HV e I) as (P1 & P2). rewrite (HB e (pp E r e)); [|apply (A_in E ids r Hd HV e I)|exact P1|exact P2].
    f_equal. f_equal. unfold A.
    assert (FE : forall l (h1 h2 h3 : nat -> bool), (forall f, In f l -> h1 f = h2 f && h3 f) -> filter h1 l = filter h3 (filter h2 l)).
    { induction l as [|x l IH]; intros h1 h2 h3 Hh; [reflexivity|]. cbn [filter]. rewrite (Hh x) by (left; auto).
      specialize (IH h1 h2 h3 (fun f F => Hh f (or_intror F))). destruct (h2 x); cbn [filter andb]; [destruct (h3 x)|]; rewrite IH; reflexivity. }
    apply FE. intros f F. apply eq_true_iff_eq. rewrite (beneath_pp E ids r Hd HV e f I F). unfold A. rewrite filter_In, andb_true_iff. tauto.
  - apply NoDup_filter, HP.
  - apply A_total; assumption.
  - apply A_trans; assumption.
  - apply A_irr.
Qed.
