(** Proofs about the reduction pass: the region that the kept edges describe *)
From Coq Require Import ZArith NArith List Bool Lia Arith.
From Verif Require Import Reduce_model Reduce_spec Reduce_proofs Reduce_proofs2.
Import ListNotations.
Open Scope Z_scope.

(** ** Telescoping along a strict order *)
Section Tele.
Variables (lt : nat -> nat -> bool) (mm : nat -> N) (comb : N -> bool).
Definition total (A : list nat) : Prop := forall e f, In e A -> In f A -> e <> f -> lt e f = negb (lt f e).
Definition transl (A : list nat) : Prop := forall e f g, In e A -> In f A -> In g A -> lt e f = true -> lt f g = true -> lt e g = true.
Definition irr (A : list nat) : Prop := forall e, In e A -> lt e e = false.
Definition under (A : list nat) (e : nat) : N := xor_all (map mm (filter (fun f => lt f e) A)).
Definition parity (k : nat -> bool) (A : list nat) : bool := fold_right xorb false (map k A).

Lemma max_exists : forall A, NoDup A -> total A -> transl A -> A <> [] -> exists e, In e A /\ forall f, In f A -> f <> e -> lt f e = true.
Proof.
  induction A as [|x A IH]; intros N T R NE; [congruence|]. inversion N; subst.
  destruct A as [|y A].
  - exists x. split; [left; auto|]. intros f [ <- |[]] F; congruence.
  - destruct IH as (e & I & H).
    + assumption.
    + intros a b Ia Ib. apply T; right; auto.
    + intros a b c Ia Ib Ic. apply R; right; auto.
    + discriminate.
    + assert (X : x <> e) by (intros ->; contradiction).
      destruct (lt x e) eqn:Q.
      * exists e. split; [right; auto|]. intros f [ <- |F] F2; auto.
      * exists x. split; [left; auto|]. intros f [ <- |F] F2; [congruence|].
        assert (EX : lt e x = true) by (rewrite T; [rewrite Q; auto|right; auto|left; auto|congruence]).
        destruct (Nat.eq_dec f e) as [->|FE]; [exact EX|]. apply (R f e x); [right; auto|right; auto|left; auto|apply H; auto|exact EX].
Qed.
Lemma xor_all_app : forall a b, xor_all (a ++ b) = N.lxor (xor_all a) (xor_all b).
Proof. induction a as [|x a IH]; intros b; simpl; [reflexivity|]. rewrite IH. symmetry. apply N.lxor_assoc. Qed.
Lemma parity_app : forall k a b, parity k (a ++ b) = xorb (parity k a) (parity k b).
Proof. intros k a b. unfold parity. induction a as [|x a IH]; simpl; [destruct (fold_right xorb false (map k b)); auto|]. rewrite IH. symmetry. apply xorb_assoc. Qed.
Lemma parity_ext : forall k1 k2 A, (forall e, In e A -> k1 e = k2 e) -> parity k1 A = parity k2 A.
Proof. intros k1 k2 A H. unfold parity. f_equal. apply map_ext_in. exact H. Qed.

Lemma tele : forall n A, length A = n -> NoDup A -> total A -> transl A -> irr A ->
  parity (fun e => xorb (comb (under A e)) (comb (N.lxor (under A e) (mm e)))) A = xorb (comb (xor_all (map mm A))) (comb 0%N).
Proof.
  induction n as [|n IH]; intros A L N T R I.
  - destruct A; [|discriminate]. simpl. rewrite xorb_nilpotent. reflexivity.
  - destruct (max_exists A N T R) as (e & Ie & H); [intros ->; discriminate|].
    destruct (in_split e A Ie) as (a & b & ->).
    assert (Nab : ~ In e (a ++ b)) by (apply NoDup_remove_2 in N; exact N).
    assert (SUB : forall f, In f (a ++ b) -> In f (a ++ e :: b)) by (intros f F; apply in_app_or in F; apply in_or_app; simpl; tauto).
    assert (UE : under (a ++ e :: b) e = xor_all (map mm (a ++ b))).
    { unfold under. f_equal. f_equal. rewrite filter_app. simpl. rewrite (I e Ie).
      rewrite <- filter_app. assert (FA : forall l, (forall f, In f l -> lt f e = true) -> filter (fun f => lt f e) l = l).
      { induction l as [|x l IHl]; intros HH; [reflexivity|]. simpl. rewrite HH by (left; auto). f_equal. apply IHl. intros; apply HH; right; auto. }
      apply FA. intros f F. apply H; [apply SUB, F|intros ->; contradiction]. }
    assert (UF : forall f, In f (a ++ b) -> under (a ++ e :: b) f = under (a ++ b) f).
    { intros f F. unfold under. rewrite !filter_app. simpl.
      assert (lt e f = false) as ->; [|reflexivity].
      assert (FE : f <> e) by (intros ->; contradiction).
      rewrite T; [rewrite (H f (SUB f F) FE); reflexivity|exact Ie|apply SUB, F|congruence]. }
    assert (IHab : parity (fun e => xorb (comb (under (a ++ b) e)) (comb (N.lxor (under (a ++ b) e) (mm e)))) (a ++ b)
      = xorb (comb (xor_all (map mm (a ++ b)))) (comb 0%N)).
    { apply IH.
      - rewrite app_length in *. simpl in L. lia.
      - apply NoDup_remove_1 in N. exact N.
      - intros x y X Y. apply T; apply SUB; auto.
      - intros x y z X Y Z. apply R; apply SUB; auto.
      - intros x X. apply I, SUB, X. }
    set (kk := fun e0 => xorb (comb (under (a ++ e :: b) e0)) (comb (N.lxor (under (a ++ e :: b) e0) (mm e0)))) in *.
    assert (SP : parity kk (a ++ e :: b) = xorb (kk e) (parity kk (a ++ b))).
    { rewrite !parity_app. change (parity kk (e :: b)) with (xorb (kk e) (parity kk b)).
      destruct (parity kk a), (kk e), (parity kk b); reflexivity. }
    rewrite SP. rewrite (parity_ext kk (fun e0 => xorb (comb (under (a ++ b) e0)) (comb (N.lxor (under (a ++ b) e0) (mm e0)))) (a ++ b)).
    2:{ intros f F. unfold kk. rewrite UF by exact F. reflexivity. }
    rewrite IHab. unfold kk. rewrite UE.
    assert (XA : N.lxor (xor_all (map mm (a ++ b))) (mm e) = xor_all (map mm (a ++ e :: b))).
    { rewrite !map_app, !xor_all_app. simpl. rewrite <- (N.lxor_assoc (xor_all (map mm a))), (N.lxor_assoc _ (xor_all (map mm b))).
      rewrite (N.lxor_comm (xor_all (map mm b)) (mm e)). symmetry. rewrite N.lxor_assoc. reflexivity. }
    rewrite XA. destruct (comb (xor_all (map mm (a ++ b)))), (comb (xor_all (map mm (a ++ e :: b)))), (comb 0%N); reflexivity.
Qed.
End Tele.

Section Region.
Variables (E : nat -> edge) (ids : list nat) (r : point).
Hypothesis HP : planar E ids.
Hypothesis Hd : 0 < pd r.
Hypothesis HV : forall e, In e ids -> pd r * fst (left (E e)) <> px r /\ pd r * fst (rigt (E e)) <> px r.

Definition A := filter (fun e => beneath r (E e)) ids.
(** height of the edge above/below px r, times pd r * dx *)
Definition nu (e : nat) : Z := pd r * snd (left (E e)) * dx (E e) + (px r - pd r * fst (left (E e))) * dy (E e).
Definition pp (e : nat) : point := mk_point (px r * dx (E e)) (nu e) (pd r * dx (E e)).
Definition ltr (f e : nat) : bool := nu f * dx (E e) <? nu e * dx (E f).

Lemma A_in : forall e, In e A -> In e ids /\ 0 < dx (E e) /\ pd r * fst (left (E e)) < px r < pd r * fst (rigt (E e)) /\ nu e < py r * dx (E e).
Proof.
  intros e H. unfold A in H. apply filter_In in H. destruct H as (I & H). unfold beneath in H. rewrite !andb_true_iff, Z.leb_le, !Z.ltb_lt in H.
  destruct H as ((H1 & H2) & H3). destruct (HV e I) as (V1 & V2). split; [exact I|].
  assert (D : 0 < dx (E e)) by (unfold dx; nia). split; [exact D|]. split; [lia|].
  unfold height in H3. fold (dx (E e)) (dy (E e)) in H3. unfold nu. lia.
Qed.
Lemma pp_in : forall e, In e A -> 0 < pd (pp e) /\ inside_edge (pp e) (E e).
Proof.
  intros e H. destruct (A_in e H) as (I & D & X & Y). unfold pp, inside_edge, height, lex_lt, pt, scale. cbn [px py pd fst snd].
  split; [nia|]. split; [unfold nu; fold (dx (E e)) (dy (E e)); ring|]. split; left; nia.
Qed.
Lemma beneath_pp : forall e f, In e A -> In f ids -> beneath (pp e) (E f) = true <-> In f A /\ ltr f e = true.
Proof.
  intros e f H F. destruct (A_in e H) as (I & D & X & Y). unfold A. rewrite filter_In. unfold beneath, ltr.
  rewrite !andb_true_iff, !Z.leb_le, !Z.ltb_lt. unfold pp. cbn [px py pd]. unfold height. cbn [px py pd]. fold (dx (E f)) (dy (E f)).
  assert (Q : dx (E f) * (nu e - pd r * dx (E e) * snd (left (E f))) - dy (E f) * (px r * dx (E e) - pd r * dx (E e) * fst (left (E f)))
    = nu e * dx (E f) - nu f * dx (E e)) by (unfold nu at 3; ring).
  assert (Q2 : dx (E f) * (py r - pd r * snd (left (E f))) - dy (E f) * (px r - pd r * fst (left (E f))) = py r * dx (E f) - nu f) by (unfold nu; ring).
  rewrite Q, Q2.
  assert (Q3 : pd r * dx (E e) * fst (left (E f)) <= px r * dx (E e) <-> pd r * fst (left (E f)) <= px r).
  { replace (pd r * dx (E e) * fst (left (E f))) with (pd r * fst (left (E f)) * dx (E e)) by ring. symmetry. apply Z.mul_le_mono_pos_r, D. }
  assert (Q4 : px r * dx (E e) < pd r * dx (E e) * fst (rigt (E f)) <-> px r < pd r * fst (rigt (E f))).
  { replace (pd r * dx (E e) * fst (rigt (E f))) with (pd r * fst (rigt (E f)) * dx (E e)) by ring. symmetry. apply Z.mul_lt_mono_pos_r, D. }
  rewrite Q3, Q4. split.
  - intros ((H1 & H2) & H3). assert (DF : 0 < dx (E f)) by (unfold dx; nia). split; [|lia]. split; [exact F|]. split; [lia|].
    assert (nu f * dx (E e) < py r * dx (E f) * dx (E e)) by nia.
    assert (nu f < py r * dx (E f)) by (apply (Z.mul_lt_mono_pos_r (dx (E e))); assumption). lia.
  - intros ((_ & (H1 & H2)) & H3). split; [exact H1|lia].
Qed.
Lemma inside_pp : forall e, In e A -> inside E ids (pp e) = under ltr (fun e => member (E e)) A e.
Proof.
  intros e H. unfold inside, under. f_equal. f_equal. unfold A at 1.
  assert (FE : forall l (h1 h2 h3 : nat -> bool), (forall f, In f l -> h1 f = h2 f && h3 f) -> filter h1 l = filter h3 (filter h2 l)).
  { induction l as [|x l IH]; intros h1 h2 h3 Hh; [reflexivity|]. simpl. rewrite (Hh x) by (left; auto).
    specialize (IH h1 h2 h3 (fun f F => Hh f (or_intror F))). destruct (h2 x); simpl; [destruct (h3 x)|]; rewrite IH; reflexivity. }
  apply FE. intros f F. apply eq_true_iff_eq. rewrite (beneath_pp e f H F), andb_true_iff. unfold A. rewrite filter_In. tauto.
Qed.
Lemma A_total : total ltr A.
Proof.
  intros e f He Hf N. destruct (A_in e He) as (Ie & De & Xe & Ye). destruct (A_in f Hf) as (If & Df' & Xf & Yf). unfold ltr.
  assert (nu e * dx (E f) <> nu f * dx (E e)); [|apply eq_true_iff_eq; rewrite negb_true_iff, Z.ltb_lt, Z.ltb_ge; lia].
  intros Q. destruct HP as (_ & _ & PL).
  destruct (pp_in e He) as (P1 & P2 & P3 & P4).
  assert (W : 0 < pd (pp e) /\ on_edge (pp e) (E e) /\ on_edge (pp e) (E f)).
  { split; [exact P1|]. split; [split; [exact P2|split; [unfold lex_lt, lex_le in *; lia|unfold lex_lt, lex_le in *; lia]]|].
    unfold on_edge, height, lex_le, pt, scale, pp. cbn [px py pd fst snd]. fold (dx (E f)) (dy (E f)). split; [|split; left; nia].
    replace (dx (E f) * (nu e - pd r * dx (E e) * snd (left (E f))) - dy (E f) * (px r * dx (E e) - pd r * dx (E e) * fst (left (E f))))
      with (nu e * dx (E f) - nu f * dx (E e)) by (unfold nu at 2; ring). lia. }
  destruct W as (W1 & W2 & W3). destruct (PL e f (pp e) Ie If N W1 W2 W3) as ([X|X] & _); rewrite X in *; unfold lex_lt in *; lia.
Qed.
Lemma A_trans : transl ltr A.
Proof.
  intros e f g He Hf Hg. destruct (A_in e He) as (_ & De & _). destruct (A_in f Hf) as (_ & Df' & _). destruct (A_in g Hg) as (_ & Dg & _).
  unfold ltr. rewrite !Z.ltb_lt. intros H1 H2.
  assert (nu e * dx (E g) * dx (E f) < nu g * dx (E e) * dx (E f)) by nia.
  apply (Z.mul_lt_mono_pos_r (dx (E f))); assumption.
Qed.
Lemma A_irr : irr ltr A.
Proof. intros e _. unfold ltr. apply Z.ltb_irrefl. Qed.
End Region.

Lemma odd_parity : forall (l : list nat) (h k : nat -> bool), Nat.odd (length (filter k (filter h l))) = parity k (filter h l).
Proof.
  intros l h k. generalize (filter h l). clear. intros l. unfold parity. induction l as [|x l IH]; [reflexivity|].
  cbn [filter map fold_right]. destruct (k x); cbn [length].
  - rewrite Nat.odd_succ, <- Nat.negb_odd, IH. destruct (fold_right xorb false (map k l)); reflexivity.
  - rewrite IH. destruct (fold_right xorb false (map k l)); reflexivity.
Qed.

Theorem region_ok : forall E ids comb n b0 k0 res out,
  planar E ids -> closed E ids -> ends_of E ids res -> (forall e, In e ids -> (member (E e) < 2 ^ n)%N) ->
  reduce E comb (2 ^ n) b0 k0 res = Some out ->
  forall r, 0 < pd r -> (forall e, In e ids -> pd r * fst (left (E e)) <> px r /\ pd r * fst (rigt (E e)) <> px r) ->
  Nat.odd (length (filter (fun e => beneath r (E e) && existsb (vertex_eqb (e, LEFT)) out) ids)) = xorb (comb (inside E ids r)) (comb 0%N).
Proof.
  intros E ids comb n b0 k0 res out HP HC HE Hm HR r Hd HV.
  destruct (reduce_ok E ids comb n b0 k0 res HP HC HE Hm) as (out' & R & K & -> & HK). rewrite HR in R. inversion R as [R']. subst out. clear R HR.
  assert (KE : forall e, In e ids -> existsb (vertex_eqb (e, LEFT)) (filter (fun v => K (fst v)) res) = K e).
  { intros e I. apply eq_true_iff_eq. rewrite existsb_exists. split.
    - intros (v & V & Q). apply filter_In in V. destruct V as (_ & V). unfold vertex_eqb in Q. apply andb_true_iff in Q. destruct Q as (Q & _).
      apply Nat.eqb_eq in Q. cbn [fst] in Q. rewrite Q. exact V.
    - intros Q. exists (e, LEFT). split; [apply filter_In; split; [apply HE, I|exact Q]|]. unfold vertex_eqb. rewrite Nat.eqb_refl. reflexivity. }
  assert (S1 : filter (fun e => beneath r (E e) && existsb (vertex_eqb (e, LEFT)) (filter (fun v => K (fst v)) res)) ids = filter K (filter (fun e => beneath r (E e)) ids)).
  { assert (FE : forall l (h2 h3 k3 : nat -> bool), (forall f, In f l -> h3 f = k3 f) -> filter (fun x => h2 x && h3 x) l = filter k3 (filter h2 l)).
    { induction l as [|x l IH]; intros h2 h3 k3 Hh; [reflexivity|]. simpl. rewrite (Hh x) by (left; auto).
      specialize (IH h2 h3 k3 (fun f F => Hh f (or_intror F))). destruct (h2 x); simpl; [destruct (k3 x)|]; rewrite IH; reflexivity. }
    apply FE. exact KE. }
  rewrite S1, odd_parity. change (filter (fun e => beneath r (E e)) ids) with (A E ids r).
  rewrite (parity_ext K (fun e => xorb (comb (under (ltr E r) (fun e => member (E e)) (A E ids r) e))
    (comb (N.lxor (under (ltr E r) (fun e => member (E e)) (A E ids r) e) (member (E e)))))).
  - rewrite (tele (ltr E r) (fun e => member (E e)) comb (length (A E ids r)) (A E ids r) eq_refl).
    + reflexivity.
    + apply NoDup_filter, HP.
    + apply A_total; assumption.
    + apply A_trans; assumption.
    + apply A_irr.
  - intros e I. destruct (pp_in E ids r Hd HV e I) as (P1 & P2).
    rewrite (HK e (pp E r e)); [|apply (A_in E ids r Hd HV e I)|exact P1|exact P2].
    rewrite (inside_pp E ids r Hd HV e I). reflexivity.
Qed.
