(** Sums in the trees: local equations, updates along a path, insertion. *)
From Coq Require Import List Bool Arith NArith ZArith Lia Permutation.
From Verif Require Import Dict_model Dict_spec Dict_proofs Dict_proofs2 Aug_model Aug_spec.
Import ListNotations.

(** ** Counting nodes *)

Definition one (x k : nat) : nat := if Nat.eq_dec x k then 1 else 0.
Definition cnt (k : nat) (t : tree) : nat := count_occ Nat.eq_dec (inorder t) k.
Fixpoint cntc (k : nat) (c : list frame) : nat :=
  match c with
  | [] => 0
  | f :: c' => one (fid f) k + cnt k (fsib f) + cntc k c'
  end.
Definition uniq (t : tree) : Prop := forall k, cnt k t <= 1.

Lemma cnt_E k : cnt k E = 0. Proof. reflexivity. Qed.
Lemma cnt_N k l x s r : cnt k (N l x s r) = cnt k l + one x k + cnt k r.
Proof.
  unfold cnt, one. cbn [inorder]. rewrite count_occ_app. cbn [count_occ].
  destruct (Nat.eq_dec x k); lia.
Qed.
Lemma cnt_mk k i a x s b : cnt k (mk i a x s b) = cnt k a + one x k + cnt k b.
Proof. unfold mk. destruct i; rewrite cnt_N; lia. Qed.
Lemma cnt_fill k f t : cnt k (fill f t) = cnt k t + one (fid f) k + cnt k (fsib f).
Proof. unfold fill. apply cnt_mk. Qed.
Lemma cnt_plug k : forall c t, cnt k (plug t c) = cnt k t + cntc k c.
Proof.
  induction c as [|f c IH]; intros t; cbn [plug cntc]; [lia|].
  rewrite IH, cnt_fill. lia.
Qed.
Lemma cnt_eq k t t' : inorder t = inorder t' -> cnt k t = cnt k t'.
Proof. unfold cnt. now intros ->. Qed.
Lemma cntc_app k : forall c c', cntc k (c ++ c') = cntc k c + cntc k c'.
Proof. induction c as [|f c IH]; intros; cbn [cntc app]; [lia|]. rewrite IH. lia. Qed.
Lemma one_same x : one x x = 1.
Proof. unfold one. destruct (Nat.eq_dec x x); lia. Qed.
Lemma one_diff x k : x <> k -> one x k = 0.
Proof. unfold one. destruct (Nat.eq_dec x k); lia. Qed.
Lemma one_zero x k : one x k = 0 -> x <> k.
Proof. unfold one. destruct (Nat.eq_dec x k); lia. Qed.
Lemma uniq_NoDup t : uniq t <-> NoDup (inorder t).
Proof.
  unfold uniq, cnt. symmetry. apply (NoDup_count_occ Nat.eq_dec).
Qed.
Lemma cnt_In k t : In k (inorder t) <-> cnt k t > 0.
Proof. unfold cnt. apply count_occ_In. Qed.

(** Specialise a uniqueness hypothesis to all node names in view. *)
Ltac cnts := rewrite ?cnt_plug, ?cnt_fill, ?cnt_mk, ?cnt_N, ?cnt_E, ?cntc_app in *;
  cbn [cntc fid fsib] in *; rewrite ?cnt_plug, ?cnt_fill, ?cnt_mk, ?cnt_N, ?cnt_E, ?one_same in *.

Section Member.
Variable M : nat -> BinNums.N.

Notation get := (Aug_model.get).
Notation upd := (Aug_model.upd M).
Notation up := (Aug_model.up M).
Notation rec := (Aug_model.rec M).

(** ** The local equation *)

Definition here (S : sums) (t : tree) : Prop :=
  match t with
  | E => True
  | N l x _ r => S x = N.lxor (N.lxor (M x) (get S l)) (get S r)
  end.

Fixpoint ok (S : sums) (t : tree) : Prop :=
  match t with
  | E => True
  | N l x s r => here S (N l x s r) /\ ok S l /\ ok S r
  end.

Definition okch (S : sums) (t : tree) : Prop :=
  match t with E => True | N l _ _ r => ok S l /\ ok S r end.

Definition okc (S : sums) (c : list frame) : Prop := Forall (fun f => ok S (fsib f)) c.

Lemma ok_ch S t : ok S t -> okch S t.
Proof. destruct t; cbn; tauto. Qed.

Lemma xor_app l1 l2 : xor_of M (l1 ++ l2) = N.lxor (xor_of M l1) (xor_of M l2).
Proof.
  unfold xor_of. induction l1 as [|a l IH]; cbn [app map fold_right]; [now rewrite N.lxor_0_l|].
  now rewrite IH, N.lxor_assoc.
Qed.
Lemma xor_cons a l : xor_of M (a :: l) = N.lxor (M a) (xor_of M l).
Proof. reflexivity. Qed.

Lemma summed_get S t : summed M S t -> get S t = xor_of M (inorder t).
Proof. destruct t; cbn; [reflexivity|tauto]. Qed.

Lemma summed_ok S t : summed M S t -> ok S t.
Proof.
  induction t as [|l IHl x s r IHr]; cbn [summed ok here]; [trivial|].
  intros (H & Hl & Hr). split; [|auto].
  rewrite (summed_get _ _ Hl), (summed_get _ _ Hr), H, xor_app, xor_cons.
  rewrite !N.lxor_assoc, <- !N.lxor_assoc. f_equal. apply N.lxor_comm.
Qed.

Lemma ok_summed S t : ok S t -> summed M S t.
Proof.
  induction t as [|l IHl x s r IHr]; cbn [summed ok here]; [trivial|].
  intros (H & Hl & Hr). split; [|auto].
  rewrite H, (summed_get _ _ (IHl Hl)), (summed_get _ _ (IHr Hr)), xor_app, xor_cons.
  rewrite <- !N.lxor_assoc. f_equal. apply N.lxor_comm.
Qed.

Lemma get_ext S S' t : (forall k, cnt k t > 0 -> S' k = S k) -> get S' t = get S t.
Proof.
  destruct t as [|l x s r]; cbn [Aug_model.get]; [reflexivity|]. intros H. apply H.
  rewrite cnt_N, one_same. lia.
Qed.

Lemma ok_ext S S' t : (forall k, cnt k t > 0 -> S' k = S k) -> ok S t -> ok S' t.
Proof.
  induction t as [|l IHl x s r IHr]; cbn [ok here]; [trivial|]. intros H (H1 & H2 & H3).
  assert (forall k, cnt k l > 0 -> S' k = S k) as Hl by (intros; apply H; rewrite cnt_N; lia).
  assert (forall k, cnt k r > 0 -> S' k = S k) as Hr by (intros; apply H; rewrite cnt_N; lia).
  rewrite (get_ext S S' l Hl), (get_ext S S' r Hr). split; [|auto].
  rewrite <- H1. apply H. rewrite cnt_N, one_same. lia.
Qed.

Lemma okc_ext S S' c : (forall k, cntc k c > 0 -> S' k = S k) -> okc S c -> okc S' c.
Proof.
  unfold okc. induction c as [|f c IH]; intros H H1; [constructor|].
  inversion H1 as [|? ? Hf Hc]; subst. constructor.
  - apply (ok_ext S); [|exact Hf]. intros k Hk. apply H. cbn [cntc]. lia.
  - apply IH; [|exact Hc]. intros k Hk. apply H. cbn [cntc]. lia.
Qed.

Lemma okc_app S c c' : okc S (c ++ c') <-> okc S c /\ okc S c'.
Proof. apply Forall_app. Qed.

Lemma okc_cons S f c : okc S (f :: c) <-> ok S (fsib f) /\ okc S c.
Proof. unfold okc. split; [intros H; inversion H; auto|intros []; constructor; auto]. Qed.

Lemma ok_mk S i a x s b : ok S (mk i a x s b) <-> here S (mk i a x s b) /\ ok S a /\ ok S b.
Proof. unfold mk. destruct i; cbn [ok]; tauto. Qed.
Lemma okch_mk S i a x s b : okch S (mk i a x s b) <-> ok S a /\ ok S b.
Proof. unfold mk. destruct i; cbn [okch]; tauto. Qed.

Lemma ok_plug S : forall c t, ok S (plug t c) -> ok S t /\ okc S c.
Proof.
  induction c as [|f c IH]; intros t H; cbn [plug] in *; [split; [exact H|constructor]|].
  apply IH in H as [H1 H2]. unfold fill in H1. apply ok_mk in H1 as (_ & Ha & Hb).
  split; [exact Ha|]. apply okc_cons. auto.
Qed.

(** ** Updates *)

Lemma put_same S x v : put S x v x = v.
Proof. unfold put. now rewrite Nat.eqb_refl. Qed.
Lemma put_diff S x v k : k <> x -> put S x v k = S k.
Proof. unfold put. intros H. apply Nat.eqb_neq in H. now rewrite H. Qed.

(** An update changes only the node itself. *)
Lemma upd_frame S l x s r k : one x k = 0 -> upd S (N l x s r) k = S k.
Proof. intros H. cbn [Aug_model.upd]. apply put_diff. apply one_zero in H. congruence. Qed.
Lemma upd_mk_frame S i a x s b k : one x k = 0 -> upd S (mk i a x s b) k = S k.
Proof. unfold mk. destruct i; apply upd_frame. Qed.
Lemma upd_fill_frame S f t k : one (fid f) k = 0 -> upd S (fill f t) k = S k.
Proof. unfold fill. apply upd_mk_frame. Qed.
Lemma upd_out S t k : cnt k t = 0 -> upd S t k = S k.
Proof.
  destruct t as [|l x s r]; [reflexivity|]. rewrite cnt_N. intros H. apply upd_frame. lia.
Qed.

Lemma upd_ok S t : okch S t -> uniq t -> ok (upd S t) t.
Proof.
  destruct t as [|l x s r]; cbn [okch ok]; [trivial|]. intros [Hl Hr] U.
  assert (cnt x l = 0 /\ cnt x r = 0) as [Cl Cr].
  { specialize (U x). cnts. lia. }
  assert (forall t, cnt x t = 0 -> forall k, cnt k t > 0 -> upd S (N l x s r) k = S k) as Fr.
  { intros t Ht k Hk. apply upd_frame. apply one_diff. intros ->. lia. }
  split.
  - cbn [here]. rewrite (get_ext _ _ _ (Fr l Cl)), (get_ext _ _ _ (Fr r Cr)).
    cbn [Aug_model.upd]. apply put_same.
  - split; (eapply ok_ext; [apply Fr; assumption|assumption]).
Qed.

(** Updating a node of one tree does not disturb a disjoint one. *)
Lemma upd_ok_other S t t' : (forall k, cnt k t + cnt k t' <= 1) -> ok S t' -> ok (upd S t) t'.
Proof.
  intros U. apply ok_ext. intros k Hk. apply upd_out. specialize (U k). lia.
Qed.
Lemma upd_okc S t c : (forall k, cnt k t + cntc k c <= 1) -> okc S c -> okc (upd S t) c.
Proof.
  intros U. apply okc_ext. intros k Hk. apply upd_out. specialize (U k). lia.
Qed.

Lemma up_frame : forall c S x k, cntc k c = 0 -> up S x c k = S k.
Proof.
  induction c as [|f c IH]; intros S x k H; cbn [Aug_model.up]; [reflexivity|].
  cbn [cntc] in H. rewrite IH by lia. apply upd_fill_frame. lia.
Qed.

Lemma up_ok : forall c S x, ok S x -> okc S c -> uniq (plug x c) -> ok (up S x c) (plug x c).
Proof.
  induction c as [|f c IH]; intros S x Hx Hc U; cbn [Aug_model.up plug]; [exact Hx|].
  apply okc_cons in Hc as [Hf Hc].
  assert (uniq (fill f x)) as Uf by (intros k; specialize (U k); cnts; lia).
  apply IH.
  - apply upd_ok; [|exact Uf]. unfold fill. apply okch_mk. auto.
  - apply upd_okc; [|exact Hc]. intros k. specialize (U k). cnts. lia.
  - exact U.
Qed.

Lemma rec_ok c S x : okch S x -> okc S c -> uniq (plug x c) -> ok (rec S x c) (plug x c).
Proof.
  intros Hx Hc U. unfold Aug_model.rec. apply up_ok; [| |exact U].
  - apply upd_ok; [exact Hx|]. intros k. specialize (U k). cnts. lia.
  - apply upd_okc; [|exact Hc]. intros k. specialize (U k). cnts. lia.
Qed.
Lemma rec_frame c S x k : cnt k x + cntc k c = 0 -> rec S x c k = S k.
Proof. intros H. unfold Aug_model.rec. rewrite up_frame by lia. apply upd_out. lia. Qed.

(** Colours do not matter. *)
Lemma set_stat_get t f t' S : set_stat t f = Some t' -> get S t' = get S t.
Proof.
  destruct t as [|l x s r]; cbn [set_stat]; [discriminate|]. intros H.
  apply bind_inv in H as (s' & _ & H). injection H as <-. reflexivity.
Qed.
Lemma set_stat_here t f t' S : set_stat t f = Some t' -> (here S t' <-> here S t) /\ (okch S t' <-> okch S t).
Proof.
  destruct t as [|l x s r]; cbn [set_stat]; [discriminate|]. intros H.
  apply bind_inv in H as (s' & _ & H). injection H as <-. cbn. tauto.
Qed.
Lemma ok_split S t : ok S t <-> here S t /\ okch S t.
Proof. destruct t; cbn; tauto. Qed.
Lemma set_stat_ok t f t' S : set_stat t f = Some t' -> (ok S t' <-> ok S t).
Proof. intros H. apply set_stat_here with (S := S) in H. rewrite !ok_split. tauto. Qed.

Lemma upd_fill_get S f s' x x' b' :
  (forall S, get S x = get S x') -> (forall S, get S (fsib f) = get S b') ->
  upd S (fill f x) = upd S (fill (mkF (fside f) (fid f) s' b') x').
Proof.
  intros H1 H2. unfold fill, mk. cbn [fside fid fst_ fsib].
  destruct (fside f); cbn [Aug_model.upd]; now rewrite H1, H2.
Qed.

Lemma fill_get S f x x' : get S (fill f x) = get S (fill f x').
Proof. unfold fill, mk. destruct (fside f); reflexivity. Qed.

Lemma up_get : forall c S x x', (forall S, get S x = get S x') -> up S x c = up S x' c.
Proof.
  induction c as [|f c IH]; intros S x x' H; cbn [Aug_model.up]; [reflexivity|].
  assert (upd S (fill f x) = upd S (fill f x')) as ->.
  { destruct f as [i id s b]. apply (upd_fill_get S (mkF i id s b) s x x' b H). reflexivity. }
  apply IH. intros S'. apply fill_get.
Qed.

(** ** Rotation *)

Lemma rotate_a_ok dir t S t' S' : rotate_a M dir t S = Some (t', S') ->
  ok S (child t dir) -> okch S (child t (negb dir)) -> uniq t ->
  ok S' t' /\ (forall k, cnt k t = 0 -> S' k = S k) /\ inorder t' = inorder t.
Proof.
  unfold rotate_a. intros H H1 H2 U. apply bind_inv in H as (t2 & Hr & H).
  injection H as <- <-.
  pose proof (rotate_inorder _ _ _ Hr) as Hin.
  assert (forall k, cnt k t2 = cnt k t) as Hc by (intros; apply cnt_eq; exact Hin).
  unfold rotate in Hr. destruct t as [|l x s r]; [discriminate|].
  destruct dir; cbn [child negb] in *.
  - destruct l as [|yl y sy yr]; [discriminate|]. injection Hr as <-. cbn [okch] in H2.
    split; [|split; [|exact Hin]].
    + cbn [child]. apply upd_ok.
      * cbn [okch]. split.
        -- apply upd_ok_other; [|tauto]. intros k. specialize (U k). cnts. lia.
        -- apply upd_ok; [cbn; tauto|]. intros k. specialize (U k). cnts. lia.
      * intros k. rewrite Hc. apply U.
    + intros k Hk. cbn [child]. rewrite !upd_out; [reflexivity| |]; rewrite <- Hc in Hk; cnts; lia.
  - destruct r as [|yl y sy yr]; [discriminate|]. injection Hr as <-. cbn [okch] in H2.
    split; [|split; [|exact Hin]].
    + cbn [child]. apply upd_ok.
      * cbn [okch]. split.
        -- apply upd_ok; [cbn; tauto|]. intros k. specialize (U k). cnts. lia.
        -- apply upd_ok_other; [|tauto]. intros k. specialize (U k). cnts. lia.
      * intros k. rewrite Hc. apply U.
    + intros k Hk. cbn [child]. rewrite !upd_out; [reflexivity| |]; rewrite <- Hc in Hk; cnts; lia.
Qed.

Lemma child_mk i a x s b : child (mk i a x s b) i = a /\ child (mk i a x s b) (negb i) = b.
Proof. destruct i; split; reflexivity. Qed.
Lemma child_mk1 i a x s b : child (mk i a x s b) i = a. Proof. apply child_mk. Qed.
Lemma child_mk2 i a x s b : child (mk i a x s b) (negb i) = b. Proof. apply child_mk. Qed.
Lemma child_mk3 i a x s b : child (mk (negb i) a x s b) i = b.
Proof. destruct i; reflexivity. Qed.

(** ** Insertion *)

Lemma balance_insert_a_ok : forall n c x S t S', length c <= n ->
  balance_insert_a M x c S = Some (t, S') ->
  ok S x -> okc S c -> uniq (plug x c) ->
  ok S' t /\ (forall k, cnt k (plug x c) = 0 -> S' k = S k) /\ (forall k, cnt k t = cnt k (plug x c)).
Proof.
  induction n as [|n IH]; intros c x S t S' Hn H Hx Hc U.
  { destruct c; [|cbn in Hn; lia]. cbn in H. injection H as <- <-. cbn. auto. }
  assert (ok (up S x c) (plug x c) /\ (forall k, cnt k (plug x c) = 0 -> up S x c k = S k) /\
    (forall k, cnt k (plug x c) = cnt k (plug x c))) as Done.
  { split; [apply up_ok; assumption|]. split; [|reflexivity]. intros k Hk. apply up_frame. cnts. lia. }
  destruct c as [|f1 [|f2 c]].
  { cbn in H. injection H as <- <-. exact Done. }
  { cbn [balance_insert_a] in H. injection H as <- <-. exact Done. }
  cbn [balance_insert_a] in H.
  destruct (Nat.odd (fst_ f1)); [|injection H as <- <-; exact Done]. clear Done.
  apply check_inv in H as [_ H].
  apply okc_cons in Hc as [Hf1 Hc]. apply okc_cons in Hc as [Hf2 Hc].
  destruct (red (fsib f2)).
  - apply bind_inv in H as (p & _ & H). apply bind_inv in H as (y' & Hy & H).
    set (pt := fill (mkF (fside f1) (fid f1) p (fsib f1)) x) in *.
    set (qt := fill (mkF (fside f2) (fid f2) (st_set_red (fst_ f2)) y') pt) in *.
    assert (forall k, cnt k y' = cnt k (fsib f2)) as Cy
      by (intros; apply cnt_eq; apply (set_stat_inorder _ _ _ Hy)).
    assert (forall k, cnt k pt = cnt k x + one (fid f1) k + cnt k (fsib f1)) as Cp
      by (intros; unfold pt; cnts; lia).
    assert (forall k, cnt k qt = cnt k pt + one (fid f2) k + cnt k (fsib f2)) as Cq
      by (intros; unfold qt; cnts; rewrite Cy; lia).
    assert (forall k, cnt k (plug qt c) = cnt k (plug x (f1 :: f2 :: c))) as Ca.
    { intros k. rewrite !cnt_plug. cbn [cntc]. rewrite Cq, Cp. lia. }
    apply IH in H.
    + destruct H as (H1 & H2 & H3). split; [exact H1|]. split.
      * intros k Hk. rewrite H2 by (rewrite Ca; exact Hk). rewrite !upd_out; [reflexivity| |];
          rewrite <- Ca in Hk; cnts; rewrite ?Cq in *; lia.
      * intros k. rewrite H3. apply Ca.
    + cbn in Hn. lia.
    + apply upd_ok; [|intros k; specialize (U k); rewrite <- Ca in U; cnts; lia].
      unfold qt, fill. apply okch_mk. cbn [fsib]. split.
      * apply upd_ok; [unfold pt, fill; apply okch_mk; auto|].
        intros k. specialize (U k). rewrite <- Ca in U. cnts. rewrite Cq in U. lia.
      * apply upd_ok_other; [|apply (set_stat_ok _ _ _ _ Hy); exact Hf2].
        intros k. specialize (U k). rewrite <- Ca in U. cnts. rewrite Cy, Cq in *. lia.
    + apply upd_okc; [|apply upd_okc; [|exact Hc]]; intros k; specialize (U k);
        rewrite <- Ca in U; cnts; rewrite ?Cq in *; lia.
    + intros k. rewrite Ca. apply U.
  - apply bind_inv in H as ((p & S1) & Hp & H). apply bind_inv in H as (p' & Hp' & H).
    apply bind_inv in H as (q & _ & H). apply bind_inv in H as ((top & S2) & Ht & H).
    apply check_inv in H as [_ H]. injection H as <- <-.
    assert (forall k, cnt k x + one (fid f1) k + cnt k (fsib f1) + one (fid f2) k +
      cnt k (fsib f2) + cntc k c <= 1) as U'.
    { intros k. specialize (U k). cnts. lia. }
    (* after the optional inner rotation *)
    assert (okch S1 p /\ (forall k, cnt k (fill f1 x) = 0 -> S1 k = S k) /\
      (forall k, cnt k p = cnt k (fill f1 x))) as (Hp1 & Hp2 & Hp3).
    { destruct (Bool.eqb (fside f1) (negb (fside f2))) eqn:Es.
      - apply rotate_a_ok in Hp.
        + destruct Hp as (A & B & C). split; [apply ok_ch; exact A|]. split; [exact B|].
          intros k. apply cnt_eq. exact C.
        + apply Bool.eqb_prop in Es. unfold fill. rewrite Es, child_mk3. exact Hf1.
        + apply Bool.eqb_prop in Es. unfold fill. rewrite Es, child_mk1. apply ok_ch. exact Hx.
        + intros k. specialize (U' k). cnts. lia.
      - injection Hp as <- <-. split; [unfold fill; apply okch_mk; auto|]. auto. }
    assert (forall k, cnt k p' = cnt k p) as Cp' by (intros; apply cnt_eq; apply (set_stat_inorder _ _ _ Hp')).
    assert (okch S1 p') as Hp1' by (apply (set_stat_here _ _ _ S1 Hp'); exact Hp1).
    apply rotate_a_ok in Ht.
    + destruct Ht as (A & B & C).
      assert (forall k, cnt k top = cnt k (fill f1 x) + one (fid f2) k + cnt k (fsib f2)) as Ct.
      { intros k. rewrite (cnt_eq _ _ _ C). unfold fill at 1. cbn [fside fid fst_ fsib].
        rewrite cnt_mk, Cp', Hp3. lia. }
      assert (forall k, cnt k (fill (mkF (fside f2) (fid f2) q (fsib f2)) p') = cnt k top) as Ct'.
      { intros k. symmetry. apply cnt_eq. exact C. }
      split; [|split].
      * apply up_ok; [exact A| |].
        -- apply (okc_ext S); [|exact Hc]. intros k Hk. rewrite B, Hp2; [reflexivity| |];
             specialize (U' k); rewrite ?Ct', ?Ct; cnts; lia.
        -- intros k. rewrite cnt_plug, Ct. specialize (U' k). cnts. lia.
      * intros k Hk. cnts. rewrite up_frame by lia. rewrite B, Hp2; [reflexivity| |]; rewrite ?Ct', ?Ct; cnts; lia.
      * intros k. rewrite cnt_plug, Ct. cnts. lia.
    + unfold fill. cbn [fside fid fst_ fsib]. rewrite child_mk2.
      apply (ok_ext S); [|exact Hf2]. intros k Hk. apply Hp2. specialize (U' k). cnts. lia.
    + unfold fill. cbn [fside fid fst_ fsib]. rewrite negb_involutive, child_mk1. exact Hp1'.
    + intros k. specialize (U' k). rewrite cnt_fill, Cp', Hp3. cnts. lia.
Qed.

Lemma ensure_black_ok t t' S : ensure_black t = Some t' -> (ok S t' <-> ok S t) /\ inorder t' = inorder t.
Proof.
  unfold ensure_black. destruct t as [|l x s r]; [discriminate|].
  destruct (red (N l x s r)); intros H.
  - split; [apply (set_stat_ok _ _ _ _ H)|apply (set_stat_inorder _ _ _ H)].
  - injection H as <-. tauto.
Qed.

Lemma insert_leaf_a_ok node c S t S' : insert_leaf_a M node c S = Some (t, S') ->
  okc S c -> (forall k, one node k + cntc k c <= 1) ->
  ok S' t /\ (forall k, one node k + cntc k c = 0 -> S' k = S k) /\
  (forall k, cnt k t = one node k + cntc k c).
Proof.
  unfold insert_leaf_a. intros H Hc U.
  apply bind_inv in H as ((r & S1) & Hr & H). apply bind_inv in H as (r' & Hb & H).
  apply check_inv in H as [_ H]. injection H as <- <-.
  assert (forall k, cnt k (plug (N E node 1 E) c) = one node k + cntc k c) as Cp by (intros; cnts; lia).
  apply balance_insert_a_ok with (n := length c) in Hr; [|lia| | |].
  - destruct Hr as (A & B & C). apply ensure_black_ok with (S := S1) in Hb as [Hb1 Hb2].
    split; [tauto|]. split.
    + intros k Hk. rewrite B by (rewrite Cp; exact Hk). apply upd_out. cnts. lia.
    + intros k. rewrite (cnt_eq _ _ _ Hb2), C. apply Cp.
  - apply upd_ok; [cbn; tauto|]. intros k. specialize (U k). cnts. lia.
  - apply upd_okc; [|exact Hc]. intros k. specialize (U k). cnts. lia.
  - intros k. rewrite Cp. apply U.
Qed.

Lemma frame_of_plug t i f c : frame_of t i = Some f ->
  t = fill f (child t i) /\ plug (child t i) (f :: c) = plug t c.
Proof.
  destruct t as [|l x s r]; cbn [frame_of]; [discriminate|]. intros H. injection H as <-.
  destruct i; cbn; auto.
Qed.

Lemma frame_E S t i f c : frame_of t i = Some f -> child t i = E ->
  ok S (plug t c) -> okc S (f :: c) /\ (forall k, cntc k (f :: c) = cnt k (plug t c)).
Proof.
  intros Hf HE Ho. apply frame_of_plug with (c := c) in Hf as [_ Hf]. rewrite HE in Hf.
  rewrite <- Hf in *. split; [apply (ok_plug S (f :: c) E Ho)|].
  intros k. rewrite cnt_plug, cnt_E. reflexivity.
Qed.

Lemma climb_plug dir : forall c t z, climb t c dir = Some z -> plug (fst z) (snd z) = plug t c.
Proof.
  induction c as [|f c IH]; intros t z H; cbn [climb] in H; [discriminate|].
  destruct (Bool.eqb _ _); [apply IH in H; exact H|]. injection H as <-. reflexivity.
Qed.
Lemma step_plug z dir z' : step z dir = Some z' -> plug (fst z') (snd z') = plug (fst z) (snd z).
Proof.
  destruct z as [t c]. unfold step. destruct (frame_of t (negb dir)) as [f|] eqn:Ef; [|discriminate].
  intros H. cbn [fst snd]. apply frame_of_plug with (c := c) in Ef as [_ Ef].
  destruct (child t (negb dir)) eqn:Ec.
  - apply climb_plug in H. exact H.
  - apply start_at in H as [H _]. rewrite H. exact Ef.
Qed.

Lemma insert_ref_a_ok node p i t S t' S' :
  (match p with None => True | Some z => plug (fst z) (snd z) = t end) ->
  insert_ref_a M node p i t S = Some (t', S') ->
  ok S t -> (forall k, one node k + cnt k t <= 1) -> (t = E -> S node = M node) ->
  ok S' t' /\ (forall k, cnt k t' = 0 -> S' k = S k) /\
  (forall k, cnt k t' = one node k + cnt k t).
Proof.
  unfold insert_ref_a. intros Hp H Ho U H0.
  set (q := match p with None => (start t [] (negb i), negb i) | Some _ => (p, i) end) in H.
  assert (match fst q with None => t = E | Some z => plug (fst z) (snd z) = t end) as Hq.
  { unfold q. destruct p as [z|]; [exact Hp|]. cbn [fst].
    destruct (start t [] (negb i)) as [z|] eqn:Es.
    - apply start_at in Es as [Es _]. exact Es.
    - destruct t as [|l x s r]; [reflexivity|].
      destruct (start_spec (N l x s r) [] (negb i)) as (? & ? & E1 & _); [discriminate|congruence]. }
  clearbody q. destruct q as [p' i']. cbn [fst] in Hq.
  assert (forall f c, okc S (f :: c) -> (forall k, cntc k (f :: c) = cnt k t) ->
    insert_leaf_a M node (f :: c) S = Some (t', S') ->
    ok S' t' /\ (forall k, cnt k t' = 0 -> S' k = S k) /\ (forall k, cnt k t' = one node k + cnt k t)) as Leaf.
  { intros f c Hc Cc HL. apply insert_leaf_a_ok in HL as (A & B & C); [|exact Hc|intros k; rewrite Cc; apply U].
    assert (forall k, cnt k t' = one node k + cnt k t) as D by (intros; rewrite C, Cc; reflexivity).
    split; [exact A|]. split; [|exact D]. intros k Hk. apply B. rewrite Cc, <- D. exact Hk. }
  destruct p' as [[u c]|].
  - cbn [fst snd] in Hq. destruct (child u i') eqn:Ec.
    + apply bind_inv in H as (f & Hf & H). rewrite <- Hq in Ho.
      destruct (frame_E S u i' f c Hf Ec Ho) as [Hc Cc]. apply (Leaf f c Hc); [|exact H].
      intros k. rewrite Cc, Hq. reflexivity.
    + destruct (step (u, c) (negb i')) as [[u' c']|] eqn:Es; [|discriminate].
      apply step_plug in Es. cbn [fst snd] in Es. rewrite Hq in Es.
      apply bind_inv in H as (f & Hf & H).
      destruct (child u' (negb i')) eqn:Ec'; [|discriminate]. rewrite <- Es in Ho.
      destruct (frame_E S u' (negb i') f c' Hf Ec' Ho) as [Hc Cc]. apply (Leaf f c' Hc); [|exact H].
      intros k. rewrite Cc, Es. reflexivity.
  - subst t. apply check_inv in H as [_ H]. injection H as <- <-.
    split; [|split].
    + cbn. rewrite !N.lxor_0_r. split; [auto|tauto].
    + reflexivity.
    + intros k. cnts. lia.
Qed.

End Member.
