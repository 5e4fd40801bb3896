(** Sums in the trees: exchange of two nodes; the same shapes as without
    callbacks; whole executions. *)
From Coq Require Import List Bool Arith NArith ZArith Lia Permutation.
From Verif Require Import Dict_model Dict_spec Dict_proofs Dict_proofs2 Dict_proofs3 Aug_model Aug_spec
  Aug_proofs Aug_proofs2 Aug_proofs3.
Import ListNotations.

Section Member.
Variable M : nat -> BinNums.N.

Notation upd := (Aug_model.upd M).
Notation up := (Aug_model.up M).
Notation rec := (Aug_model.rec M).
Notation ok := (Aug_proofs.ok M).
Notation here := (Aug_proofs.here M).
Notation get := Aug_model.get.

(** ** Exchange of two nodes *)

(** The equation holds at those subtrees that have a property. *)
Fixpoint satp (P : tree -> Prop) (S : sums) (t : tree) : Prop :=
  match t with
  | E => True
  | N l x s r => (P t -> here S t) /\ satp P S l /\ satp P S r
  end.

Lemma satp_ext P S S' t : (forall k, cnt k t > 0 -> S' k = S k) -> satp P S t -> satp P S' t.
Proof.
  induction t as [|l IHl x s r IHr]; cbn [satp]; [trivial|]. intros H (H1 & H2 & H3).
  assert (forall k, cnt k l > 0 -> S' k = S k) as Hl by (intros; apply H; rewrite cnt_N; lia).
  assert (forall k, cnt k r > 0 -> S' k = S k) as Hr by (intros; apply H; rewrite cnt_N; lia).
  split; [|auto]. intros HP. specialize (H1 HP). cbn [Aug_proofs.here] in *.
  rewrite (get_ext S S' l Hl), (get_ext S S' r Hr), <- H1. apply H. rewrite cnt_N, one_same. lia.
Qed.

Lemma satp_mono (P Q : tree -> Prop) S a t : cnt a t = 0 -> (forall u, cnt a u = 0 -> Q u -> P u) ->
  satp P S t -> satp Q S t.
Proof.
  intros Ha HPQ. induction t as [|l IHl x s r IHr]; cbn [satp]; [trivial|].
  rewrite cnt_N in Ha. intros (H1 & H2 & H3).
  split; [|split; [apply IHl; [lia|exact H2]|apply IHr; [lia|exact H3]]].
  intros HQ. apply H1. apply HPQ; [rewrite cnt_N; lia|exact HQ].
Qed.

Lemma satp_mk P S i a x s b : satp P S (mk i a x s b) <->
  (P (mk i a x s b) -> here S (mk i a x s b)) /\ satp P S a /\ satp P S b.
Proof. unfold mk. destruct i; cbn [satp]; tauto. Qed.

Lemma satp_plug P S : forall c t, satp P S (plug t c) -> satp P S t /\ Forall (fun f => satp P S (fsib f)) c.
Proof.
  induction c as [|f c IH]; intros t H; cbn [plug] in *; [split; [exact H|constructor]|].
  apply IH in H as [H1 H2]. unfold fill in H1. apply satp_mk in H1 as (_ & Ha & Hb).
  split; [exact Ha|]. constructor; assumption.
Qed.

Lemma upd_here S t : uniq t -> here (upd S t) t.
Proof.
  destruct t as [|l x s r]; cbn [Aug_proofs.here]; [trivial|]. intros U.
  assert (cnt x l = 0 /\ cnt x r = 0) as [Cl Cr]. { specialize (U x). cnts. lia. }
  assert (forall t, cnt x t = 0 -> forall k, cnt k t > 0 -> upd S (N l x s r) k = S k) as Fr.
  { intros t Ht k Hk. apply upd_frame. apply one_diff. intros ->. lia. }
  rewrite (get_ext _ _ _ (Fr l Cl)), (get_ext _ _ _ (Fr r Cr)).
  cbn [Aug_model.upd]. apply put_same.
Qed.

Definition orin (P : tree -> Prop) (a : nat) (u : tree) : Prop := P u \/ cnt a u > 0.

Lemma up_sat P a : forall c S x, cnt a x > 0 -> uniq (plug x c) -> satp (orin P a) S x ->
  Forall (fun f => satp P S (fsib f)) c -> satp (orin P a) (up S x c) (plug x c).
Proof.
  induction c as [|f c IH]; intros S x Ha U Hx Hc; cbn [Aug_model.up plug]; [exact Hx|].
  inversion Hc as [|? ? Hf Hc']; subst.
  assert (forall k, cnt k x + one (fid f) k + cnt k (fsib f) + cntc k c <= 1) as U'
    by (intros k; specialize (U k); cnts; lia).
  apply IH.
  - rewrite cnt_fill. lia.
  - exact U.
  - unfold fill at 2. apply satp_mk. split; [|split].
    + intros _. apply upd_here. intros k. specialize (U' k). cnts. lia.
    + apply (satp_ext _ S); [|exact Hx]. intros k Hk. apply upd_fill_frame. specialize (U' k). lia.
    + apply (satp_ext _ S); [intros k Hk; apply upd_fill_frame; specialize (U' k); lia|].
      apply (satp_mono P _ S a); [specialize (U' a); lia| |exact Hf].
      unfold orin. intros u Hu [|]; [assumption|lia].
  - apply Forall_forall. intros g Hg. rewrite Forall_forall in Hc'.
    apply (satp_ext _ S); [|apply Hc'; exact Hg]. intros k Hk. apply upd_fill_frame.
    assert (forall c, In g c -> cnt k (fsib g) <= cntc k c) as Le.
    { clear. induction c as [|h c IH]; [easy|]. cbn [cntc]. intros [->|H]; [lia|]. apply IH in H. lia. }
    apply Le in Hg. specialize (U' k). lia.
Qed.

Lemma rec_sat P a c S l s r : uniq (plug (N l a s r) c) -> satp P S (plug (N l a s r) c) ->
  satp (orin P a) (rec S (N l a s r) c) (plug (N l a s r) c).
Proof.
  intros U H. apply satp_plug in H as [Hx Hc]. unfold Aug_model.rec.
  assert (forall k, cnt k l + one a k + cnt k r + cntc k c <= 1) as U'
    by (intros k; specialize (U k); cnts; lia).
  cbn [satp] in Hx. destruct Hx as (_ & Hl & Hr).
  assert (forall u, (forall k, one a k + cnt k u <= 1) -> satp P S u -> satp P (upd S (N l a s r)) u) as Oth.
  { intros u Hu. apply satp_ext. intros k Hk. apply upd_frame. specialize (Hu k). lia. }
  assert (forall u, (forall k, one a k + cnt k u <= 1) -> satp P S u -> satp (orin P a) (upd S (N l a s r)) u) as Oth2.
  { intros u Hu H. apply (satp_mono P _ _ a); [specialize (Hu a); rewrite one_same in Hu; lia| |apply Oth; assumption].
    unfold orin. intros v Hv [|]; [assumption|lia]. }
  apply up_sat; [rewrite cnt_N, one_same; lia|exact U| |].
  - cbn [satp]. split; [|split].
    + intros _. apply upd_here. intros k. specialize (U' k). cnts. lia.
    + apply Oth2; [intros k; specialize (U' k); lia|exact Hl].
    + apply Oth2; [intros k; specialize (U' k); lia|exact Hr].
  - apply Forall_forall. intros g Hg. rewrite Forall_forall in Hc.
    apply Oth; [|apply Hc; exact Hg]. intros k.
    assert (forall c, In g c -> cnt k (fsib g) <= cntc k c) as Le.
    { clear. induction c as [|h c IH]; [easy|]. cbn [cntc]. intros [->|H]; [lia|]. apply IH in H. lia. }
    apply Le in Hg. specialize (U' k). lia.
Qed.

Lemma sw_invol a b x : sw a b (sw a b x) = x.
Proof.
  unfold sw. destruct (x =? a) eqn:E1; [apply Nat.eqb_eq in E1; subst|].
  - destruct (b =? a) eqn:E2; [apply Nat.eqb_eq in E2; auto|]. now rewrite Nat.eqb_refl.
  - destruct (x =? b) eqn:E2; [apply Nat.eqb_eq in E2; subst; now rewrite Nat.eqb_refl|]. now rewrite E1, E2.
Qed.

Lemma swap_inorder a b t : inorder (swap_nodes a b t) = map (sw a b) (inorder t).
Proof.
  induction t as [|l IHl x s r IHr]; cbn [swap_nodes inorder]; [reflexivity|].
  rewrite IHl, IHr, map_app. reflexivity.
Qed.

Lemma one_sw a b x k : one (sw a b x) k = one x (sw a b k).
Proof.
  unfold one. destruct (Nat.eq_dec (sw a b x) k) as [<-|H1]; destruct (Nat.eq_dec x _) as [H2|H2]; try reflexivity.
  - rewrite sw_invol in H2. congruence.
  - subst x. rewrite sw_invol in H1. congruence.
Qed.
Lemma swap_cnt a b k t : cnt k (swap_nodes a b t) = cnt (sw a b k) t.
Proof.
  induction t as [|l IHl x s r IHr]; cbn [swap_nodes]; [reflexivity|].
  rewrite !cnt_N, IHl, IHr, one_sw. reflexivity.
Qed.
Lemma swap_none a b t : cnt a t = 0 -> cnt b t = 0 -> swap_nodes a b t = t.
Proof.
  induction t as [|l IHl x s r IHr]; cbn [swap_nodes]; [reflexivity|]. rewrite !cnt_N. intros Ha Hb.
  rewrite IHl, IHr by lia. f_equal. unfold sw.
  assert (x <> a /\ x <> b) as [H1 H2] by (split; apply one_zero; lia).
  apply Nat.eqb_neq in H1, H2. now rewrite H1, H2.
Qed.

(** Subtrees with neither of the nodes are not changed. *)
Lemma swap_sat a b S t : ok S t ->
  satp (fun u => cnt a u = 0 /\ cnt b u = 0) S (swap_nodes a b t).
Proof.
  induction t as [|l IHl x s r IHr]; cbn [swap_nodes satp Aug_proofs.ok]; [trivial|].
  intros (H1 & H2 & H3). split; [|auto]. intros [Ha Hb].
  change (N (swap_nodes a b l) (sw a b x) s (swap_nodes a b r)) with (swap_nodes a b (N l x s r)) in *.
  rewrite swap_cnt in Ha, Hb. rewrite swap_none; [exact H1| |].
  - unfold sw in Hb. rewrite Nat.eqb_refl in Hb. destruct (b =? a) eqn:E; [|exact Hb].
    apply Nat.eqb_eq in E. subst. exact Hb.
  - unfold sw in Ha. rewrite Nat.eqb_refl in Ha. exact Ha.
Qed.

Lemma locate_spec a : forall t c z, locate a t c = Some z ->
  plug (fst z) (snd z) = plug t c /\ (exists l s r, fst z = N l a s r) /\ cnt a t > 0.
Proof.
  induction t as [|l IHl x s r IHr]; intros c z H; cbn [locate] in H; [discriminate|].
  rewrite cnt_N. destruct (x =? a) eqn:E.
  - apply Nat.eqb_eq in E. subst. injection H as <-. cbn. rewrite one_same.
    split; [reflexivity|]. split; [eauto|lia].
  - destruct (locate a l _) as [z'|] eqn:E1.
    + injection H as <-. apply IHl in E1 as (A & B & C). split; [exact A|]. split; [exact B|lia].
    + apply IHr in H as (A & B & C). split; [exact A|]. split; [exact B|lia].
Qed.

Lemma satp_all S t : satp (fun _ => True) S t -> ok S t.
Proof. induction t; cbn [satp Aug_proofs.ok]; tauto. Qed.
Lemma satp_true (P : tree -> Prop) S t : (forall u, P u) -> satp P S t -> ok S t.
Proof.
  intros HP. induction t as [|l IHl x s r IHr]; cbn [satp Aug_proofs.ok]; [trivial|].
  intros (H1 & H2 & H3). auto.
Qed.

Lemma edge_swap_ok a b t S t' S' : edge_swap M a b t S = Some (t', S') -> ok S t -> uniq t ->
  ok S' t' /\ (forall k, cnt k t = 0 -> S' k = S k) /\ (forall k, cnt k t' = cnt k t) /\
  t' = swap_nodes a b t /\ a <> b /\ cnt a t > 0 /\ cnt b t > 0.
Proof.
  unfold edge_swap. intros H Ho U. apply check_inv in H as [Hab H].
  apply negb_true_iff, Nat.eqb_neq in Hab.
  apply bind_inv in H as ((ua & ca) & Hza & H). apply bind_inv in H as ((ub & cb) & Hzb & H).
  injection H as <- <-. cbn [fst snd].
  apply locate_spec in Hza as (Pa & (la & sa & ra & Ea) & Ca).
  apply locate_spec in Hzb as (Pb & (lb & sb & rb & Eb) & Cb). cbn [fst snd plug] in *. subst ua ub.
  rewrite swap_cnt in Ca, Cb.
  assert (sw a b a = b /\ sw a b b = a) as [Sa Sb].
  { unfold sw. rewrite !Nat.eqb_refl. split; [reflexivity|].
    destruct (b =? a) eqn:E; [apply Nat.eqb_eq in E; congruence|reflexivity]. }
  rewrite Sa in Ca. rewrite Sb in Cb.
  assert (forall k, cnt k (swap_nodes a b t) = cnt k t) as Cs.
  { intros k. rewrite swap_cnt. unfold sw.
    destruct (k =? a) eqn:E1; [apply Nat.eqb_eq in E1; subst|].
    - pose proof (U a). pose proof (U b). lia.
    - destruct (k =? b) eqn:E2; [apply Nat.eqb_eq in E2; subst|reflexivity].
      pose proof (U a). pose proof (U b). lia. }
  assert (uniq (swap_nodes a b t)) as Us by (intros k; rewrite Cs; apply U).
  split; [|split; [|split; [exact Cs|auto]]].
  - pose proof (swap_sat a b S t Ho) as H0.
    rewrite <- Pa in H0. apply rec_sat in H0; [|rewrite Pa; exact Us].
    rewrite Pa, <- Pb in H0. apply rec_sat in H0; [|rewrite Pb; exact Us]. rewrite Pb in H0.
    eapply satp_true; [|exact H0]. intros u. unfold orin. lia.
  - intros k Hk. rewrite !rec_frame; [reflexivity| |].
    + rewrite <- cnt_plug, Pa, Cs. exact Hk.
    + rewrite <- cnt_plug, Pb, Cs. exact Hk.
Qed.

(** ** The same trees as without callbacks *)

Definition er (o : option (tree * sums)) : option tree := option_map fst o.
Lemma er_bind {A} (o : option A) f : er (bind o f) = bind o (fun a => er (f a)).
Proof. destruct o; reflexivity. Qed.
Lemma er_bind2 (o : option (tree * sums)) (f : tree -> option tree) g :
  (forall t S, er (g (t, S)) = f t) -> er (bind o g) = bind (er o) f.
Proof. intros H. destruct o as [[t S]|]; [apply H|reflexivity]. Qed.
Lemma er_bind3 (o : option (tree * sums)) o' (f : tree -> option tree) g :
  er o = o' -> (forall t S, er (g (t, S)) = f t) -> er (bind o g) = bind o' f.
Proof. intros <-. apply er_bind2. Qed.
Lemma er_check c k : er (check c k) = check c (er k).
Proof. destruct c; reflexivity. Qed.
Lemma er_if (c : bool) a b : er (if c then a else b) = if c then er a else er b.
Proof. destruct c; reflexivity. Qed.
Lemma bind_ext {A B} (o : option A) (f g : A -> option B) : (forall a, f a = g a) -> bind o f = bind o g.
Proof. intros H. destruct o; [apply H|reflexivity]. Qed.

Lemma rotate_er dir t S : er (rotate_a M dir t S) = rotate dir t.
Proof. unfold rotate_a. destruct (rotate dir t); reflexivity. Qed.

Lemma balance_insert_er : forall n c x S, length c <= n ->
  er (balance_insert_a M x c S) = balance_insert x c.
Proof.
  induction n as [|n IH]; intros c x S Hn; [destruct c; [reflexivity|cbn in Hn; lia]|].
  destruct c as [|f1 [|f2 c]]; [reflexivity|reflexivity|].
  cbn [balance_insert_a balance_insert]. rewrite er_if. destruct (Nat.odd (fst_ f1)); [|reflexivity].
  rewrite er_check. f_equal. rewrite er_if. destruct (red (fsib f2)).
  - rewrite er_bind. apply bind_ext. intros p. rewrite er_bind. apply bind_ext. intros y'.
    apply IH. cbn in Hn. lia.
  - erewrite er_bind2.
    + rewrite er_if, rotate_er. reflexivity.
    + intros t T. rewrite er_bind. apply bind_ext. intros p'. rewrite er_bind. apply bind_ext. intros q.
      erewrite er_bind2; [rewrite rotate_er; reflexivity|]. intros t2 T2. rewrite er_check. reflexivity.
Qed.

Lemma insert_leaf_er node c S : er (insert_leaf_a M node c S) = insert_leaf node c.
Proof.
  unfold insert_leaf_a, insert_leaf. erewrite er_bind2; [erewrite balance_insert_er by reflexivity; reflexivity|].
  intros t T. rewrite er_bind. apply bind_ext. intros r'. rewrite er_check. reflexivity.
Qed.

Lemma insert_ref_er node p i t S : er (insert_ref_a M node p i t S) = insert_ref node p i t.
Proof.
  unfold insert_ref_a, insert_ref.
  set (q := match p with None => (start t [] (negb i), negb i) | Some _ => (p, i) end).
  destruct q as [[[u c]|] i']; [|rewrite er_check; reflexivity].
  destruct (child u i'); [rewrite er_bind; apply bind_ext; intros; apply insert_leaf_er|].
  destruct (step (u, c) (negb i')) as [[u' c']|]; [|reflexivity].
  rewrite er_bind. apply bind_ext. intros f. destruct (child u' (negb i')); [apply insert_leaf_er|reflexivity].
Qed.

Lemma balance_black_er next next' i x f c S :
  (forall x c S, er (next x c S) = next' x c) ->
  er (balance_black_a M next i x f c S) = balance_black next' i x f c.
Proof.
  intros Hn. unfold balance_black_a, balance_black. destruct (fsib f) as [|wl wx ws wr]; [apply Hn|].
  rewrite er_check. f_equal. rewrite er_if. destruct (negb _ && negb _).
  - rewrite er_bind. apply bind_ext. intros w'. rewrite er_bind. apply bind_ext. intros p.
    rewrite er_check. f_equal. apply Hn.
  - apply er_bind3.
    + rewrite er_if. destruct (negb (red _)); [|reflexivity].
      rewrite er_bind. apply bind_ext. intros r. rewrite er_bind. apply bind_ext. intros ws'.
      erewrite er_bind2; [rewrite rotate_er; reflexivity|]. intros t T. rewrite er_check. reflexivity.
    + intros w T. destruct w as [|wl' wx' ws'' wr']; [reflexivity|].
      rewrite er_bind. apply bind_ext. intros [ws3 ps]. rewrite er_bind. apply bind_ext. intros q.
      erewrite er_bind2; [rewrite rotate_er; reflexivity|]. intros t2 T2. rewrite er_check. reflexivity.
Qed.

Lemma balance_remove_er : forall fuel x c S, er (balance_remove_a M fuel x c S) = balance_remove fuel x c.
Proof.
  induction fuel as [|fuel IH]; intros x c S; cbn [balance_remove_a balance_remove]; [reflexivity|].
  rewrite er_if. destruct (red x); [rewrite er_bind; reflexivity|].
  destruct c as [|f c]; [reflexivity|]. rewrite er_check. f_equal. rewrite er_if.
  destruct (red (fsib f)); [|apply balance_black_er; exact IH].
  rewrite er_bind. apply bind_ext. intros w. rewrite er_bind. apply bind_ext. intros p.
  destruct w; [reflexivity|]. apply balance_black_er. exact IH.
Qed.

Lemma remove_er z S : er (remove_a M z S) = remove z.
Proof.
  destruct z as [t c]. unfold remove_a, remove. rewrite er_bind. apply bind_ext. intros [[x c'] b].
  unfold remove_rest. destruct c' as [|f c']; [rewrite er_check; reflexivity|].
  erewrite er_bind2; [rewrite er_if, balance_remove_er; reflexivity|].
  intros t0 T. rewrite er_check. reflexivity.
Qed.

Lemma join_balance_er i : forall n c x S, length c <= n ->
  er (join_balance_a M i x c S) = join_balance i x c.
Proof.
  induction n as [|n IH]; intros c x S Hn; [destruct c; [reflexivity|cbn in Hn; lia]|].
  destruct c as [|p [|p2 c]]; [reflexivity|cbn [join_balance_a join_balance]; rewrite er_bind; reflexivity|].
  cbn [join_balance_a join_balance]. rewrite er_if. destruct (_ && red x); [|rewrite er_bind; reflexivity].
  rewrite er_check. f_equal. rewrite er_bind. apply bind_ext. intros x'.
  erewrite er_bind2; [rewrite rotate_er; reflexivity|]. intros t T.
  destruct c as [|p3 c]; [rewrite er_bind; destruct (inc_set_black_if_needed t); reflexivity|].
  apply IH. cbn in Hn |- *. lia.
Qed.

Lemma join3_er l m r S : er (join3_a M l m r S) = join3 l m r.
Proof.
  unfold join3_a, join3. rewrite er_bind. apply bind_ext. intros b.
  rewrite er_if. destruct (_ =? _).
  - rewrite er_bind. apply bind_ext. intros t. rewrite er_check. reflexivity.
  - rewrite !er_check. f_equal. f_equal. destruct (frame_of _ _) as [f|]; [|reflexivity].
    destruct (join_find _ _ _ _) as [u path]. rewrite er_check. f_equal.
    erewrite er_bind2; [erewrite join_balance_er by reflexivity; reflexivity|].
    intros t T. rewrite er_check. reflexivity.
Qed.

Lemma join2_er l r S : er (join2_a M l r S) = join2 l r.
Proof.
  unfold join2_a, join2. destruct l as [|ll lx ls lr]; [reflexivity|]. destruct r as [|rl rx rs rr]; [reflexivity|].
  unfold extract_start_a, extract_start. destruct (start _ [] false) as [z|]; [|reflexivity].
  pose proof (remove_er z S) as H.
  destruct (remove_a M z S) as [[t T]|]; cbn in H; rewrite <- H; [|reflexivity].
  cbn [bind]. destruct (zid (Some z)); [|reflexivity]. apply join3_er.
Qed.

Lemma split_er cmp back : forall n S,
  option_map fst (split_a M cmp back n S) = split cmp back n.
Proof.
  induction n as [|nl IHl x s nr IHr]; intros S; cbn [split_a split]; [reflexivity|].
  destruct (_ <=? _)%Z.
  - specialize (IHr (put S x (M x))).
    destruct (split_a M cmp back nr _) as [[[nm r] S1]|]; cbn in IHr; rewrite <- IHr; [|reflexivity].
    cbn [bind]. pose proof (join3_er nl x nm S1) as H.
    destruct (join3_a M nl x nm S1) as [[t T]|]; cbn in H; rewrite <- H; reflexivity.
  - specialize (IHl (put S x (M x))).
    destruct (split_a M cmp back nl _) as [[[l nm] S1]|]; cbn in IHl; rewrite <- IHl; [|reflexivity].
    cbn [bind]. pose proof (join3_er nm x nr S1) as H.
    destruct (join3_a M nm x nr S1) as [[t T]|]; cbn in H; rewrite <- H; reflexivity.
Qed.

(** ** Executions *)

Definition ecnt (k : nat) (ts : list tree) : nat := count_occ Nat.eq_dec (edges ts) k.
Lemma ecnt_cons k t ts : ecnt k (t :: ts) = cnt k t + ecnt k ts.
Proof. unfold ecnt, edges. cbn [flat_map]. rewrite count_occ_app. reflexivity. Qed.
Lemma ecnt_In k ts : ~ In k (edges ts) <-> ecnt k ts = 0.
Proof. apply count_occ_not_In. Qed.
Lemma ecnt_perm k ts ts' : Permutation ts ts' -> ecnt k ts = ecnt k ts'.
Proof. induction 1; rewrite ?ecnt_cons; lia. Qed.

Definition inv (s : bstate) : Prop :=
  (forall k, ecnt k (fst s) <= 1) /\ Forall (ok (snd s)) (fst s).

Lemma cnt_ecnt k t ts : In t ts -> cnt k t <= ecnt k ts.
Proof. induction ts as [|u ts IH]; [easy|]. rewrite ecnt_cons. intros [->|H]; [lia|]. apply IH in H. lia. Qed.

Lemma others S S' ts : (forall k, ecnt k ts > 0 -> S' k = S k) -> Forall (ok S) ts -> Forall (ok S') ts.
Proof.
  intros H H1. rewrite Forall_forall in *. intros t Ht. apply (ok_ext M S); [|apply H1; exact Ht].
  intros k Hk. apply H. pose proof (cnt_ecnt k t ts Ht). lia.
Qed.

(** [find] ends at a position of the tree. *)
Lemma find_ref_plug cmp dup : forall n c p i pa e r, find_ref cmp dup n c p i pa e = r ->
  match p with None => True | Some z => plug (fst z) (snd z) = plug n c end ->
  match r_parent r with None => True | Some z => plug (fst z) (snd z) = plug n c end.
Proof.
  induction n as [|l IHl x s rr IHr]; intros c p i pa e r H Hp; cbn [find_ref] in H.
  { subst r. exact Hp. }
  destruct (_ =? 0)%Z; destruct (_ =? 0)%Z; try (subst r; exact Hp);
    (destruct (0 <? _)%Z; [apply IHr in H; [exact H|reflexivity]|apply IHl in H; [exact H|reflexivity]]).
Qed.

Lemma edge_insert_ok cmp e t S t' S' : edge_insert M cmp e t S = Some (t', S') ->
  ok S t -> (forall k, one e k + cnt k t <= 1) -> (t = E -> S e = M e) ->
  ok S' t' /\ (forall k, cnt k t' = 0 -> S' k = S k) /\ (forall k, cnt k t' = one e k + cnt k t).
Proof.
  unfold edge_insert. intros H Ho U H0. destruct (r_node (find cmp 0 t)); [discriminate|].
  apply insert_ref_a_ok in H; [exact H| |exact Ho|exact U|exact H0].
  unfold find. pose proof (find_ref_plug cmp 0 t [] (match t with E => None | _ => Some (t, []) end) true 0 None
    _ eq_refl) as P. apply P. destruct t; [trivial|reflexivity].
Qed.

Lemma bstep_inv s s' : bstep M s s' -> inv s -> inv s'.
Proof.
  intros H. destruct H as [ts ts' S H|ts S|ts S|ts S e H|ts t cmp e S t' S' H H0 H1|ts t e S t' S' H
    |ts t cmp back S l r S' H|ts l r S t S' H|ts t a b S t' S' H]; unfold inv; cbn [fst snd]; intros [U Ho].
  - split; [|apply (Permutation_Forall H Ho)].
    intros k. rewrite <- (ecnt_perm k _ _ H). apply U.
  - split; [|constructor; [exact I|exact Ho]]. intros k. rewrite ecnt_cons. apply U.
  - inversion Ho; subst. split; [|assumption]. intros k. specialize (U k). rewrite ecnt_cons in U. lia.
  - split; [exact U|]. apply (others S); [|exact Ho]. intros k Hk. apply put_diff. intros ->.
    apply ecnt_In in H. lia.
  - inversion Ho as [|? ? Ht Hts]; subst. apply ecnt_In in H. rewrite ecnt_cons in H.
    assert (forall k, cnt k t + ecnt k ts <= 1) as U' by (intros k; specialize (U k); rewrite ecnt_cons in U; exact U).
    assert (forall k, one e k + cnt k t + ecnt k ts <= 1) as U2.
    { intros k. unfold one. destruct (Nat.eq_dec e k) as [<-|]; [lia|apply U']. }
    apply edge_insert_ok in H1 as (A & B & C); [|exact Ht|intros k; specialize (U2 k); lia|exact H0].
    split.
    + intros k. rewrite ecnt_cons, C. specialize (U2 k). lia.
    + constructor; [exact A|]. apply (others S); [|exact Hts]. intros k Hk. apply B. rewrite C.
      specialize (U2 k). lia.
  - inversion Ho as [|? ? Ht Hts]; subst.
    assert (forall k, cnt k t + ecnt k ts <= 1) as U' by (intros k; specialize (U k); rewrite ecnt_cons in U; exact U).
    unfold edge_remove in H. apply bind_inv in H as ((u & c) & Hz & H).
    apply locate_spec in Hz as (P & _). cbn [fst snd plug] in P. subst t.
    apply remove_a_ok in H as (A & B & l & y & s & r & _ & C); [|exact Ht|intros k; specialize (U' k); lia].
    split.
    + intros k. rewrite ecnt_cons. specialize (U' k). rewrite C in U'. lia.
    + constructor; [exact A|]. apply (others S); [|exact Hts]. intros k Hk. apply B. specialize (U' k). lia.
  - inversion Ho as [|? ? Ht Hts]; subst.
    assert (forall k, cnt k t + ecnt k ts <= 1) as U' by (intros k; specialize (U k); rewrite ecnt_cons in U; exact U).
    apply split_a_ok in H as (A & B & C & D); [|exact Ht|intros k; specialize (U' k); lia].
    split.
    + intros k. rewrite !ecnt_cons. specialize (U' k). rewrite D in U'. lia.
    + constructor; [exact A|]. constructor; [exact B|]. apply (others S); [|exact Hts].
      intros k Hk. apply C. specialize (U' k). lia.
  - inversion Ho as [|? ? Hl Hts]; subst. inversion Hts as [|? ? Hr Hts']; subst.
    assert (forall k, cnt k l + cnt k r + ecnt k ts <= 1) as U'
      by (intros k; specialize (U k); rewrite !ecnt_cons in U; lia).
    apply join2_a_ok in H as (A & B & C); [|exact Hl|exact Hr|intros k; specialize (U' k); lia].
    split.
    + intros k. rewrite !ecnt_cons, C. specialize (U' k). lia.
    + constructor; [exact A|]. apply (others S); [|exact Hts'].
      intros k Hk. apply B. rewrite C. specialize (U' k). lia.
  - inversion Ho as [|? ? Ht Hts]; subst.
    assert (forall k, cnt k t + ecnt k ts <= 1) as U' by (intros k; specialize (U k); rewrite ecnt_cons in U; exact U).
    apply edge_swap_ok in H as (A & B & C & _); [|exact Ht|intros k; specialize (U' k); lia].
    split.
    + intros k. rewrite !ecnt_cons, C. apply U'.
    + constructor; [exact A|]. apply (others S); [|exact Hts].
      intros k Hk. apply B. specialize (U' k). lia.
Qed.

Lemma brun_inv s s' : brun M s s' -> inv s -> inv s'.
Proof. induction 1; [auto|]. intros Hi. eapply bstep_inv; eauto. Qed.

Lemma inv_start S : inv ([], S).
Proof. split; [intros k; cbn; lia|constructor]. Qed.

End Member.
