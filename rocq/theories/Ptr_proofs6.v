(** Unlinking a node on the heap. *)
From Coq Require Import List Bool Arith Lia.
From Verif Require Import Dict_model Dict_spec Dict_proofs Ptr_model Ptr_spec Ptr_proofs Ptr_proofs2 Ptr_proofs3 Ptr_proofs4 Ptr_proofs5.
Import ListNotations.

(** The root of a subtree gets another parent and possibly becomes red. *)
Definition redden (h : heap) (b : tree) (s : nat) : heap :=
  match b with
  | E => h
  | N _ y _ _ => if Nat.odd s then set_st h y (st_set_red (st (h y))) else h
  end.

Lemma redden_at h b s z : redden h b s z =
  if peq (root_of b) (Some z) then (if Nat.odd s then with_st (h z) (st_set_red (st (h z))) else h z) else h z.
Proof.
  destruct b as [|l y t r]; cbn; [reflexivity|].
  destruct (Nat.odd s).
  - rewrite set_st_at, (Nat.eqb_sym y z). destruct (Nat.eqb_spec z y); subst; reflexivity.
  - now destruct (y =? z).
Qed.

Lemma collapse_root s b : root_of (collapse s b) = root_of b.
Proof. destruct b; reflexivity. Qed.
Lemma collapse_cnt s b z : cnt z (collapse s b) = cnt z b.
Proof. destruct b; reflexivity. Qed.

Lemma rep_collapse h h' p q b s : rep h p b -> (forall z, cnt z b <= 1) ->
  (forall z, 1 <= cnt z b -> h' z = if peq (root_of b) (Some z)
     then with_par (if Nat.odd s then with_st (h z) (st_set_red (st (h z))) else h z) q else h z) ->
  rep h' q (collapse s b).
Proof.
  destruct b as [|l x t r]; cbn; [trivial|]. intros (Hx & Hl & Hr) Nd Hz.
  split; [|split].
  - rewrite Hz by (rewrite eqn_refl; lia). rewrite Nat.eqb_refl, Hx. destruct (Nat.odd s); reflexivity.
  - eapply rep_frame; [|exact Hl]. intros z Hc. rewrite Hz by lia.
    destruct (Nat.eqb_spec x z) as [->|]; [|reflexivity].
    specialize (Nd z). rewrite eqn_refl in Nd. lia.
  - eapply rep_frame; [|exact Hr]. intros z Hc. rewrite Hz by lia.
    destruct (Nat.eqb_spec x z) as [->|]; [|reflexivity].
    specialize (Nd z). rewrite eqn_refl in Nd. lia.
Qed.

(** A node with at most one child [b] is cut out below a frame. *)
Definition cut (h : heap) (f : frame) (b : tree) (s : nat) : heap :=
  set_edge (redden (set_par_if h (root_of b) (Some (fid f))) b s) (fid f) (fside f) (root_of b).

Lemma cut_at h f b s z : cnt (fid f) b = 0 -> cut h f b s z =
  if z =? fid f then with_edge (h z) (fside f) (root_of b)
  else if peq (root_of b) (Some z)
  then with_par (if Nat.odd s then with_st (h z) (st_set_red (st (h z))) else h z) (Some (fid f))
  else h z.
Proof.
  intros Hf. unfold cut. rewrite set_edge_at, redden_at, set_par_if_at.
  destruct (peq_spec (root_of b) (Some z)) as [Hb|Hb].
  - destruct (Nat.eqb_spec z (fid f)) as [->|]; [apply root_cnt in Hb; lia|].
    destruct (Nat.odd s); reflexivity.
  - destruct (Nat.eqb_spec z (fid f)); reflexivity.
Qed.

Lemma cut_ok h l d sd r f c b s : has h (plug (N l d sd r) (f :: c)) ->
  (l = E /\ b = r) \/ (r = E /\ b = l) ->
  has (cut h f b s) (plug (collapse s b) (f :: c)) /\
  (forall z, cnt z (plug (N l d sd r) (f :: c)) = 0 -> cut h f b s z = h z) /\
  (forall z, cnt z (plug (N l d sd r) (f :: c)) = cnt z (plug (collapse s b) (f :: c)) + eqn d z).
Proof.
  intros H Hb. apply has_rep2 in H. destruct H as ((R & Rc) & Nd).
  assert (Cb : forall z, cnt z (N l d sd r) = eqn d z + cnt z b).
  { intros z. destruct Hb as [(->&->)|(->&->)]; cbn; lia. }
  assert (Rb : rep h (Some d) b) by (destruct R as (_ & Rl & Rr); destruct Hb as [(->&->)|(->&->)]; assumption).
  assert (Hf : cnt (fid f) b = 0).
  { specialize (Nd (fid f)). rewrite Cb in Nd. cbn in Nd. rewrite eqn_refl in Nd. lia. }
  split; [|split].
  - apply has_rep2. split; [split|].
    + eapply rep_collapse; [exact Rb| |].
      * intros z. specialize (Nd z). rewrite Cb in Nd. lia.
      * intros z Hz. rewrite cut_at by assumption. cbn [cpar].
        destruct (Nat.eqb_spec z (fid f)); [subst; lia|reflexivity].
    + rewrite collapse_root. apply (repc_hole h _ (N l d sd r) b); [exact Nd|exact Rc|].
      intros z Hz. rewrite cut_at by assumption.
      destruct (Nat.eqb_spec z (fid f)); [reflexivity|].
      destruct (peq_spec (root_of b) (Some z)) as [Q|]; [|reflexivity].
      apply root_cnt in Q. specialize (Nd z). rewrite Cb in Nd. lia.
    + intros z. specialize (Nd z). rewrite Cb in Nd. rewrite collapse_cnt. lia.
  - intros z Hz. rewrite cnt_plug, Cb in Hz. rewrite cut_at by assumption.
    destruct (Nat.eqb_spec z (fid f)); [subst; cbn in Hz; rewrite eqn_refl in Hz; lia|].
    destruct (peq_spec (root_of b) (Some z)) as [Q|]; [apply root_cnt in Q; lia|reflexivity].
  - intros z. rewrite !cnt_plug, Cb, collapse_cnt. lia.
Qed.

(** [collapse_p] after the new parent is set, and the other way round *)
Lemma collapse_p_cut h f b s d : edge (h (fid f)) (fside f) = Some d -> st (h d) = s ->
  d <> fid f -> cnt d b = 0 -> cnt (fid f) b = 0 ->
  (forall z, collapse_p (set_par_if h (root_of b) (Some (fid f))) (fid f) (fside f) (root_of b) z = cut h f b s z) /\
  (forall z, set_par_if (collapse_p h (fid f) (fside f) (root_of b)) (root_of b) (Some (fid f)) z = cut h f b s z).
Proof.
  intros He Hs df Hd Hf.
  assert (Nf : peq (root_of b) (Some (fid f)) = false).
  { destruct (peq_spec (root_of b) (Some (fid f))) as [Q|]; [apply root_cnt in Q; lia|reflexivity]. }
  assert (Ndd : peq (root_of b) (Some d) = false).
  { destruct (peq_spec (root_of b) (Some d)) as [Q|]; [apply root_cnt in Q; lia|reflexivity]. }
  split; intros z.
  - unfold collapse_p.
    rewrite !set_par_if_at, Nf, He. unfold red_p. rewrite set_par_if_at, Ndd, Hs.
    unfold cut. destruct b as [|l y t r]; [reflexivity|]. cbn [root_of].
    unfold redden. destruct (Nat.odd s); reflexivity.
  - rewrite cut_at by assumption. rewrite set_par_if_at. unfold collapse_p. rewrite He.
    unfold red_p. rewrite Hs. rewrite set_edge_at.
    destruct b as [|l y t r]; cbn [root_of].
    + cbn [peq]. destruct (z =? fid f); reflexivity.
    + cbn [root_of peq] in Nf. cbn [peq].
      assert (Q : (if Nat.odd s then hput h y (with_st (h y) (st_set_red (st (h y)))) else h) z =
        if y =? z then (if Nat.odd s then with_st (h z) (st_set_red (st (h z))) else h z) else h z).
      { destruct (Nat.odd s); [|now destruct (y =? z)]. unfold hput. rewrite (Nat.eqb_sym y z).
        destruct (Nat.eqb_spec z y); subst; reflexivity. }
      rewrite Q. destruct (Nat.eqb_spec y z) as [yz|yz].
      * destruct (Nat.eqb_spec z (fid f)) as [Z|]; [|reflexivity].
        exfalso. apply Nat.eqb_neq in Nf. congruence.
      * reflexivity.
Qed.

(** Replacing a node by one that is not in the tree. *)
Definition ren (a b : nat) (n : node) : node :=
  mkNode (option_map (exchange a b) (par n)) (option_map (exchange a b) (e0 n))
    (option_map (exchange a b) (e1 n)) (st n).

Lemma exch_o a b x : x <> a -> x <> b -> exchange a b x = x.
Proof.
  intros Ha Hb. unfold exchange.
  destruct (Nat.eqb_spec x a); [congruence|]. destruct (Nat.eqb_spec x b); congruence.
Qed.
Lemma exch_a a b : exchange a b a = b.
Proof. unfold exchange. now rewrite Nat.eqb_refl. Qed.

Lemma ren_nbrs h L x s R c d z : has h (plug (N L x s R) c) ->
  cnt d (plug (N L x s R) c) = 0 -> 1 <= cnt z (plug (N L x s R) c) -> z <> x ->
  ren x d (h z) =
  (let n := h z in
   let n := match c with
            | f :: _ => if z =? fid f then with_edge n (fside f) (Some d) else n
            | [] => n
            end in
   if peq (root_of L) (Some z) || peq (root_of R) (Some z) then with_par n (Some d) else n).
Proof.
  intros H Hd Hz zx.
  set (T := plug (N L x s R) c) in *.
  assert (Hx := read_N _ _ _ _ _ _ H).
  destruct H as (HR & HN).
  assert (NT : NoDup (inorder T)) by now apply cnt_nodup.
  assert (Dz : In z (inorder T)) by now apply cnt_in.
  assert (Dx : In x (inorder T)).
  { apply cnt_in. unfold T. rewrite cnt_plug. cbn. rewrite eqn_refl. lia. }
  assert (Nd : forall y, In y (inorder T) -> y <> d).
  { intros y Hy ->. apply cnt_in in Hy. lia. }
  assert (Pz : option_map (exchange x d) (par (h z)) =
    if peq (root_of L) (Some z) || peq (root_of R) (Some z) then Some d else par (h z)).
  { destruct (peq_spec (root_of L) (Some z)) as [QL|QL]; cbn [orb].
    { assert (P : par (h z) = Some x).
      { eapply (rep_edge h T None x false z); eauto. rewrite Hx. exact QL. }
      rewrite P. cbn. now rewrite exch_a. }
    destruct (peq_spec (root_of R) (Some z)) as [QR|QR].
    { assert (P : par (h z) = Some x).
      { eapply (rep_edge h T None x true z); eauto. rewrite Hx. exact QR. }
      rewrite P. cbn. now rewrite exch_a. }
    destruct (rep_par h T None z HR Dz) as [(_ & ->)|(q & Hq & -> & i & Hi)]; [reflexivity|].
    cbn. rewrite exch_o; [reflexivity| |now apply Nd].
    intros ->. rewrite Hx in Hi. destruct i; cbn in Hi; contradiction. }
  assert (Ez : forall i, option_map (exchange x d) (edge (h z) i) =
    match c with
    | f :: _ => if (z =? fid f) && Bool.eqb i (fside f) then Some d else edge (h z) i
    | [] => edge (h z) i
    end).
  { intros i.
    assert (Oth : edge (h z) i <> Some x -> option_map (exchange x d) (edge (h z) i) = edge (h z) i).
    { intros Ne. destruct (edge (h z) i) as [y|] eqn:Ey; [|reflexivity].
      destruct (rep_edge h T None z i y HR Dz Ey) as (Dy & _). cbn.
      rewrite exch_o; [reflexivity|congruence|now apply Nd]. }
    destruct c as [|f c].
    - apply Oth. intros Ey. destruct (rep_edge h T None z i x HR Dz Ey) as (_ & P).
      rewrite Hx in P. discriminate.
    - assert (Hh : has h (plug (N L x s R) (f :: c))) by (split; assumption).
      destruct f as [j p ps sib]. cbn [fid fside] in *.
      destruct (read_mk h j (N L x s R) p ps sib c Hh) as (_ & Pe & Pe' & _). cbn [root_of] in Pe.
      destruct (Nat.eqb_spec z p) as [->|zp]; cbn [andb].
      + destruct (Bool.eqb_spec i j) as [->|ij].
        * rewrite Pe. cbn. now rewrite exch_a.
        * apply Oth. intros Q. assert (negb j = i) by (destruct i, j; cbn in *; congruence). subst i.
          rewrite Pe' in Q. apply root_cnt in Q.
          specialize (HN x). unfold T in HN. rewrite cnt_plug in HN. cbn in HN. rewrite eqn_refl in HN. lia.
      + apply Oth. intros Ey. destruct (rep_edge h T None z i x HR Dz Ey) as (_ & P).
        rewrite Hx in P. cbn in P. congruence. }
  unfold ren. rewrite Pz. pose proof (Ez false) as E0. pose proof (Ez true) as E1. cbn [edge] in E0, E1.
  rewrite E0, E1. cbv zeta.
  destruct c as [|[j p ps sib] c]; cbn [fid fside].
  - destruct (_ || _); [reflexivity|]. now destruct (h z).
  - destruct (z =? p); cbn [andb].
    + destruct j; cbn; destruct (_ || _); reflexivity.
    + destruct (_ || _); [reflexivity|]. now destruct (h z).
Qed.

Lemma rename_id f t : (forall z, 1 <= cnt z t -> f z = z) -> rename f t = t.
Proof.
  induction t as [|l IHl x s r IHr]; cbn; [reflexivity|]. intros H.
  rewrite H by (rewrite eqn_refl; lia).
  rewrite IHl by (intros z Hz; apply H; lia). rewrite IHr by (intros z Hz; apply H; lia). reflexivity.
Qed.

Definition rename_frame (f : nat -> nat) (fr : frame) : frame :=
  mkF (fside fr) (f (fid fr)) (fst_ fr) (rename f (fsib fr)).

Lemma rename_plug f c : forall t, rename f (plug t c) = plug (rename f t) (map (rename_frame f) c).
Proof.
  induction c as [|g c IH]; intros t; cbn; [reflexivity|]. rewrite IH. f_equal.
  unfold fill, mk, rename_frame. cbn. destruct (fside g); reflexivity.
Qed.

Lemma rename_ctx_id f c : (forall z, 1 <= cnc z c -> f z = z) -> map (rename_frame f) c = c.
Proof.
  induction c as [|g c IH]; cbn; [reflexivity|]. intros H. f_equal.
  - unfold rename_frame. destruct g as [j p ps sib]. cbn in *. f_equal.
    + apply H. rewrite eqn_refl. lia.
    + apply rename_id. intros z Hz. apply H. lia.
  - apply IH. intros z Hz. apply H. lia.
Qed.

(** A node [x] with the right content for [d] elsewhere: [d] takes the place. *)
Lemma replace_ok h h' L x s R c d : has h (plug (N L x s R) c) ->
  cnt d (plug (N L x s R) c) = 0 ->
  h' d = h x ->
  (forall z, 1 <= cnt z (plug (N L x s R) c) -> z <> x ->
   h' z = (let n := h z in
   let n := match c with
            | f :: _ => if z =? fid f then with_edge n (fside f) (Some d) else n
            | [] => n
            end in
   if peq (root_of L) (Some z) || peq (root_of R) (Some z) then with_par n (Some d) else n)) ->
  has h' (plug (N L d s R) c).
Proof.
  intros H Hd Ed Ez.
  set (T := plug (N L x s R) c) in *.
  assert (HN : forall z, cnt z T <= 1) by apply H.
  assert (xd : x <> d).
  { intros ->. unfold T in Hd. rewrite cnt_plug in Hd. cbn in Hd. rewrite eqn_refl in Hd. lia. }
  assert (Cx : cnt x T = 1).
  { specialize (HN x). unfold T in *. rewrite cnt_plug in *. cbn in *. rewrite eqn_refl in *. lia. }
  assert (Re : rename (exchange x d) T = plug (N L d s R) c).
  { unfold T. rewrite rename_plug. cbn [rename].
    assert (Lz : forall z, cnt z (N L x s R) + cnc z c <= 1).
    { intros z. specialize (HN z). unfold T in HN. now rewrite cnt_plug in HN. }
    assert (Dz : cnt d (N L x s R) + cnc d c = 0) by (unfold T in Hd; now rewrite cnt_plug in Hd).
    specialize (Lz x). cbn in Lz, Dz. rewrite eqn_refl in Lz.
    rewrite exch_a. rewrite !rename_id, rename_ctx_id; [reflexivity| | |];
      (intros z Hz; apply exch_o; [intros ->; lia|intros ->; lia]). }
  set (F := hput h' x (target h x d x)).
  assert (Tg : forall z, 1 <= cnt z T \/ z = d -> F z = target h x d z).
  { intros z Hz. unfold F, hput. destruct (Nat.eqb_spec z x) as [->|zx]; [reflexivity|].
    change (target h x d z) with (ren x d (h (exchange x d z))).
    destruct (Nat.eq_dec z d) as [->|zd].
    - assert (exchange x d d = x) as ->.
      { unfold exchange. rewrite Nat.eqb_refl. destruct (Nat.eqb_spec d x); congruence. }
      rewrite Ed. assert (Hx := read_N _ _ _ _ _ _ H).
      assert (Oth : forall p, (forall y, p = Some y -> y <> x /\ y <> d) -> option_map (exchange x d) p = p).
      { intros [y|] Hy; [|reflexivity]. cbn. destruct (Hy y eq_refl). now rewrite exch_o. }
      unfold ren. rewrite Hx. cbn [par e0 e1 st]. 
      assert (W := forest_wf h [T]). cbn [flat_map] in W. rewrite app_nil_r in W.
      destruct W as (W1 & W2 & _ & W4 & _).
      { constructor; [apply H|constructor]. }
      { apply cnt_nodup. assumption. }
      assert (Dx : In x (inorder T)) by (apply cnt_in; lia).
      assert (Nd : forall y, In y (inorder T) -> y <> d).
      { intros y Hy ->. apply cnt_in in Hy. lia. }
      rewrite !Oth; [reflexivity| | |].
      + intros y Hy. assert (P : edge (h x) true = Some y) by (rewrite Hx; exact Hy).
        destruct (W2 _ _ _ Dx P) as (Dy & Py). split; [|now apply Nd].
        intros ->. eapply W4; eauto.
      + intros y Hy. assert (P : edge (h x) false = Some y) by (rewrite Hx; exact Hy).
        destruct (W2 _ _ _ Dx P) as (Dy & Py). split; [|now apply Nd].
        intros ->. eapply W4; eauto.
      + intros y Hy. assert (P : par (h x) = Some y) by (rewrite Hx; exact Hy).
        destruct (W1 _ _ Dx P) as (Dy & _). split; [|now apply Nd].
        intros ->. eapply W4; eauto.
    - rewrite exch_o by assumption. destruct Hz as [Hz|]; [|congruence].
      rewrite Ez by assumption. symmetry. now apply (ren_nbrs h L x s R c d z). }
  assert (RF : rep F None (rename (exchange x d) T)).
  { apply (rename_rep h F (fun z => 1 <= cnt z T \/ z = d) x d T xd) with (p := None).
    - exact Tg.
    - left. lia.
    - now right.
    - apply H.
    - intros z Hz. left. now apply cnt_in. }
  rewrite Re in RF.
  assert (Cn : forall z, cnt z (plug (N L d s R) c) + eqn x z = cnt z T + eqn d z).
  { intros z. unfold T. rewrite !cnt_plug. cbn. lia. }
  split.
  - eapply rep_frame; [|exact RF]. intros z Hz. unfold F, hput.
    destruct (Nat.eqb_spec z x) as [->|]; [|reflexivity].
    specialize (Cn x). rewrite eqn_refl, Cx in Cn. unfold eqn in Cn.
    destruct (Nat.eqb_spec d x); [congruence|]. lia.
  - intros z. specialize (Cn z). specialize (HN z).
    pose proof (eqn_le d z). unfold eqn at 2 in Cn. destruct (Nat.eqb_spec d z) as [<-|]; lia.
Qed.
