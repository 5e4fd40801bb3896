(** Walking and insertion on the heap. *)
From Coq Require Import List Bool Arith Lia.
From Verif Require Import Dict_model Dict_spec Ptr_model Ptr_spec Ptr_proofs Ptr_proofs2 Ptr_proofs3 Ptr_proofs4.
Import ListNotations.

Lemma depth_plug c : forall t, depth t + length c <= depth (plug t c).
Proof.
  induction c as [|f c IH]; intros t; cbn; [lia|].
  specialize (IH (fill f t)). assert (S (depth t) <= depth (fill f t)); [|lia].
  unfold fill, mk. destruct (fside f); cbn; lia.
Qed.

Lemma start_p_ok h : forall t c dir t' c' n fuel, has h (plug t c) -> root_of t = Some n ->
  start t c dir = Some (t', c') -> depth t <= fuel ->
  start_p fuel h n dir = root_of t' /\ plug t' c' = plug t c /\ child t' dir = E /\ t' <> E.
Proof.
  induction t as [|l IHl x s r IHr]; intros c dir t' c' n fuel H Hn Hs Hf; [discriminate|].
  injection Hn as ->. destruct fuel as [|fuel]; [cbn in Hf; lia|].
  cbn [start_p]. rewrite (read_N _ _ _ _ _ _ H). cbn in Hs. cbn [depth] in Hf.
  destruct dir; cbn [edge e0 e1].
  - destruct r as [|rl rx rs rr].
    + injection Hs as <- <-. cbn. split; [reflexivity|]. split; [reflexivity|]. split; [reflexivity|discriminate].
    + cbn [root_of]. apply (IHr (mkF true n s l :: c) true t' c' rx fuel); [exact H|reflexivity|exact Hs|lia].
  - destruct l as [|ll lx ls lr].
    + injection Hs as <- <-. cbn. split; [reflexivity|]. split; [reflexivity|]. split; [reflexivity|discriminate].
    + cbn [root_of]. apply (IHl (mkF false n s r :: c) false t' c' lx fuel); [exact H|reflexivity|exact Hs|lia].
Qed.

Lemma climb_p_ok h : forall c t dir n fuel, has h (plug t c) -> root_of t = Some n ->
  length c < fuel ->
  match climb t c dir with
  | None => climb_p fuel h n dir = Some None
  | Some (t', c') => climb_p fuel h n dir = Some (root_of t') /\ plug t' c' = plug t c /\ t' <> E
  end.
Proof.
  induction c as [|f c IH]; intros t dir n fuel H Hn Hf; (destruct fuel as [|fuel]; [cbn in Hf; lia|]).
  - cbn. destruct t as [|l x s r]; [discriminate|]. injection Hn as ->.
    now rewrite (read_N _ _ _ _ _ _ H).
  - cbn [climb climb_p]. assert (P : par (h n) = Some (fid f)).
    { destruct t as [|l x s r]; [discriminate|]. injection Hn as ->. now rewrite (read_N _ _ _ _ _ _ H). }
    rewrite P. destruct f as [i p ps sib]. cbn [fid fside] in *.
    destruct (read_mk h i t p ps sib c H) as (_ & Pe & Pe' & _).
    destruct (Bool.eqb_spec i (negb dir)) as [->|Ni].
    + rewrite Pe, Hn, peq_refl.
      cbn in Hf. apply (IH (mk (negb dir) t p ps sib) dir p fuel); [exact H|apply root_mk|lia].
    + assert (i = dir) as -> by (destruct i, dir; cbn in *; congruence).
      assert (peq (Some n) (edge (h p) (negb dir)) = false) as ->.
      { rewrite Pe'. destruct (peq_spec (Some n) (root_of sib)) as [Z|]; [|reflexivity].
        symmetry in Z. apply root_cnt in Z. apply has_rep2 in H. destruct H as (_ & Nd).
        specialize (Nd n). apply root_cnt in Hn. cbn [cnc fsib fid] in Nd. lia. }
      rewrite root_fill. split; [reflexivity|]. split; [reflexivity|].
      unfold fill, mk. destruct (fside _); discriminate.
Qed.

Lemma step_p_ok h t c dir n fuel : has h (plug t c) -> root_of t = Some n ->
  depth (plug t c) < fuel ->
  match step (t, c) dir with
  | None => step_p fuel h n dir = Some None
  | Some (t', c') => step_p fuel h n dir = Some (root_of t') /\ plug t' c' = plug t c /\ t' <> E
  end.
Proof.
  intros H Hn Hf. assert (Hd := depth_plug c t).
  destruct t as [|l x s r]; [discriminate|]. injection Hn as ->.
  unfold step, step_p. cbn [frame_of]. rewrite (read_N _ _ _ _ _ _ H).
  assert (G : forall b, edge (mkNode (cpar c) (root_of l) (root_of r) s) b = root_of (child (N l n s r) b)).
  { destruct b; reflexivity. }
  rewrite G. destruct (child (N l n s r) (negb dir)) as [|cl cx cs cr] eqn:Ec.
  - cbn [root_of]. apply climb_p_ok; [assumption|reflexivity|cbn in Hd; lia].
  - cbn [root_of].
    assert (Hc : has h (plug (N cl cx cs cr) (mkF (negb dir) n s (if negb dir then l else r) :: c))).
    { destruct dir; cbn in Ec |- *; unfold fill; cbn; subst; exact H. }
    assert (Hl : depth (N cl cx cs cr) <= fuel).
    { assert (depth (N cl cx cs cr) <= depth (N l n s r)); [|lia].
      rewrite <- Ec. destruct dir; cbn; lia. }
    destruct (start (N cl cx cs cr) (mkF (negb dir) n s (if negb dir then l else r) :: c) dir) as [[t' c']|] eqn:Es.
    + destruct (start_p_ok h _ _ _ _ _ cx fuel Hc eq_refl Es Hl) as (E1 & E2 & E3 & E4).
      rewrite E1. destruct t'; [congruence|]. cbn [bind root_of].
      split; [reflexivity|]. split; [|discriminate]. rewrite E2.
      destruct dir; cbn in Ec |- *; unfold fill; cbn; subst; reflexivity.
    + exfalso. clear -Es.
      assert (X : forall t c, t <> E -> start t c dir <> None).
      { clear. induction t as [|l IHl x s r IHr]; intros c Ht; [congruence|]. cbn. destruct dir.
        - destruct r; [discriminate|]. apply IHr. discriminate.
        - destruct l; [discriminate|]. apply IHl. discriminate. }
      refine (X _ _ _ Es); discriminate.
Qed.

Lemma attach_ok h x p i ps sib c : has h (plug E (mkF i p ps sib :: c)) ->
  cnt x (plug E (mkF i p ps sib :: c)) = 0 -> e0 (h x) = None -> e1 (h x) = None ->
  let h' := set_st (set_edge (set_par h x (Some p)) p i (Some x)) x 1 in
  has h' (plug (N E x 1 E) (mkF i p ps sib :: c)) /\
  (forall z, cnt z (plug E (mkF i p ps sib :: c)) = 0 -> z <> x -> h' z = h z).
Proof.
  intros H Hx H0 H1 h'. rewrite cnt_plug in Hx.
  apply has_rep2 in H. destruct H as ((_ & Rc) & Nd).
  assert (px : p <> x). { intros ->. cbn in Hx. rewrite eqn_refl in Hx. lia. }
  assert (At : forall z, z <> x -> h' z = if z =? p then with_edge (h z) i (Some x) else h z).
  { intros z zx. unfold h'. rewrite set_st_at, set_edge_at, set_par_at.
    destruct (Nat.eqb_spec z x); [congruence|reflexivity]. }
  split.
  - apply has_rep2. split.
    + split.
      * cbn [rep]. split; [|split; exact I].
        unfold h'. rewrite set_st_at, set_edge_at, set_par_at, Nat.eqb_refl.
        destruct (Nat.eqb_spec x p); [congruence|]. cbn. unfold with_st, with_par. cbn. rewrite H0, H1. reflexivity.
      * apply (repc_hole h h' E (N E x 1 E)); [exact Nd|exact Rc|].
        intros z Hz. apply At. intros ->. cbn in Hx, Hz. lia.
    + intros z. specialize (Nd z). cbn [cnt] in *.
      destruct (Nat.eq_dec x z) as [<-|xz].
      * cbn in Hx. rewrite eqn_refl. cbn. lia.
      * assert (eqn x z = 0) as ->; [|lia]. unfold eqn. destruct (Nat.eqb_spec x z); congruence.
  - intros z Hz zx. rewrite cnt_plug in Hz. rewrite At by assumption.
    destruct (Nat.eqb_spec z p); [|reflexivity]. subst. cbn in Hz. rewrite eqn_refl in Hz. lia.
Qed.

Lemma insert_leaf_ok fuel h x f c r : has h (plug E (f :: c)) ->
  cnt x (plug E (f :: c)) = 0 -> e0 (h x) = None -> e1 (h x) = None ->
  insert_leaf x (f :: c) = Some r -> S (length c) < fuel ->
  exists h', insert_leaf_p fuel x (fid f) (fside f) (root_of (plug E (f :: c))) h = Some (h', root_of r) /\
    has h' r /\ (forall z, cnt z (plug E (f :: c)) = 0 -> z <> x -> h' z = h z) /\
    (forall z, cnt z r = cnt z (plug E (f :: c)) + eqn x z).
Proof.
  intros H Hx H0 H1 Hi Hf. destruct f as [i p ps sib]. cbn [fid fside].
  destruct (attach_ok h x p i ps sib c H Hx H0 H1) as (Ha & Oa).
  unfold insert_leaf_p.
  assert (edge (h p) i = None) as -> by exact (proj1 (proj2 (read_mk h i E p ps sib c H))).
  cbn [peq check]. set (h1 := set_st _ _ _) in *. cbv zeta in Ha, Oa.
  unfold insert_leaf in Hi.
  destruct (balance_insert (N E x 1 E) (mkF i p ps sib :: c)) as [r1|] eqn:Eb; [|discriminate]. cbn [bind] in Hi.
  destruct (balance_insert_ok fuel (N E x 1 E) (mkF i p ps sib :: c) r1 h1 x) as (h2 & E2 & S2).
  { cbn. lia. } { exact Ha. } { reflexivity. } { exact Eb. }
  assert (Er : root_of (plug E (mkF i p ps sib :: c)) = root_of (plug (N E x 1 E) (mkF i p ps sib :: c))).
  { destruct (root_plug (mkF i p ps sib :: c)) as (w & _ & Hw); [discriminate|]. now rewrite !Hw. }
  rewrite Er, E2. cbn [bind].
  destruct (ensure_black r1) as [r2|] eqn:Ee; [|discriminate]. cbn [bind] in Hi.
  destruct (very_good_tree r2); [|discriminate]. cbn in Hi. injection Hi as <-.
  destruct r1 as [|l ri s rr]; [discriminate|]. cbn [root_of bind].
  assert (H2 : has h2 (plug (N l ri s rr) [])) by apply S2.
  rewrite (read_N _ _ _ _ _ _ H2). cbn [st].
  cbn [ensure_black red] in Ee.
  assert (P3 : exists h3, (if Nat.odd s then upd_st h2 ri st_inc_set_black else Some h2) = Some h3 /\
    stp h2 (N l ri s rr) h3 r2 /\ root_of r2 = Some ri /\ Nat.odd (st (h3 ri)) = false).
  { destruct (Nat.odd s) eqn:Os.
    - unfold inc_set_black, set_stat in Ee.
      destruct (st_inc_set_black s) as [s'|] eqn:Es; [|discriminate]. injection Ee as <-.
      destruct (upd_st_stp h2 l ri s rr [] _ _ H2 Es) as (h3 & E3 & S3).
      exists h3. split; [exact E3|]. split; [exact S3|]. split; [reflexivity|].
      assert (H3 : has h3 (plug (N l ri s' rr) [])) by apply S3.
      rewrite (read_N _ _ _ _ _ _ H3). cbn. unfold st_inc_set_black in Es. rewrite Os in Es.
      injection Es as <-. rewrite Nat.odd_succ, <- Nat.negb_odd, Os. reflexivity.
    - injection Ee as <-. exists h2. split; [reflexivity|]. split; [now apply stp_refl|].
      split; [reflexivity|]. rewrite (read_N _ _ _ _ _ _ H2). exact Os. }
  destruct P3 as (h3 & E3 & S3 & R3 & O3). rewrite E3. cbn [bind]. rewrite O3. cbn [negb check].
  assert (S := stp_trans _ _ _ _ _ _ S2 S3).
  exists h3. split; [now rewrite R3|]. split; [apply S|].
  assert (C : forall z, cnt z r2 = cnt z (plug E (mkF i p ps sib :: c)) + eqn x z).
  { intros z. destruct S as (_ & _ & C). rewrite C, !cnt_plug. cbn. lia. }
  split; [|exact C]. intros z Hz zx. destruct S as (_ & O & Cz).
  rewrite O; [apply Oa; assumption|]. rewrite cnt_plug in *. cbn in *.
  assert (eqn x z = 0) as ->; [|lia]. unfold eqn. destruct (Nat.eqb_spec x z); congruence.
Qed.

Lemma insert_ref_ok fuel h T x p i r : has h T -> cnt x T = 0 ->
  h x = mkNode None None None (st (h x)) -> Nat.odd (st (h x)) = false ->
  (forall t c, p = Some (t, c) -> plug t c = T /\ t <> E) ->
  insert_ref x p i T = Some r -> depth T < fuel ->
  exists h', insert_ref_p fuel x (zid p) i (root_of T) h = Some (h', root_of r) /\
    has h' r /\ (forall z, cnt z T = 0 -> z <> x -> h' z = h z) /\
    (forall z, cnt z r = cnt z T + eqn x z).
Proof.
  intros H Hx Ex Os Hp Hi Hf.
  assert (H0 : e0 (h x) = None) by now rewrite Ex.
  assert (H1 : e1 (h x) = None) by now rewrite Ex.
  assert (Hm : is_member h x = false) by (unfold is_member; rewrite Ex; reflexivity).
  assert (Hr : match root_of T with None => false | Some r => (x =? r) || is_member h x end = false).
  { rewrite Hm. destruct (root_of T) as [w|] eqn:Ew; [|reflexivity].
    apply root_cnt in Ew. rewrite orb_false_r. destruct (Nat.eqb_spec x w); [subst; lia|reflexivity]. }
  unfold insert_ref_p. rewrite Hr, Hm, Os. cbn [negb check].
  unfold insert_ref in Hi.
  (* attaching below a given node *)
  assert (Att : forall t c (j : bool) fr, plug t c = T -> t <> E -> child t j = E ->
    frame_of t j = Some fr -> insert_leaf x (fr :: c) = Some r ->
    exists n h', root_of t = Some n /\ edge (h n) j = None /\
      insert_leaf_p fuel x n j (root_of T) h = Some (h', root_of r) /\
      has h' r /\ (forall z, cnt z T = 0 -> z <> x -> h' z = h z) /\
      (forall z, cnt z r = cnt z T + eqn x z)).
  { intros t c j fr HT Ht Hc Hfr Hl. destruct t as [|l n s rr]; [congruence|].
    cbn in Hfr. injection Hfr as <-.
    assert (HT' : plug E (mkF j n s (if j then l else rr) :: c) = T).
    { rewrite <- HT. cbn. unfold fill, mk. destruct j; cbn in *; subst; reflexivity. }
    destruct (insert_leaf_ok fuel h x (mkF j n s (if j then l else rr)) c r) as (h' & E' & R').
    - now rewrite HT'.
    - now rewrite HT'.
    - assumption.
    - assumption.
    - assumption.
    - assert (Hd := depth_plug c (N l n s rr)). rewrite HT in Hd. cbn in Hd. lia.
    - exists n, h'. split; [reflexivity|]. rewrite HT' in E', R'. cbn [fid fside] in E'.
      split; [|split; [exact E'|exact R']].
      rewrite <- HT in H. rewrite (read_N _ _ _ _ _ _ H). destruct j; cbn in *; subst; reflexivity. }
  (* below a given position *)
  assert (Pos : forall t c (j : bool), plug t c = T -> t <> E ->
    match child t j with
    | E => do f <- frame_of t j ;; insert_leaf x (f :: c)
    | N _ _ _ _ =>
      match step (t, c) (negb j) with
      | None => None
      | Some (t', c') =>
        do f <- frame_of t' (negb j) ;;
        match child t' (negb j) with E => insert_leaf x (f :: c') | N _ _ _ _ => None end
      end
    end = Some r ->
    exists n h', root_of t = Some n /\
      match edge (h n) j with
      | None => insert_leaf_p fuel x n j (root_of T) h
      | Some _ => do q <- step_p fuel h n (negb j) ;; do q <- q ;; insert_leaf_p fuel x q (negb j) (root_of T) h
      end = Some (h', root_of r) /\
      has h' r /\ (forall z, cnt z T = 0 -> z <> x -> h' z = h z) /\
      (forall z, cnt z r = cnt z T + eqn x z)).
  { intros t c j HT Ht Hm'. destruct (child t j) as [|a b d e] eqn:Ec.
    - destruct (frame_of t j) as [fr|] eqn:Ef; [|discriminate]. cbn [bind] in Hm'.
      destruct (Att t c j fr HT Ht Ec Ef Hm') as (n & h' & R1 & R2 & R3). exists n, h'.
      split; [exact R1|]. rewrite R2. exact R3.
    - assert (Hn : exists n, root_of t = Some n) by (destruct t; [congruence|cbn; eauto]).
      destruct Hn as (n & Hn).
      assert (Hs : has h (plug t c)) by now rewrite HT.
      pose proof (step_p_ok h t c (negb j) n fuel Hs Hn ltac:(rewrite HT; lia)) as Hst.
      destruct (step (t, c) (negb j)) as [[t' c']|]; [|discriminate].
      destruct Hst as (S1 & S2 & S3).
      destruct (frame_of t' (negb j)) as [fr|] eqn:Ef; [|discriminate]. cbn [bind] in Hm'.
      destruct (child t' (negb j)) eqn:Ec'; [|discriminate].
      destruct (Att t' c' (negb j) fr) as (n' & h' & R1 & R2 & R3); [congruence|assumption|assumption|assumption|assumption|].
      exists n, h'. split; [exact Hn|].
      assert (edge (h n) j = Some b) as ->.
      { destruct t as [|l n0 s rr]; [congruence|]. injection Hn as ->.
        rewrite (read_N _ _ _ _ _ _ Hs). destruct j; cbn in *; subst; reflexivity. }
      rewrite S1, R1. cbn [bind]. exact R3. }
  destruct p as [[t c]|].
  - destruct (Hp t c eq_refl) as (HT & Ht). cbn [bind].
    destruct (Pos t c i HT Ht Hi) as (n & h' & R1 & R2). exists h'.
    assert (zid (Some (t, c)) = Some n) as ->.
    { destruct t; [congruence|]. cbn in *. exact R1. }
    cbn [bind]. exact R2.
  - cbn [zid]. destruct T as [|l n s rr] eqn:ET.
    + cbn in Hi. cbn [root_of bind]. injection Hi as <-.
      exists (set_st h x 1). split; [reflexivity|]. split; [|split].
      * split.
        -- cbn. split; [|auto]. rewrite set_st_at, Nat.eqb_refl. unfold with_st. rewrite Ex. reflexivity.
        -- intros z. cbn. pose proof (eqn_le x z). lia.
      * intros z _ zx. rewrite set_st_at. destruct (Nat.eqb_spec z x); congruence.
      * intros z. cbn. lia.
    + rewrite <- ET in *.
      assert (HN : root_of T = Some n) by now rewrite ET.
      destruct (start T [] (negb i)) as [[t c]|] eqn:Es.
      * destruct (start_p_ok h T [] (negb i) t c n fuel H HN Es ltac:(lia)) as (S1 & S2 & S3 & S4).
        rewrite HN. rewrite HN in Pos. 
        destruct (Pos t c (negb i) S2 S4 Hi) as (n' & h' & R1 & R2).
        exists h'. rewrite S1, R1. cbn [bind]. exact R2.
      * exfalso. clear -Es HN.
        assert (X : forall t c, t <> E -> start t c (negb i) <> None).
        { clear. induction t as [|l IHl x s r IHr]; intros c Ht; [congruence|]. cbn. destruct (negb i).
          - destruct r; [discriminate|]. apply IHr. discriminate.
          - destruct l; [discriminate|]. apply IHl. discriminate. }
        apply (X T []); [destruct T; [discriminate HN|discriminate]|exact Es].
Qed.
