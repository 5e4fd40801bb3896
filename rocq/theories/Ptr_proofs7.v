(** [remove_u] on the heap. *)
From Coq Require Import List Bool Arith Lia.
From Verif Require Import Dict_model Dict_spec Dict_proofs Ptr_model Ptr_spec Ptr_proofs Ptr_proofs2 Ptr_proofs3 Ptr_proofs4 Ptr_proofs5 Ptr_proofs6.
Import ListNotations.

Lemma has_ext h h' T : (forall z, h' z = h z) -> has h T -> has h' T.
Proof.
  intros He (HR & HN). split; [|assumption]. eapply rep_frame; [|exact HR]. intros z _. apply He.
Qed.

Lemma plug_app c2 c : forall t, plug t (c2 ++ c) = plug (plug t c2) c.
Proof. induction c2 as [|f c2 IH]; intros t; cbn [plug app]; [reflexivity|apply IH]. Qed.

(** The result of [remove_u] and of its heap version. *)
Definition unlinked (h h' : heap) (T : tree) (x : nat) (t' : tree) (c' : list frame) : Prop :=
  has h' (plug t' c') /\ (forall z, cnt z T = 0 -> h' z = h z) /\
  (forall z, cnt z T = cnt z (plug t' c') + eqn x z).
Definition where_p (t' : tree) (c' : list frame) : option nat :=
  match c' with [] => root_of t' | f :: _ => Some (fid f) end.
Definition where_i (c' : list frame) : option bool :=
  match c' with [] => None | f :: _ => Some (fside f) end.

Lemma remove1_ok h l x s r c b : has h (plug (N l x s r) c) ->
  (l = E /\ b = r) \/ (r = E /\ b = l) ->
  let t' := match c with [] => b | _ => collapse s b end in
  exists h',
    (let h1 := set_par_if h (root_of b) (par (h x)) in
     match par (h x) with
     | None => Some (h1, root_of b, None, Nat.odd s)
     | Some q => do i <- idx h1 q x ;; Some (collapse_p h1 q i (root_of b), par (h x), Some i, Nat.odd s)
     end) = Some (h', where_p t' c, where_i c, Nat.odd s) /\
    unlinked h h' (plug (N l x s r) c) x t' c.
Proof.
  intros H Hb t'. assert (Hx := read_N _ _ _ _ _ _ H). rewrite Hx. cbn [par].
  assert (Cb : forall z, cnt z (N l x s r) = eqn x z + cnt z b).
  { intros z. destruct Hb as [(->&->)|(->&->)]; cbn; lia. }
  destruct c as [|f c]; cbn [cpar].
  - eexists. split; [reflexivity|]. subst t'. cbn [plug] in *.
    destruct H as ((_ & Rl & Rr) & HN).
    assert (Rb : rep h (Some x) b) by (destruct Hb as [(->&->)|(->&->)]; assumption).
    assert (Nb : forall z, cnt z b <= 1) by (intros z; specialize (HN z); rewrite Cb in HN; lia).
    split; [split|split].
    + eapply rep_reparent; [exact Rb|exact Nb|]. intros z Hz. apply set_par_if_at.
    + exact Nb.
    + intros z Hz. rewrite Cb in Hz. rewrite set_par_if_at.
      destruct (peq_spec (root_of b) (Some z)) as [Q|]; [apply root_cnt in Q; lia|reflexivity].
    + intros z. rewrite Cb. cbn [plug]. lia.
  - subst t'. assert (HN : nd (N l x s r) (f :: c)) by now apply has_rep2 in H.
    assert (xf : x <> fid f).
    { intros Q. specialize (HN x). rewrite Cb in HN. cbn in HN. rewrite <- Q, eqn_refl in HN. lia. }
    assert (xb : cnt x b = 0).
    { specialize (HN x). rewrite Cb, eqn_refl in HN. lia. }
    assert (fb : cnt (fid f) b = 0).
    { specialize (HN (fid f)). rewrite Cb in HN. cbn in HN. rewrite eqn_refl in HN. lia. }
    assert (Hi := idx_ok h (N l x s r) x f c eq_refl H).
    assert (Nf : peq (root_of b) (Some (fid f)) = false).
    { destruct (peq_spec (root_of b) (Some (fid f))) as [Q|]; [apply root_cnt in Q; lia|reflexivity]. }
    assert (Hi' : idx (set_par_if h (root_of b) (Some (fid f))) (fid f) x = Some (fside f)).
    { unfold idx in *. rewrite set_par_if_at, Nf. exact Hi. }
    rewrite Hi'. cbn [bind]. eexists. split; [reflexivity|].
    destruct f as [j p ps sib]. cbn [fid fside] in *.
    destruct (read_mk h j (N l x s r) p ps sib c H) as (_ & Pe & _ & _). cbn [root_of] in Pe.
    destruct (collapse_p_cut h (mkF j p ps sib) b s x) as (Cp & _); cbn [fid fside]; try assumption.
    { now rewrite Hx. }
    destruct (cut_ok h l x s r (mkF j p ps sib) c b s H Hb) as (Hc & Oc & Cc).
    split; [|split].
    + eapply has_ext; [|exact Hc]. exact Cp.
    + intros z Hz. cbn [fid fside] in Cp. rewrite Cp. now apply Oc.
    + exact Cc.
Qed.

(** The right subtree, from which the leftmost node has been cut. *)
Lemma swap_remove_ok h l x s r c d sd et dc : has h (plug (N l x s r) c) ->
  l <> E -> r = plug (N E d sd et) dc -> Forall (fun f => fside f = false) dc ->
  exists h',
    swap_remove_p x d h = Some (h', where_p (collapse s et) (dc ++ mkF true d s l :: c),
      where_i (dc ++ mkF true d s l :: c), Nat.odd sd) /\
    unlinked h h' (plug (N l x s r) c) x (collapse s et) (dc ++ mkF true d s l :: c).
Proof.
  intros H Hl Hr Hs.
  set (C := dc ++ mkF true x s l :: c).
  assert (HT : plug (N l x s r) c = plug (N E d sd et) C).
  { unfold C. rewrite plug_app. rewrite <- Hr. reflexivity. }
  assert (Hx := read_N _ _ _ _ _ _ H).
  assert (H' : has h (plug (N E d sd et) C)) by now rewrite <- HT.
  assert (Hd := read_N _ _ _ _ _ _ H').
  assert (HN : forall z, cnt z (plug (N l x s r) c) <= 1) by apply H.
  assert (CN : forall z, cnt z (plug (N l x s r) c) =
    eqn d z + cnt z et + cnc z dc + (eqn x z + (cnt z l + cnc z c))).
  { intros z. rewrite HT. unfold C. rewrite plug_app, cnt_plug. cbn [cnc]. rewrite cnt_plug. cbn. lia. }
  assert (Nn : forall z, eqn d z + cnt z et + cnc z dc + (eqn x z + (cnt z l + cnc z c)) <= 1).
  { intros z. rewrite <- CN. apply HN. }
  assert (xd : x <> d).
  { intros ->. specialize (Nn d). rewrite eqn_refl in Nn. lia. }
  (* the head of C *)
  assert (HC : exists f C', C = f :: C') by (unfold C; destruct dc; cbn; eauto).
  destruct HC as (fA & C' & EC).
  set (hA := cut h fA et s).
  rewrite EC in H'.
  destruct (cut_ok h E d sd et fA C' et s H' (or_introl (conj eq_refl eq_refl))) as (HA & OA & CA).
  fold hA in HA, OA. rewrite <- EC in *.
  set (R := plug (collapse s et) dc).
  assert (EA : plug (collapse s et) C = plug (N l x s R) c).
  { unfold C, R. rewrite plug_app. reflexivity. }
  assert (Dn : cnt d (plug (N l x s R) c) = 0).
  { rewrite <- EA. specialize (CA d). rewrite <- HT, CN, eqn_refl in CA. specialize (Nn d).
    rewrite eqn_refl in Nn. lia. }
  assert (HA' : has hA (plug (N l x s R) c)) by now rewrite <- EA.
  (* it is enough to have the right content at each node *)
  assert (Done : forall h', h' d = hA x ->
    (forall z, z <> d -> z <> x -> 1 <= cnt z (plug (N l x s R) c) -> h' z = (let n := hA z in
       let n := match c with
                | f :: _ => if z =? fid f then with_edge n (fside f) (Some d) else n
                | [] => n
                end in
       if peq (root_of l) (Some z) || peq (root_of R) (Some z) then with_par n (Some d) else n)) ->
    (forall z, cnt z (plug (N l x s r) c) = 0 -> h' z = h z) ->
    unlinked h h' (plug (N l x s r) c) x (collapse s et) (dc ++ mkF true d s l :: c)).
  { intros h' E1 E2 E3.
    assert (EP : plug (collapse s et) (dc ++ mkF true d s l :: c) = plug (N l d s R) c).
    { unfold R. rewrite plug_app. reflexivity. }
    split; [|split].
    - rewrite EP. apply (replace_ok hA h' l x s R c d HA' Dn E1).
      intros z Hz zx. apply E2; [|assumption|assumption]. intros ->. lia.
    - exact E3.
    - intros z. rewrite EP, HT, CA, EA, !cnt_plug. cbn. lia. }
  assert (NoE : forall z, cnt z et = 0 -> peq (root_of et) (Some z) = false).
  { intros z Hz. destruct (peq_spec (root_of et) (Some z)) as [Q|]; [apply root_cnt in Q; lia|reflexivity]. }
  assert (NoL : forall z, cnt z l = 0 -> peq (root_of l) (Some z) = false).
  { intros z Hz. destruct (peq_spec (root_of l) (Some z)) as [Q|]; [apply root_cnt in Q; lia|reflexivity]. }
  assert (de : cnt d et = 0) by (specialize (Nn d); rewrite eqn_refl in Nn; lia).
  assert (dl : cnt d l = 0) by (specialize (Nn d); rewrite eqn_refl in Nn; lia).
  assert (xe : cnt x et = 0) by (specialize (Nn x); rewrite eqn_refl in Nn; lia).
  assert (xl : cnt x l = 0) by (specialize (Nn x); rewrite eqn_refl in Nn; lia).
  unfold swap_remove_p. rewrite Hd. cbn [e0 e1 par st root_of peq check].
  rewrite Hx.
  destruct dc as [|g dc'].
  - (* d is the right child of x *)
    cbn [plug] in Hr. subst r. cbn [app] in C. subst C. cbn [cpar bind].
    injection EC as <- <-. rewrite Nat.eqb_refl. cbn [fid fside] in *.
    set (n := mkNode (cpar c) (root_of l) (root_of (N E d sd et)) s).
    set (h1 := hput h d n).
    assert (h1d : h1 d = n) by (unfold h1, hput; now rewrite Nat.eqb_refl).
    assert (h1o : forall z, z <> d -> h1 z = h z).
    { intros z zd. unfold h1, hput. destruct (Nat.eqb_spec z d); congruence. }
    (* after collapse and the parent of e *)
    set (h3 := set_par_if (collapse_p h1 d true (root_of et)) (root_of et) (Some d)).
    assert (At3 : forall z, h3 z = if z =? d then with_edge n true (root_of et)
       else if peq (root_of et) (Some z)
         then with_par (if Nat.odd s then with_st (h z) (st_set_red (st (h z))) else h z) (Some d)
         else h z).
    { intros z. unfold h3. rewrite set_par_if_at. unfold collapse_p. rewrite h1d. cbn [edge e1 n root_of].
      unfold red_p. rewrite h1d. cbn [st n]. rewrite set_edge_at.
      destruct et as [|el ei es er]; cbn [root_of peq].
      - destruct (Nat.eqb_spec z d) as [->|zd]; [now rewrite h1d|now apply h1o].
      - assert (ed : ei <> d) by (intros ->; cbn in de; rewrite eqn_refl in de; lia).
        assert (Q : (if Nat.odd s then hput h1 ei (with_st (h1 ei) (st_set_red (st (h1 ei)))) else h1) z =
          if ei =? z then (if Nat.odd s then with_st (h1 z) (st_set_red (st (h1 z))) else h1 z) else h1 z).
        { destruct (Nat.odd s); [|now destruct (ei =? z)]. unfold hput. rewrite (Nat.eqb_sym ei z).
          destruct (Nat.eqb_spec z ei); subst; reflexivity. }
        rewrite Q. destruct (Nat.eqb_spec ei z) as [ez|ez].
        + destruct (Nat.eqb_spec z d); [congruence|]. rewrite h1o by assumption. reflexivity.
        + destruct (Nat.eqb_spec z d) as [->|zd]; [now rewrite h1d|now apply h1o]. }
    assert (Pd : par (h3 d) = cpar c) by (rewrite At3, Nat.eqb_refl; reflexivity).
    assert (Px : h3 x = h x).
    { rewrite At3. destruct (Nat.eqb_spec x d); [congruence|]. now rewrite NoE. }
    rewrite Pd, Px, Hx. cbn [par].
    (* the parent of x *)
    assert (H4 : exists h4,
      match cpar c with
      | Some q => assert peq (cpar c) (cpar c);; (do p <- cpar c;; (do j <- idx h3 p x;; Some (set_edge h3 q j (Some d))))
      | None => Some h3
      end = Some h4 /\
      forall z, h4 z = match c with
                       | f :: _ => if z =? fid f then with_edge (h z) (fside f) (Some d) else h3 z
                       | [] => h3 z end).
    { destruct c as [|f c]; cbn [cpar].
      - exists h3. split; reflexivity.
      - rewrite peq_refl. cbn [check bind].
        assert (fd : fid f <> d).
        { intros Q. specialize (Nn d). rewrite eqn_refl in Nn. cbn in Nn. rewrite Q, eqn_refl in Nn. lia. }
        assert (fe : cnt (fid f) et = 0).
        { specialize (Nn (fid f)). cbn in Nn. rewrite eqn_refl in Nn. lia. }
        assert (H3f : h3 (fid f) = h (fid f)).
        { rewrite At3. destruct (Nat.eqb_spec (fid f) d); [congruence|]. now rewrite NoE. }
        assert (Hi := idx_ok h (N l x s (N E d sd et)) x f c eq_refl H).
        assert (Hi3 : idx h3 (fid f) x = Some (fside f)) by (unfold idx in *; rewrite H3f; exact Hi).
        rewrite Hi3. cbn [bind]. eexists. split; [reflexivity|]. intros z. rewrite set_edge_at.
        destruct (Nat.eqb_spec z (fid f)) as [->|]; [now rewrite H3f|reflexivity]. }
    destruct H4 as (h4 & E4 & At4). rewrite E4. cbn [bind].
    assert (H4d : h4 d = with_edge n true (root_of et)).
    { rewrite At4. destruct c as [|f c]; [now rewrite At3, Nat.eqb_refl|].
      destruct (Nat.eqb_spec d (fid f)) as [Q|]; [|now rewrite At3, Nat.eqb_refl].
      specialize (Nn d). rewrite eqn_refl in Nn. cbn in Nn. rewrite Q, eqn_refl in Nn. lia. }
    rewrite H4d. cbn [e0 with_edge n].
    assert (H5d : set_par_if h4 (root_of l) (Some d) d = with_edge n true (root_of et)).
    { rewrite set_par_if_at, NoL by assumption. exact H4d. }
    rewrite H5d. cbn [e1 with_edge n].
    eexists. split; [reflexivity|]. 
    apply Done.
    + rewrite set_par_if_at, NoE by assumption. rewrite H5d. unfold hA. rewrite cut_at by exact xe.
      rewrite Nat.eqb_refl, Hx. reflexivity.
    + intros z zd zx Hz. rewrite !set_par_if_at, At4, At3. unfold R. cbn [plug]. rewrite collapse_root.
      unfold hA. rewrite cut_at by exact xe. cbn [fid fside].
      destruct (Nat.eqb_spec z x); [congruence|]. destruct (Nat.eqb_spec z d); [congruence|].
      destruct (peq_spec (root_of et) (Some z)) as [Q|Q].
      * assert (NL : peq (root_of l) (Some z) = false).
        { apply NoL. apply root_cnt in Q. specialize (Nn z). lia. }
        rewrite NL. cbn [orb]. destruct c as [|f c].
        -- destruct (Nat.odd s); reflexivity.
        -- destruct (Nat.eqb_spec z (fid f)) as [->|].
           ++ apply root_cnt in Q. specialize (Nn (fid f)). cbn in Nn. rewrite eqn_refl in Nn. lia.
           ++ destruct (Nat.odd s); reflexivity.
      * rewrite orb_false_r. destruct c as [|f c]; [reflexivity|].
        destruct (Nat.eqb_spec z (fid f)); reflexivity.
    + intros z Hz. rewrite CN in Hz. rewrite !set_par_if_at, At4, At3.
      rewrite NoE, NoL by lia. destruct (Nat.eqb_spec z d); [subst; rewrite eqn_refl in Hz; lia|].
      destruct c as [|f c]; [reflexivity|]. destruct (Nat.eqb_spec z (fid f)); [|reflexivity].
      subst. cbn in Hz. rewrite eqn_refl in Hz. lia.
  - (* d is further below *)
    cbn [app] in C. subst C. cbn [app cpar bind]. injection EC as <- <-.
    set (f := g) in *. 
    assert (fs : fside f = false) by (apply Forall_inv in Hs; exact Hs).
    assert (fx : fid f <> x).
    { intros Q. specialize (Nn x). rewrite eqn_refl in Nn. cbn in Nn. fold f in Nn. rewrite Q, eqn_refl in Nn. lia. }
    assert (fd : fid f <> d).
    { intros Q. specialize (Nn d). rewrite eqn_refl in Nn. cbn in Nn. fold f in Nn. rewrite Q, eqn_refl in Nn. lia. }
    assert (fe : cnt (fid f) et = 0).
    { specialize (Nn (fid f)). cbn in Nn. fold f in Nn. rewrite eqn_refl in Nn. lia. }
    assert (fl : cnt (fid f) l = 0).
    { specialize (Nn (fid f)). cbn in Nn. fold f in Nn. rewrite eqn_refl in Nn. lia. }
    destruct (Nat.eqb_spec (fid f) x) as [|_]; [congruence|].
    (* the root of the right subtree *)
    destruct (root_plug (f :: dc') ltac:(discriminate)) as (w & Hw1 & Hw2).
    assert (Rr : root_of r = Some w) by (rewrite Hr; apply Hw2).
    assert (RR : root_of R = Some w) by (unfold R; apply Hw2).
    assert (wd : w <> d) by (intros ->; specialize (Nn d); rewrite eqn_refl in Nn; lia).
    assert (wx : w <> x) by (intros ->; specialize (Nn x); rewrite eqn_refl in Nn; lia).
    set (n := mkNode (cpar c) (root_of l) (root_of r) s).
    set (h1 := hput h d n).
    assert (h1d : h1 d = n) by (unfold h1, hput; now rewrite Nat.eqb_refl).
    assert (h1o : forall z, z <> d -> h1 z = h z).
    { intros z zd. unfold h1, hput. destruct (Nat.eqb_spec z d); congruence. }
    assert (Pe : edge (h (fid f)) (fside f) = Some d).
    { destruct f as [j p ps sib]. destruct (read_mk h j (N E d sd et) p ps sib _ H') as (_ & Pe & _). exact Pe. }
    set (h3 := set_par_if (collapse_p h1 (fid f) false (root_of et)) (root_of et) (Some (fid f))).
    assert (At3 : forall z, h3 z = if z =? d then n else hA z).
    { intros z. unfold h3. rewrite <- fs.
      destruct (collapse_p_cut h1 f et s d) as (_ & Cp).
      - rewrite h1o by assumption. exact Pe.
      - rewrite h1d. reflexivity.
      - congruence.
      - assumption.
      - assumption.
      - rewrite Cp. unfold hA. rewrite !cut_at by assumption.
        destruct (Nat.eqb_spec z d) as [->|zd].
        + destruct (Nat.eqb_spec d (fid f)); [congruence|]. rewrite NoE by assumption. exact h1d.
        + rewrite h1o by assumption. reflexivity. }
    assert (Pd : par (h3 d) = cpar c) by (rewrite At3, Nat.eqb_refl; reflexivity).
    assert (hAx : hA x = h x).
    { unfold hA. rewrite cut_at by assumption. destruct (Nat.eqb_spec x (fid f)); [congruence|]. now rewrite NoE. }
    assert (Px : h3 x = h x).
    { rewrite At3. destruct (Nat.eqb_spec x d); [congruence|]. exact hAx. }
    rewrite Pd, Px, Hx. cbn [par].
    assert (H4 : exists h4,
      match cpar c with
      | Some q => assert peq (cpar c) (cpar c);; (do p <- cpar c;; (do j <- idx h3 p x;; Some (set_edge h3 q j (Some d))))
      | None => Some h3
      end = Some h4 /\
      forall z, h4 z = match c with
                       | f :: _ => if z =? fid f then with_edge (hA z) (fside f) (Some d) else h3 z
                       | [] => h3 z end).
    { destruct c as [|q c]; cbn [cpar].
      - exists h3. split; reflexivity.
      - rewrite peq_refl. cbn [check bind].
        assert (qd : fid q <> d).
        { intros Q. specialize (Nn d). rewrite eqn_refl in Nn. cbn in Nn. rewrite Q, eqn_refl in Nn. lia. }
        assert (qe : cnt (fid q) et = 0).
        { specialize (Nn (fid q)). cbn in Nn. rewrite eqn_refl in Nn. lia. }
        assert (H3f : h3 (fid q) = hA (fid q)).
        { rewrite At3. destruct (Nat.eqb_spec (fid q) d); [congruence|]. reflexivity. }
        assert (Hi := idx_ok hA (N l x s R) x q c eq_refl HA').
        assert (Hi3 : idx h3 (fid q) x = Some (fside q)) by (unfold idx in *; rewrite H3f; exact Hi).
        rewrite Hi3. cbn [bind]. eexists. split; [reflexivity|]. intros z. rewrite set_edge_at.
        destruct (Nat.eqb_spec z (fid q)) as [->|]; [now rewrite H3f|reflexivity]. }
    destruct H4 as (h4 & E4 & At4). rewrite E4. cbn [bind].
    assert (H4d : h4 d = n).
    { rewrite At4. destruct c as [|q c]; [now rewrite At3, Nat.eqb_refl|].
      destruct (Nat.eqb_spec d (fid q)) as [Q|]; [|now rewrite At3, Nat.eqb_refl].
      specialize (Nn d). rewrite eqn_refl in Nn. cbn in Nn. rewrite Q, eqn_refl in Nn. lia. }
    rewrite H4d. cbn [e0 n].
    assert (H5d : set_par_if h4 (root_of l) (Some d) d = n).
    { rewrite set_par_if_at, NoL by assumption. exact H4d. }
    rewrite H5d. cbn [e1 n].
    eexists. split; [cbn; fold f; rewrite fs; reflexivity|].
    apply Done.
    + rewrite set_par_if_at, Rr. cbn [peq]. destruct (Nat.eqb_spec w d); [congruence|].
      rewrite H5d, hAx, Hx. reflexivity.
    + intros z zd zx Hz. rewrite !set_par_if_at, At4, At3. rewrite Rr, RR.
      destruct (Nat.eqb_spec z d); [congruence|].
      destruct c as [|q c].
      * destruct (peq (Some w) (Some z)), (peq (root_of l) (Some z)); reflexivity.
      * destruct (z =? fid q);
          destruct (peq (Some w) (Some z)), (peq (root_of l) (Some z)); reflexivity.
    + intros z Hz. rewrite !set_par_if_at, At4, At3.
      assert (OAz : hA z = h z) by (apply OA; rewrite <- HT; exact Hz).
      rewrite CN in Hz. rewrite NoL by lia. rewrite Rr. cbn [peq].
      destruct (Nat.eqb_spec w z); [subst; lia|].
      destruct (Nat.eqb_spec z d); [subst; rewrite eqn_refl in Hz; lia|].
      destruct c as [|q c]; [exact OAz|].
      destruct (Nat.eqb_spec z (fid q)); [|exact OAz].
      subst. cbn in Hz. rewrite eqn_refl in Hz. lia.
Qed.

Lemma remove_p_ok fuel h t c x t' c' m : has h (plug t c) -> root_of t = Some x ->
  remove_u t c = Some (t', c', m) -> depth (plug t c) < fuel ->
  exists h', remove_p fuel x h = Some (h', where_p t' c', where_i c', m) /\
    unlinked h h' (plug t c) x t' c'.
Proof.
  intros H Hn Hu Hf. destruct t as [|l x0 s r]; [discriminate|]. injection Hn as ->.
  assert (Hx := read_N _ _ _ _ _ _ H).
  unfold remove_p. rewrite Hx. cbn [e0 e1].
  destruct l as [|ll lx ls lr]; [|destruct r as [|rl rx rs rr]].
  - (* no left child *)
    cbn [root_of]. cbn [remove_u] in Hu.
    destruct (remove1_ok h E x s r c r H (or_introl (conj eq_refl eq_refl))) as (h' & E1 & U1).
    exists h'. rewrite Hx in E1. cbn [par] in E1.
    assert (Eb : edge (mkNode (cpar c) None (root_of r) s) true = root_of r) by reflexivity.
    rewrite Eb. cbn [st par].
    destruct c as [|f c]; injection Hu as <- <- <-; (split; [exact E1|exact U1]).
  - cbn [root_of]. cbn [remove_u] in Hu.
    destruct (remove1_ok h (N ll lx ls lr) x s E c (N ll lx ls lr) H (or_intror (conj eq_refl eq_refl))) as (h' & E1 & U1).
    exists h'. rewrite Hx in E1. cbn [par root_of] in E1. cbn [edge e0 st par].
    destruct c as [|f c]; injection Hu as <- <- <-; (split; [exact E1|exact U1]).
  - cbn [root_of]. cbn [remove_u] in Hu.
    destruct (start_spec (N rl rx rs rr) [] false ltac:(discriminate)) as (t2 & dc & S1 & S2 & S3 & S4 & c2 & S5 & S6 & S7).
    rewrite S1 in Hu. rewrite app_nil_r in S5. subst c2.
    destruct t2 as [|[|? ? ? ?] d sd et]; [congruence| |cbn in S4; discriminate].
    injection Hu as <- <- <-.
    assert (Hr : has h (plug (N rl rx rs rr) (mkF true x s (N ll lx ls lr) :: c))) by exact H.
    assert (S1' : start (N rl rx rs rr) (mkF true x s (N ll lx ls lr) :: c) false =
                  Some (N E d sd et, dc ++ mkF true x s (N ll lx ls lr) :: c)).
    { destruct (start_spec (N rl rx rs rr) (mkF true x s (N ll lx ls lr) :: c) false ltac:(discriminate))
        as (t3 & c3 & T1 & _).
      clear -S1.
      assert (G : forall t c k t' c', start t c false = Some (t', c') -> start t (c ++ k) false = Some (t', c' ++ k)).
      { induction t as [|l0 IHl y s0 r0 IHr]; intros c0 k t0 c1 H; [discriminate|]. cbn in *.
        destruct l0; [injection H as <- <-; reflexivity|]. apply (IHl (mkF false y s0 r0 :: c0) k). exact H. }
      exact (G _ [] _ _ _ S1). }
    assert (Hdep : depth (N rl rx rs rr) <= fuel).
    { assert (Q := depth_plug c (N (N ll lx ls lr) x s (N rl rx rs rr))). cbn [depth] in *. lia. }
    destruct (start_p_ok h _ _ _ _ _ rx fuel Hr eq_refl S1' Hdep) as (P1 & _).
    rewrite P1. cbn [root_of bind].
    destruct (swap_remove_ok h (N ll lx ls lr) x s (N rl rx rs rr) c d sd et dc H) as (h' & E1 & U1);
      [discriminate|symmetry; exact S7|exact S6|].
    exists h'. split; [exact E1|exact U1].
Qed.
