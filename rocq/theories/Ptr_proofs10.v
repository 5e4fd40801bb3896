(** Join and split on the heap. *)
From Coq Require Import ZArith List Bool Arith Lia.
From Verif Require Import Dict_model Dict_spec Dict_proofs Ptr_model Ptr_spec Ptr_proofs Ptr_proofs2 Ptr_proofs3 Ptr_proofs4 Ptr_proofs5 Ptr_proofs6 Ptr_proofs7 Ptr_proofs8 Ptr_proofs9.
Import ListNotations.

Lemma inc_if_needed_ok h t c x t' : has h (plug t c) -> root_of t = Some x ->
  inc_set_black_if_needed t = Some t' ->
  exists h', inc_if_needed h x = Some h' /\ stp h (plug t c) h' (plug t' c) /\ root_of t' = Some x.
Proof.
  intros H Hx Hi. destruct t as [|l y s r]; [discriminate|]. injection Hx as ->.
  unfold inc_if_needed. unfold inc_set_black_if_needed in Hi. cbn [red child] in Hi.
  rewrite (read_N _ _ _ _ _ _ H). cbn [st e0 e1].
  rewrite (red_p_red h l (mkF false x s r :: c) H), (red_p_red h r (mkF true x s l :: c) H).
  destruct (Nat.odd s && (red l || red r)).
  - change (N l x s r) with (mk false l x s r) in *. apply inc_set_black_inv in Hi.
    destruct Hi as (s' & Es & ->).
    destruct (upd_st_mk h false l x s r c _ _ H Es) as (h' & E1 & S1). exists h'.
    split; [exact E1|]. split; [exact S1|reflexivity].
  - injection Hi as <-. exists h. split; [reflexivity|]. split; [now apply stp_refl|reflexivity].
Qed.

(** A node gets two children and a place in a tree. *)
Lemma link_ok (h h' : heap) (i : bool) C m s R path :
  has h (plug C path) -> has h R ->
  (forall z, cnt z (plug C path) + cnt z R + eqn m z <= 1) ->
  h' m = (if i then mkNode (cpar path) (root_of R) (root_of C) s
          else mkNode (cpar path) (root_of C) (root_of R) s) ->
  (forall z, z <> m -> h' z =
     if peq (cpar path) (Some z) then
       match path with f :: _ => with_edge (h z) (fside f) (Some m) | [] => h z end
     else if peq (root_of C) (Some z) || peq (root_of R) (Some z) then with_par (h z) (Some m) else h z) ->
  has h' (plug (mk i C m s R) path).
Proof.
  intros H HR HN Em Ez.
  assert (Nz : forall z, cnt z C + cnc z path + cnt z R + eqn m z <= 1).
  { intros z. specialize (HN z). now rewrite cnt_plug in HN. }
  apply has_rep2 in H. destruct H as ((RC & Rp) & Nd).
  assert (NoP : forall z, cnc z path = 0 -> peq (cpar path) (Some z) = false).
  { intros z Hz. destruct path as [|f c]; [reflexivity|]. cbn [cpar peq].
    destruct (Nat.eqb_spec (fid f) z) as [<-|]; [|reflexivity]. cbn in Hz. rewrite eqn_refl in Hz. lia. }
  assert (Nm : forall z, 1 <= cnt z C + cnc z path + cnt z R -> z <> m).
  { intros z Hz ->. specialize (Nz m). rewrite eqn_refl in Nz. lia. }
  assert (NoC : forall z, cnt z C = 0 -> peq (root_of C) (Some z) = false).
  { intros z Hz. destruct (peq_spec (root_of C) (Some z)) as [Q|]; [apply root_cnt in Q; lia|reflexivity]. }
  assert (NoR : forall z, cnt z R = 0 -> peq (root_of R) (Some z) = false).
  { intros z Hz. destruct (peq_spec (root_of R) (Some z)) as [Q|]; [apply root_cnt in Q; lia|reflexivity]. }
  assert (RC' : rep h' (Some m) C).
  { eapply rep_reparent; [exact RC|intros z; specialize (Nz z); lia|].
    intros z Hz. rewrite Ez by (apply Nm; lia). specialize (Nz z).
    rewrite NoP, (NoR z) by lia. rewrite orb_false_r. reflexivity. }
  assert (RR' : rep h' (Some m) R).
  { eapply rep_reparent; [apply HR|apply HR|].
    intros z Hz. rewrite Ez by (apply Nm; lia). specialize (Nz z).
    rewrite NoP, (NoC z) by lia. reflexivity. }
  apply has_rep2. split; [split|].
  - destruct i; cbn [mk rep]; rewrite Em; auto.
  - rewrite root_mk. destruct path as [|f c]; [exact I|].
    apply (repc_hole h h' C (N E m s E) f c Nd Rp).
    intros z Hz. rewrite Ez by (apply Nm; lia). cbn [cpar peq]. rewrite (Nat.eqb_sym (fid f) z).
    destruct (Nat.eqb_spec z (fid f)) as [->|]; [reflexivity|].
    specialize (Nz z). rewrite NoC, NoR by lia. reflexivity.
  - intros z. specialize (Nz z). destruct i; cbn [mk cnt]; lia.
Qed.

Lemma join_find_ok h i hr : forall t f c fuel C path, has h (plug t (f :: c)) ->
  Forall (fun g => fside g = negb i) (f :: c) ->
  join_find i hr t (f :: c) = (C, path) -> depth t < fuel ->
  exists f' c', path = f' :: c' /\ Forall (fun g => fside g = negb i) path /\
    join_find_p fuel i hr (fid f) (root_of t) h = Some (fid f', root_of C) /\
    plug C path = plug t (f :: c).
Proof.
  induction t as [|l IHl x s r IHr]; intros f c fuel C path H Hs Hj Hf;
    (destruct fuel as [|fuel]; [cbn in Hf; lia|]).
  - cbn in Hj. injection Hj as <- <-. exists f, c. cbn. auto.
  - cbn [join_find_p]. rewrite (red_p_red h _ _ H), (height2_p_ok h _ _ H).
    cbn [join_find] in Hj.
    destruct (red (N l x s r) || (hr <? height2 (N l x s r))).
    + cbn [root_of bind]. rewrite (read_N _ _ _ _ _ _ H).
      destruct i; cbn [negb edge e0 e1] in *.
      * destruct (IHl (mkF false x s r) (f :: c) fuel C path) as (f' & c' & P1 & P2 & P3 & P4);
          [exact H|constructor; [reflexivity|exact Hs]|exact Hj|cbn in Hf; lia|].
        exists f', c'. auto.
      * destruct (IHr (mkF true x s l) (f :: c) fuel C path) as (f' & c' & P1 & P2 & P3 & P4);
          [exact H|constructor; [reflexivity|exact Hs]|exact Hj|cbn in Hf; lia|].
        exists f', c'. auto.
    + injection Hj as <- <-. exists f, c. auto.
Qed.

Definition join_end (fuel : nat) (i : bool) (p : nat) (root : option nat) (h : heap) : option (heap * option nat) :=
  do (h, root, p) <- join_balance_p fuel i p root h ;;
  do h <- inc_if_needed h p ;;
  Some (h, root).

Lemma join_balance_ok i : forall fuel x f c r h, length c < fuel ->
  has h (plug x (f :: c)) -> Forall (fun g => fside g = negb i) (f :: c) ->
  join_balance i x (f :: c) = Some r ->
  exists h', join_end fuel i (fid f) (root_of (plug x (f :: c))) h = Some (h', root_of r) /\
    stp h (plug x (f :: c)) h' r.
Proof.
  induction fuel as [|fuel IH]; intros x f c r h Hf H Hs Hj; [lia|].
  destruct f as [fi p ps psib]. assert (fi = negb i) as -> by exact (Forall_inv Hs).
  apply Forall_inv_tail in Hs. cbn [fid] in *.
  assert (Hp : has h (plug (mk (negb i) x p ps psib) c)) by exact H.
  destruct (read_mk _ _ _ _ _ _ _ Hp) as (Pp & Pe & _ & Ps).
  assert (Stop : forall t', inc_set_black_if_needed (mk (negb i) x p ps psib) = Some t' ->
    r = plug t' c -> exists h',
    (do h' <- inc_if_needed h p ;; Some (h', root_of (plug x (mkF (negb i) p ps psib :: c)))) = Some (h', root_of r) /\
    stp h (plug x (mkF (negb i) p ps psib :: c)) h' r).
  { intros t' Ei ->. destruct (inc_if_needed_ok h _ c p t' Hp (root_mk _ _ _ _ _) Ei) as (h' & E1 & S1 & R1).
    exists h'. rewrite E1. cbn [bind]. split; [|exact S1].
    do 2 f_equal. rewrite up. apply root_plug_eq. now rewrite root_mk. }
  unfold join_end. cbn [join_balance_p]. rewrite Pp, Ps, Pe, (red_p_red h x _ H).
  destruct c as [|g c].
  - cbn [cpar peq negb andb bind]. cbn [join_balance] in Hj.
    change (fill (mkF (negb i) p ps psib) x) with (mk (negb i) x p ps psib) in Hj.
    destruct (inc_set_black_if_needed (mk (negb i) x p ps psib)) as [t'|]; [|discriminate].
    cbn [bind] in Hj. injection Hj as <-. now apply (Stop t').
  - destruct g as [gi q qs qsib]. assert (gi = negb i) as -> by exact (Forall_inv Hs).
    apply Forall_inv_tail in Hs. cbn [cpar fid peq negb andb].
    cbn [join_balance fst_ fid fside fsib] in Hj.
    destruct (Nat.odd ps && red x) eqn:Er.
    2:{ cbn [bind]. change (fill (mkF (negb i) p ps psib) x) with (mk (negb i) x p ps psib) in Hj.
        destruct (inc_set_black_if_needed (mk (negb i) x p ps psib)) as [t'|]; [|discriminate].
        cbn [bind] in Hj. injection Hj as <-. now apply (Stop t'). }
    clear Stop. apply andb_prop in Er. destruct Er as (Op & Rx). cbn [bind].
    assert (Hq : has h (plug (mk (negb i) (mk (negb i) x p ps psib) q qs qsib) c)) by exact H.
    destruct (read_mk _ _ _ _ _ _ _ Hq) as (_ & _ & _ & Sq). rewrite Sq.
    destruct (Nat.odd qs) eqn:Oq; [discriminate|]. cbn [negb check] in Hj |- *.
    destruct x as [|xl xx xs xr]; [discriminate|]. change (N xl xx xs xr) with (mk false xl xx xs xr) in *.
    destruct (inc_set_black (mk false xl xx xs xr)) as [x'|] eqn:Ei; [|discriminate]. cbn [bind] in Hj.
    apply inc_set_black_inv in Ei. destruct Ei as (xs' & Exs & ->). rewrite root_mk. cbn [bind].
    destruct (upd_st_mk h false xl xx xs xr _ _ _ H Exs) as (h1 & E1 & S1). rewrite E1. cbn [bind].
    set (X' := mk false xl xx xs' xr) in *.
    assert (H1 : has h1 (plug (mk (negb i) X' p ps psib) (mkF (negb i) q qs qsib :: c))) by apply S1.
    destruct (read_mk _ _ _ _ _ _ _ H1) as (_ & _ & _ & Sp1). rewrite Sp1.
    assert (S2 := set_st_mk h1 (negb i) X' p ps psib _ (st_inc ps) H1).
    set (h2 := set_st h1 p (st_inc ps)) in *.
    set (P' := mk (negb i) X' p (st_inc ps) psib) in *.
    assert (Er : rotate i (mk (negb i) P' q qs qsib) = Some (mk (negb i) X' p (st_inc ps) (mk (negb i) psib q qs qsib)))
      by (unfold P'; destruct i; reflexivity).
    assert (Hj' : match c with [] => inc_set_black_if_needed (mk (negb i) X' p (st_inc ps) (mk (negb i) psib q qs qsib))
      | _ :: _ => join_balance i (mk (negb i) X' p (st_inc ps) (mk (negb i) psib q qs qsib)) c end = Some r).
    { rewrite <- Hj. change (fill (mkF (negb i) q qs qsib) (fill (mkF (negb i) p (st_inc ps) psib) X')) with (mk (negb i) P' q qs qsib).
      rewrite Er. reflexivity. }
    clear Hj. rename Hj' into Hj.
    set (top := mk (negb i) X' p (st_inc ps) (mk (negb i) psib q qs qsib)) in *.
    destruct (rotate_stp_root h2 i (mk (negb i) P' q qs qsib) c q top (proj1 S2) (root_mk _ _ _ _ _) Er) as (h3 & E3 & S3).
    assert (Rt : root_of (plug (mk false xl xx xs xr) (mkF (negb i) p ps psib :: mkF (negb i) q qs qsib :: c)) =
                 root_of (plug (mk (negb i) P' q qs qsib) c)).
    { rewrite !up. apply root_plug_eq. now rewrite !root_mk. }
    rewrite Rt, E3. cbn [bind].
    assert (S13 : stp h (plug (mk false xl xx xs xr) (mkF (negb i) p ps psib :: mkF (negb i) q qs qsib :: c)) h3 (plug top c)).
    { eapply stp_trans; [exact S1|]. eapply stp_trans; [exact S2|exact S3]. }
    assert (H3 : has h3 (plug top c)) by apply S13.
    destruct (read_mk _ _ _ _ _ _ _ H3) as (P3 & _ & _ & _). rewrite P3.
    destruct c as [|g c]; cbn [cpar].
    + cbn [bind]. destruct (inc_if_needed_ok h3 top [] p r H3 (root_mk _ _ _ _ _) Hj) as (h4 & E4 & S4 & R4).
      rewrite E4. cbn [bind]. exists h4. split; [|eapply stp_trans; [exact S13|exact S4]].
      cbn [plug]. rewrite R4. unfold top. now rewrite root_mk.
    + destruct (IH top g c r h3) as (h4 & E4 & S4); [cbn in Hf; lia|exact H3|exact Hs|exact Hj|].
      exists h4. split; [exact E4|eapply stp_trans; [exact S13|exact S4]].
Qed.

Lemma set_child_par_at h x i v z : v <> Some x -> set_child_par h x i v z =
  if z =? x then with_edge (h z) i v else if peq v (Some z) then with_par (h z) (Some x) else h z.
Proof.
  intros Hv. unfold set_child_par. rewrite set_par_if_at, set_edge_at.
  destruct (Nat.eqb_spec z x) as [->|].
  - destruct (peq_spec v (Some x)); [congruence|reflexivity].
  - reflexivity.
Qed.

(** The part of [join3] after the trees have been ordered by height. *)
Definition join3_core (i : bool) (l : tree) (m : nat) (r : tree) : option tree :=
  do r <- (if (height2 r <? height2 l) && red r then inc_set_black r else Some r) ;;
  if height2 l =? height2 r then
    do t <- inc_set_black_if_needed (mk i l m (height2 l + 1) r) ;;
    assert (very_good_tree t) ;;
    Some t
  else
    assert (negb (red r)) ;;
    assert (height2 r <? height2 l) ;;
    match frame_of l (negb i) with
    | None => None
    | Some f =>
      let '(c, path) := join_find i (height2 r) (child l (negb i)) [f] in
      let mt := mk i c m (height2 c + 1) r in
      assert (good_tree mt true) ;;
      do t <- join_balance i mt path ;;
      assert (very_good_tree t) ;;
      Some t
    end.
Definition join3_core_p (fuel : nat) (i : bool) (l : option nat) (m : nat) (r : option nat) (h : heap)
  : option (heap * option nat) :=
  do h <- (if (height2_p h r <? height2_p h l) && red_p h r
           then do r <- r ;; upd_st h r st_inc_set_black else Some h) ;;
  if height2_p h l =? height2_p h r then
    let h := set_child_par h m i l in
    let h := set_child_par h m (negb i) r in
    let h := set_st h m (height2_p h l + 1) in
    do h <- inc_if_needed h m ;;
    Some (h, Some m)
  else
    assert (negb (red_p h r)) ;;
    assert (height2_p h r <? height2_p h l) ;;
    do l <- l ;;
    do (p, c) <- join_find_p fuel i (height2_p h r) l (edge (h l) (negb i)) h ;;
    let h := set_child_par h p (negb i) (Some m) in
    let h := set_child_par h m i c in
    let h := set_child_par h m (negb i) r in
    let h := set_st h m (height2_p h c + 1) in
    do (h, root, p) <- join_balance_p fuel i p (Some l) h ;;
    do h <- inc_if_needed h p ;;
    Some (h, root).

Definition joined (h h' : heap) (l : tree) (m : nat) (r t : tree) : Prop :=
  has h' t /\ (forall z, cnt z l = 0 -> cnt z r = 0 -> z <> m -> h' z = h z) /\
  (forall z, cnt z t = cnt z l + cnt z r + eqn m z).

Lemma has_keep h T h' T' U : stp h T h' T' -> has h U -> (forall z, cnt z T + cnt z U <= 1) -> has h' U.
Proof.
  intros (_ & O & _) (HR & HN) Hd. split; [|exact HN].
  eapply rep_frame; [|exact HR]. intros z Hz. apply O. specialize (Hd z). lia.
Qed.

Lemma join3_core_ok fuel i l m r h t : has h l -> has h r ->
  (forall z, cnt z l + cnt z r + eqn m z <= 1) -> h m = mkNode None None None (st (h m)) ->
  join3_core i l m r = Some t -> size l + size r < fuel ->
  exists h', join3_core_p fuel i (root_of l) m (root_of r) h = Some (h', root_of t) /\ joined h h' l m r t.
Proof.
  intros Hl Hr HN Hm Hj Hf. unfold join3_core in Hj. unfold join3_core_p.
  rewrite (height2_p_ok h l [] Hl), (height2_p_ok h r [] Hr), (red_p_red h r [] Hr).
  destruct (if (height2 r <? height2 l) && red r then inc_set_black r else Some r) as [r1|] eqn:E1; [|discriminate].
  cbn [bind] in Hj.
  assert (P1 : exists h1,
    (if (height2 r <? height2 l) && red r then do r0 <- root_of r ;; upd_st h r0 st_inc_set_black else Some h) = Some h1 /\
    stp h r h1 r1 /\ root_of r1 = root_of r /\ size r1 = size r).
  { destruct ((height2 r <? height2 l) && red r).
    - destruct r as [|rl rx rs rr]; [discriminate|]. change (N rl rx rs rr) with (mk false rl rx rs rr) in *.
      apply inc_set_black_inv in E1. destruct E1 as (s' & Es & ->). rewrite root_mk. cbn [bind].
      destruct (upd_st_mk h false rl rx rs rr [] _ _ Hr Es) as (h1 & E1 & S1). exists h1.
      split; [exact E1|]. split; [exact S1|]. split; reflexivity.
    - injection E1 as <-. exists h. split; [reflexivity|]. split; [now apply stp_refl|]. split; reflexivity. }
  destruct P1 as (h1 & Ep & S1 & Rr & Sr). rewrite Ep. cbn [bind]. clear Ep E1.
  assert (Hr1 : has h1 r1) by apply S1.
  assert (Hl1 : has h1 l).
  { apply (has_keep h r h1 r1 l S1 Hl). intros z. specialize (HN z). lia. }
  assert (Cr : forall z, cnt z r1 = cnt z r) by apply S1.
  assert (Nm : cnt m r = 0 /\ cnt m l = 0).
  { specialize (HN m). rewrite eqn_refl in HN. lia. }
  destruct Nm as (Nmr & Nml).
  assert (Hm1 : h1 m = mkNode None None None (st (h1 m))).
  { destruct S1 as (_ & O & _). rewrite O by exact Nmr. exact Hm. }
  assert (HN1 : forall z, cnt z l + cnt z r1 + eqn m z <= 1) by (intros z; rewrite Cr; apply HN).
  rewrite <- Rr.
  assert (Tr : forall h' t', joined h1 h' l m r1 t' -> joined h h' l m r t').
  { intros h' t' (J1 & J2 & J3). split; [exact J1|]. split.
    - intros z Z1 Z2 Z3. rewrite J2; [|exact Z1|now rewrite Cr|exact Z3].
      destruct S1 as (_ & O & _). now apply O.
    - intros z. rewrite J3, Cr. reflexivity. }
  assert (G : exists h', 
    (if height2_p h1 (root_of l) =? height2_p h1 (root_of r1) then
      let h := set_child_par h1 m i (root_of l) in
      let h := set_child_par h m (negb i) (root_of r1) in
      let h := set_st h m (height2_p h (root_of l) + 1) in
      do h <- inc_if_needed h m ;;
      Some (h, Some m)
    else
      assert (negb (red_p h1 (root_of r1))) ;;
      assert (height2_p h1 (root_of r1) <? height2_p h1 (root_of l)) ;;
      do l <- root_of l ;;
      do (p, c) <- join_find_p fuel i (height2_p h1 (root_of r1)) l (edge (h1 l) (negb i)) h1 ;;
      let h := set_child_par h1 p (negb i) (Some m) in
      let h := set_child_par h m i c in
      let h := set_child_par h m (negb i) (root_of r1) in
      let h := set_st h m (height2_p h c + 1) in
      do (h, root, p) <- join_balance_p fuel i p (Some l) h ;;
      do h <- inc_if_needed h p ;;
      Some (h, root)) = Some (h', root_of t) /\ joined h1 h' l m r1 t).
  2:{ destruct G as (h' & E2 & J). exists h'. split; [exact E2|]. now apply Tr. }
  clear Tr S1 Hl Hr Hm HN h. rename h1 into h. rewrite <- Sr in Hf. clear Sr.
  assert (Nmr1 : cnt m r1 = 0) by (rewrite Cr; exact Nmr). clear Nmr Cr Rr r. rename r1 into r.
  rename Hr1 into Hr, Hl1 into Hl, Hm1 into Hm, HN1 into HN, Nmr1 into Nmr.
  rewrite (height2_p_ok h l [] Hl), (height2_p_ok h r [] Hr), (red_p_red h r [] Hr).
  assert (rm : root_of r <> Some m) by (intros Q; apply root_cnt in Q; lia).
  assert (lm : root_of l <> Some m) by (intros Q; apply root_cnt in Q; lia).
  assert (NoR : forall z, cnt z r = 0 -> peq (root_of r) (Some z) = false).
  { intros z Hz. destruct (peq_spec (root_of r) (Some z)) as [Q|]; [apply root_cnt in Q; lia|reflexivity]. }
  assert (NoL : forall z, cnt z l = 0 -> peq (root_of l) (Some z) = false).
  { intros z Hz. destruct (peq_spec (root_of l) (Some z)) as [Q|]; [apply root_cnt in Q; lia|reflexivity]. }
  destruct (height2 l =? height2 r).
  - (* same height *)
    cbv zeta.
    set (h1 := set_child_par h m i (root_of l)). set (h2 := set_child_par h1 m (negb i) (root_of r)).
    assert (A2 : forall z, h2 z = if z =? m then with_edge (with_edge (h m) i (root_of l)) (negb i) (root_of r)
      else if peq (root_of r) (Some z) || peq (root_of l) (Some z) then with_par (h z) (Some m) else h z).
    { intros z. unfold h2. rewrite set_child_par_at by exact rm. unfold h1. rewrite set_child_par_at by exact lm.
      destruct (Nat.eqb_spec z m) as [->|]; [reflexivity|].
      destruct (peq (root_of r) (Some z)), (peq (root_of l) (Some z)); reflexivity. }
    assert (Hh : height2_p h2 (root_of l) = height2 l).
    { rewrite <- (height2_p_ok h l [] Hl). unfold height2_p.
      destruct (root_of l) as [lx|] eqn:El; [|reflexivity]. rewrite A2.
      destruct (Nat.eqb_spec lx m); [congruence|]. destruct (_ || _); reflexivity. }
    rewrite Hh. set (s := height2 l + 1) in *. set (h3 := set_st h2 m s).
    destruct (inc_set_black_if_needed (mk i l m s r)) as [t'|] eqn:Ei; [|discriminate]. cbn [bind] in Hj.
    destruct (very_good_tree t'); [|discriminate]. cbn [check] in Hj. injection Hj as <-.
    assert (H3 : has h3 (plug (mk i l m s r) [])).
    { apply (link_ok h h3 i l m s r []); [exact Hl|exact Hr|exact HN| |].
      - unfold h3. rewrite set_st_at, Nat.eqb_refl, A2, Nat.eqb_refl, Hm. destruct i; reflexivity.
      - intros z zm. unfold h3. rewrite set_st_at, A2. destruct (Nat.eqb_spec z m); [congruence|].
        cbn [cpar peq]. rewrite (orb_comm (peq (root_of r) _)). reflexivity. }
    destruct (inc_if_needed_ok h3 _ [] m t' H3 (root_mk _ _ _ _ _) Ei) as (h4 & E4 & S4 & R4).
    rewrite E4. cbn [bind]. exists h4. rewrite R4. split; [reflexivity|].
    assert (Cm : forall z, cnt z (mk i l m s r) = cnt z l + cnt z r + eqn m z).
    { intros z. destruct i; cbn [mk cnt]; lia. }
    destruct S4 as (J1 & J2 & J3). split; [exact J1|]. split.
    + intros z Z1 Z2 Z3. rewrite J2.
      * unfold h3. rewrite set_st_at, A2. destruct (Nat.eqb_spec z m); [congruence|].
        now rewrite NoR, NoL.
      * cbn [plug]. rewrite Cm. unfold eqn. destruct (Nat.eqb_spec m z); [congruence|lia].
    + intros z. cbn [plug] in J3. rewrite J3, Cm. lia.
  - (* r is attached further below *)
    destruct (red r); [discriminate|]. cbn [negb check] in Hj |- *.
    destruct (height2 r <? height2 l) eqn:Elt; [|discriminate]. cbn [check] in Hj |- *.
    assert (Nl : l <> E) by (intros ->; discriminate).
    destruct (mk_child l (negb i) Nl) as (lx & ls & El).
    set (a := child l (negb i)) in *. set (b := child l (negb (negb i))) in *. clearbody a b.
    assert (Ef : frame_of l (negb i) = Some (mkF (negb i) lx ls b)) by (rewrite El; destruct i; reflexivity).
    rewrite Ef in Hj. 
    assert (Rl : root_of l = Some lx) by (rewrite El; apply root_mk).
    rewrite Rl. cbn [bind].
    destruct (join_find i (height2 r) a [mkF (negb i) lx ls b]) as (C, path) eqn:Ejf.
    assert (Hla : has h (plug a [mkF (negb i) lx ls b])) by (cbn [plug]; unfold fill; cbn [fside fid fst_ fsib]; rewrite <- El; exact Hl).
    assert (Hl' : has h (plug (mk (negb i) a lx ls b) [])) by exact Hla.
    destruct (read_mk _ _ _ _ _ _ _ Hl') as (_ & Ea & _ & _). rewrite Ea.
    destruct (join_find_ok h i (height2 r) a (mkF (negb i) lx ls b) [] fuel C path Hla) as (f & c & -> & Fs & Ejp & Pl).
    { constructor; [reflexivity|constructor]. }
    { exact Ejf. }
    { assert (Q := depth_size l). assert (Q2 : depth a < depth l) by (rewrite El; destruct i; cbn; lia). lia. }
    cbn [fid] in Ejp. rewrite Ejp. cbn [bind].
    assert (Pl' : plug C (f :: c) = l) by (rewrite Pl; symmetry; exact El).
    assert (fs : fside f = negb i) by exact (Forall_inv Fs).
    assert (Nz : forall z, cnt z C + cnc z (f :: c) + cnt z r + eqn m z <= 1).
    { intros z. rewrite <- cnt_plug, Pl'. apply HN. }
    assert (fm : fid f <> m).
    { intros Q. specialize (Nz m). rewrite eqn_refl in Nz. cbn in Nz. rewrite Q, eqn_refl in Nz. lia. }
    assert (Cm : root_of C <> Some m).
    { intros Q. apply root_cnt in Q. specialize (Nz m). rewrite eqn_refl in Nz. lia. }
    set (mt := mk i C m (height2 C + 1) r) in *. cbv zeta in Hj |- *.
    destruct (good_tree mt true); [|discriminate]. cbn [check] in Hj.
    destruct (join_balance i mt (f :: c)) as [t'|] eqn:Ejb; [|discriminate]. cbn [bind] in Hj.
    destruct (very_good_tree t'); [|discriminate]. cbn [check] in Hj. injection Hj as <-.
    set (h1 := set_child_par h (fid f) (negb i) (Some m)).
    set (h2 := set_child_par h1 m i (root_of C)).
    set (h3 := set_child_par h2 m (negb i) (root_of r)).
    assert (A3 : forall z, h3 z =
      if z =? m then with_edge (with_edge (with_par (h m) (Some (fid f))) i (root_of C)) (negb i) (root_of r)
      else if z =? fid f then with_edge (h z) (negb i) (Some m)
      else if peq (root_of C) (Some z) || peq (root_of r) (Some z) then with_par (h z) (Some m) else h z).
    { intros z. unfold h3. rewrite set_child_par_at by exact rm. unfold h2. rewrite set_child_par_at by exact Cm.
      unfold h1. rewrite set_child_par_at by congruence. cbn [peq].
      destruct (Nat.eqb_spec z m) as [->|zm].
      - destruct (Nat.eqb_spec m (fid f)); [congruence|]. rewrite Nat.eqb_refl. reflexivity.
      - destruct (Nat.eqb_spec m z); [congruence|].
        destruct (Nat.eqb_spec z (fid f)) as [->|].
        + assert (peq (root_of C) (Some (fid f)) = false) as ->.
          { destruct (peq_spec (root_of C) (Some (fid f))) as [Q|]; [|reflexivity]. apply root_cnt in Q.
            specialize (Nz (fid f)). cbn in Nz. rewrite eqn_refl in Nz. lia. }
          rewrite NoR by (specialize (Nz (fid f)); cbn in Nz; rewrite eqn_refl in Nz; lia). reflexivity.
        + destruct (peq (root_of r) (Some z)), (peq (root_of C) (Some z)); reflexivity. }
    assert (HCh : has h (plug C (f :: c))) by (rewrite Pl'; exact Hl).
    assert (Hh : height2_p h3 (root_of C) = height2 C).
    { rewrite <- (height2_p_ok h C _ HCh). unfold height2_p.
      destruct (root_of C) as [cx|] eqn:EC; [|reflexivity]. rewrite A3.
      destruct (Nat.eqb_spec cx m); [congruence|].
      destruct (cx =? fid f); [destruct i; reflexivity|].
      destruct (_ || _); reflexivity. }
    rewrite Hh. set (h4 := set_st h3 m (height2 C + 1)).
    assert (H4 : has h4 (plug mt (f :: c))).
    { apply (link_ok h h4 i C m (height2 C + 1) r (f :: c)); [exact HCh|exact Hr|rewrite Pl'; exact HN| |].
      - unfold h4. rewrite set_st_at, Nat.eqb_refl, A3, Nat.eqb_refl, Hm. destruct i; reflexivity.
      - intros z zm. unfold h4. rewrite set_st_at, A3. destruct (Nat.eqb_spec z m); [congruence|].
        cbn [cpar peq]. rewrite (Nat.eqb_sym (fid f) z), fs. destruct (Nat.eqb_spec z (fid f)); reflexivity. }
    destruct (join_balance_ok i fuel mt f c t' h4) as (h5 & E5 & S5); [|exact H4|exact Fs|exact Ejb|].
    { assert (Q := depth_plug (f :: c) C). rewrite Pl' in Q. assert (Q2 := depth_size l). cbn [length] in Q. lia. }
    unfold join_end in E5.
    assert (Rt : root_of (plug mt (f :: c)) = Some lx).
    { destruct (root_plug (f :: c)) as (w & _ & Hw); [discriminate|].
      rewrite <- Rl, <- Pl', !Hw. reflexivity. }
    rewrite Rt in E5. exists h5. split; [exact E5|].
    assert (Cmt : forall z, cnt z (plug mt (f :: c)) = cnt z l + cnt z r + eqn m z).
    { intros z. rewrite <- Pl', !cnt_plug. unfold mt. destruct i; cbn [mk cnt]; lia. }
    destruct S5 as (J1 & J2 & J3). split; [exact J1|]. split.
    + intros z Z1 Z2 Z3. rewrite J2.
      * unfold h4. rewrite set_st_at, A3. destruct (Nat.eqb_spec z m); [congruence|].
        rewrite <- Pl', cnt_plug in Z1. rewrite NoR by exact Z2.
        destruct (Nat.eqb_spec z (fid f)); [subst; cbn in Z1; rewrite eqn_refl in Z1; lia|].
        destruct (peq_spec (root_of C) (Some z)) as [Q|]; [apply root_cnt in Q; lia|reflexivity].
      * rewrite Cmt. unfold eqn. destruct (Nat.eqb_spec m z); [congruence|lia].
    + intros z. rewrite J3, Cmt. lia.
Qed.

Lemma join3_ok fuel l m r h t : has h l -> has h r ->
  (forall z, cnt z l + cnt z r + eqn m z <= 1) -> h m = mkNode None None None (st (h m)) ->
  join3 l m r = Some t -> size l + size r < fuel ->
  exists h', join3_p fuel (root_of l) m (root_of r) h = Some (h', root_of t) /\ joined h h' l m r t.
Proof.
  intros Hl Hr HN Hm Hj Hf. unfold join3_p.
  assert (is_member h m = false) as -> by (unfold is_member; rewrite Hm; reflexivity).
  cbn [negb check].
  assert (match root_of l with None => true | Some x => peq (par (h x)) None end = true) as ->.
  { assert (Q := has_root h l Hl). destruct (root_of l); [now rewrite Q|reflexivity]. }
  assert (match root_of r with None => true | Some x => peq (par (h x)) None end = true) as ->.
  { assert (Q := has_root h r Hr). destruct (root_of r); [now rewrite Q|reflexivity]. }
  cbn [check]. rewrite (height2_p_ok h l [] Hl), (height2_p_ok h r [] Hr).
  unfold join3 in Hj. destruct (height2 l <? height2 r).
  - destruct (join3_core_ok fuel true r m l h t Hr Hl) as (h' & E1 & J1 & J2 & J3);
      [intros z; specialize (HN z); lia|exact Hm|exact Hj|lia|].
    exists h'. split; [exact E1|]. split; [exact J1|]. split.
    + intros z Z1 Z2 Z3. now apply J2.
    + intros z. rewrite J3. lia.
  - apply (join3_core_ok fuel false l m r h t Hl Hr HN Hm Hj Hf).
Qed.

Lemma join2_ok fuel l r h t : has h l -> has h r ->
  (forall z, cnt z l + cnt z r <= 1) -> join2 l r = Some t -> 2 * (size l + size r) + 4 < fuel ->
  exists h', join2_p fuel (root_of l) (root_of r) h = Some (h', root_of t) /\
    has h' t /\ (forall z, cnt z l = 0 -> cnt z r = 0 -> h' z = h z) /\
    (forall z, cnt z t = cnt z l + cnt z r).
Proof.
  intros Hl Hr HN Hj Hf. unfold join2 in Hj. unfold join2_p.
  destruct l as [|ll lx ls lr].
  { injection Hj as <-. exists h. cbn. repeat split; auto; apply Hr. }
  destruct r as [|rl rx rs rr].
  { injection Hj as <-. exists h. split; [reflexivity|]. split; [exact Hl|]. split; [reflexivity|].
    intros z. cbn. lia. }
  set (l := N ll lx ls lr) in *. set (r := N rl rx rs rr) in *.
  change (root_of l) with (Some lx). change (root_of r) with (Some rx).
  destruct (extract_start r false) as [(e, r1)|] eqn:Ee; [|discriminate]. cbn [bind] in Hj.
  destruct (extract_start_ok fuel h r false e r1 Hr Ee) as (h1 & E1 & H1 & O1 & C1 & X1); [lia|].
  change (root_of r) with (Some rx) in E1. rewrite E1. cbn [bind].
  destruct e as [m|]; [|discriminate]. cbn [bind].
  assert (Hl1 : has h1 l).
  { split; [|apply Hl]. eapply rep_frame; [|apply Hl]. intros z Hz. apply O1. specialize (HN z). lia. }
  destruct (join3_ok fuel l m r1 h1 t Hl1 H1) as (h2 & E2 & J1 & J2 & J3).
  - intros z. specialize (HN z). rewrite C1 in HN. lia.
  - rewrite X1. reflexivity.
  - exact Hj.
  - assert (size r1 <= size r) by (apply size_sub; [apply H1|intros z; rewrite C1; lia]). lia.
  - exists h2. change (Some lx) with (root_of l). split; [exact E2|]. split; [exact J1|]. split.
    + intros z Z1 Z2. assert (Z3 := Z2). rewrite C1 in Z3. rewrite J2; [now apply O1|exact Z1|lia|].
      intros ->. rewrite eqn_refl in Z3. lia.
    + intros z. rewrite J3, C1. lia.
Qed.

Lemma split_ok cmp back : forall n fuel h l r, has h n -> split cmp back n = Some (l, r) ->
  size n + 1 < fuel ->
  exists h', split_p fuel cmp back (root_of n) h = Some (h', root_of l, root_of r) /\
    has h' l /\ has h' r /\ (forall z, cnt z n = 0 -> h' z = h z) /\
    (forall z, cnt z n = cnt z l + cnt z r).
Proof.
  induction n as [|nl IHl x s nr IHr]; intros fuel h l r H Hs Hf; (destruct fuel as [|fuel]; [lia|]).
  - cbn in Hs. injection Hs as <- <-. exists h. cbn. repeat split; auto; cbn; lia.
  - cbn [split_p root_of]. cbn [split] in Hs.
    assert (Hx := read_N h nl x s nr [] H). cbn [cpar] in Hx. rewrite Hx. cbn [par peq check e0].
    assert (Nn : forall z, eqn x z + (cnt z nl + cnt z nr) <= 1) by apply H.
    assert (xl : cnt x nl = 0) by (specialize (Nn x); rewrite eqn_refl in Nn; lia).
    assert (xr : cnt x nr = 0) by (specialize (Nn x); rewrite eqn_refl in Nn; lia).
    assert (NoL : forall z, cnt z nl = 0 -> peq (root_of nl) (Some z) = false).
    { intros z Hz. destruct (peq_spec (root_of nl) (Some z)) as [Q|]; [apply root_cnt in Q; lia|reflexivity]. }
    assert (NoR : forall z, cnt z nr = 0 -> peq (root_of nr) (Some z) = false).
    { intros z Hz. destruct (peq_spec (root_of nr) (Some z)) as [Q|]; [apply root_cnt in Q; lia|reflexivity]. }
    assert (E1 : e1 (set_par_if (set_edge h x false None) (root_of nl) None x) = root_of nr).
    { rewrite set_par_if_at, NoL by exact xl. rewrite set_edge_at, Nat.eqb_refl, Hx. reflexivity. }
    cbv zeta. rewrite E1.
    set (h1 := set_par_if (set_edge (set_par_if (set_edge h x false None) (root_of nl) None) x true None) (root_of nr) None).
    assert (A1 : forall z, h1 z = if z =? x then mkNode None None None s
      else if peq (root_of nl) (Some z) || peq (root_of nr) (Some z) then with_par (h z) None else h z).
    { intros z. unfold h1. rewrite set_par_if_at, set_edge_at, set_par_if_at, set_edge_at.
      destruct (Nat.eqb_spec z x) as [->|].
      - rewrite NoL, NoR by assumption. rewrite Hx. reflexivity.
      - destruct (peq (root_of nl) (Some z)), (peq (root_of nr) (Some z)); reflexivity. }
    assert (X1 : h1 x = mkNode None None None s) by (rewrite A1, Nat.eqb_refl; reflexivity).
    assert (is_member h1 x = false) as -> by (unfold is_member; rewrite X1; reflexivity).
    cbn [negb check].
    destruct H as ((_ & Rl & Rr) & _).
    assert (Hl1 : has h1 nl).
    { split; [|intros z; specialize (Nn z); lia]. eapply rep_reparent; [exact Rl|intros z; specialize (Nn z); lia|].
      intros z Hz. rewrite A1. destruct (Nat.eqb_spec z x) as [->|]; [lia|].
      rewrite NoR by (specialize (Nn z); lia). now rewrite orb_false_r. }
    assert (Hr1 : has h1 nr).
    { split; [|intros z; specialize (Nn z); lia]. eapply rep_reparent; [exact Rr|intros z; specialize (Nn z); lia|].
      intros z Hz. rewrite A1. destruct (Nat.eqb_spec z x) as [->|]; [lia|].
      rewrite NoL by (specialize (Nn z); lia). reflexivity. }
    assert (O1 : forall z, cnt z (N nl x s nr) = 0 -> h1 z = h z).
    { intros z Hz. cbn in Hz. rewrite A1. rewrite NoL, NoR by lia.
      destruct (Nat.eqb_spec z x) as [->|]; [rewrite eqn_refl in Hz; lia|reflexivity]. }
    assert (Sz : size (N nl x s nr) = size nl + size nr + 1).
    { unfold size. cbn. rewrite app_length. cbn. lia. }
    destruct (Z.b2z back <=? cmp x)%Z.
    + destruct (split cmp back nr) as [(nm, r')|] eqn:Es; [|discriminate]. cbn [bind] in Hs.
      destruct (join3 nl x nm) as [l'|] eqn:Ej; [|discriminate]. cbn [bind] in Hs. injection Hs as <- <-.
      destruct (IHr fuel h1 nm r' Hr1 eq_refl) as (h2 & E2 & M2 & R2 & O2 & C2); [lia|].
      rewrite E2. cbn [bind].
      assert (Hl2 : has h2 nl).
      { split; [|apply Hl1]. eapply rep_frame; [|apply Hl1]. intros z Hz. apply O2. specialize (Nn z). lia. }
      assert (X2 : h2 x = mkNode None None None s) by (rewrite O2 by exact xr; exact X1).
      destruct (join3_ok fuel nl x nm h2 l' Hl2 M2) as (h3 & E3 & J1 & J2 & J3).
      { intros z. specialize (Nn z). rewrite C2 in Nn. lia. }
      { rewrite X2. reflexivity. }
      { exact Ej. }
      { assert (size nm <= size nr) by (apply size_sub; [apply M2|intros z; rewrite C2; lia]). lia. }
      rewrite E3. cbn [bind]. exists h3. split; [reflexivity|]. split; [exact J1|]. split; [|split].
      * split; [|apply R2]. eapply rep_frame; [|apply R2]. intros z Hz.
        assert (Q := Nn z). rewrite C2 in Q. apply J2; try lia. intros ->. rewrite eqn_refl in Q. lia.
      * intros z Hz. assert (Q := Hz). cbn in Q. rewrite C2 in Q. rewrite J2; try lia.
        -- rewrite O2 by (cbn in Hz; lia). now apply O1.
        -- intros ->. rewrite eqn_refl in Q. lia.
      * intros z. cbn. rewrite J3, C2. lia.
    + destruct (split cmp back nl) as [(l', nm)|] eqn:Es; [|discriminate]. cbn [bind] in Hs.
      destruct (join3 nm x nr) as [r'|] eqn:Ej; [|discriminate]. cbn [bind] in Hs. injection Hs as <- <-.
      destruct (IHl fuel h1 l' nm Hl1 eq_refl) as (h2 & E2 & L2 & M2 & O2 & C2); [lia|].
      rewrite E2. cbn [bind].
      assert (Hr2 : has h2 nr).
      { split; [|apply Hr1]. eapply rep_frame; [|apply Hr1]. intros z Hz. apply O2. specialize (Nn z). lia. }
      assert (X2 : h2 x = mkNode None None None s) by (rewrite O2 by exact xl; exact X1).
      destruct (join3_ok fuel nm x nr h2 r' M2 Hr2) as (h3 & E3 & J1 & J2 & J3).
      { intros z. specialize (Nn z). rewrite C2 in Nn. lia. }
      { rewrite X2. reflexivity. }
      { exact Ej. }
      { assert (size nm <= size nl) by (apply size_sub; [apply M2|intros z; rewrite C2; lia]). lia. }
      rewrite E3. cbn [bind]. exists h3. split; [reflexivity|]. split; [|split; [exact J1|split]].
      * split; [|apply L2]. eapply rep_frame; [|apply L2]. intros z Hz.
        assert (Q := Nn z). rewrite C2 in Q. apply J2; try lia. intros ->. rewrite eqn_refl in Q. lia.
      * intros z Hz. assert (Q := Hz). cbn in Q. rewrite C2 in Q. rewrite J2; try lia.
        -- rewrite O2 by (cbn in Hz; lia). now apply O1.
        -- intros ->. rewrite eqn_refl in Q. lia.
      * intros z. cbn. rewrite J3, C2. lia.
Qed.
