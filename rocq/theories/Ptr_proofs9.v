(** Removal on the heap. *)
From Coq Require Import List Bool Arith Lia.
From Verif Require Import Dict_model Dict_spec Dict_proofs Ptr_model Ptr_spec Ptr_proofs Ptr_proofs2 Ptr_proofs3 Ptr_proofs4 Ptr_proofs5 Ptr_proofs6 Ptr_proofs7 Ptr_proofs8.
Import ListNotations.

Definition size (t : tree) : nat := length (inorder t).

Lemma depth_size t : depth t <= size t.
Proof.
  unfold size. induction t as [|l IHl x s r IHr]; cbn; [lia|].
  rewrite app_length. cbn. lia.
Qed.

Lemma size_sub t t' : (forall z, cnt z t <= 1) -> (forall z, cnt z t <= cnt z t') -> size t <= size t'.
Proof.
  intros Hn Hi. apply NoDup_incl_length.
  - now apply cnt_nodup.
  - intros z Hz. apply cnt_in. apply cnt_in in Hz. specialize (Hi z). lia.
Qed.

Lemma find_cnt z t : forall c, 1 <= cnt z t ->
  exists t' c', plug t' c' = plug t c /\ root_of t' = Some z.
Proof.
  induction t as [|l IHl x s r IHr]; intros c Hz; cbn in Hz; [lia|].
  unfold eqn in Hz. destruct (Nat.eqb_spec x z) as [->|].
  - exists (N l z s r), c. auto.
  - destruct (le_lt_dec 1 (cnt z l)) as [Hl|Hl].
    + destruct (IHl (mkF false x s r :: c) Hl) as (t' & c' & P & R). exists t', c'. split; [exact P|exact R].
    + destruct (IHr (mkF true x s l :: c)) as (t' & c' & P & R); [lia|].
      exists t', c'. split; [exact P|exact R].
Qed.

Lemma root_p_path h : forall c t z fuel, has h (plug t c) -> root_of t = Some z -> length c < fuel ->
  root_p fuel h z = root_of (plug t c).
Proof.
  induction c as [|f c IH]; intros t z fuel H Hz Hf; (destruct fuel as [|fuel]; [cbn in Hf; lia|]); cbn [root_p];
    (destruct t as [|l z0 s r]; [discriminate|]); injection Hz as ->; rewrite (read_N _ _ _ _ _ _ H); cbn [par cpar].
  - reflexivity.
  - cbn [plug]. apply IH; [exact H|apply root_fill|cbn in Hf; lia].
Qed.

Lemma root_p_ok h T z fuel : has h T -> 1 <= cnt z T -> size T < fuel -> root_p fuel h z = root_of T.
Proof.
  intros H Hz Hf. destruct (find_cnt z T [] Hz) as (t & c & P & R). cbn [plug] in P.
  rewrite <- P. apply root_p_path; [rewrite P; exact H|exact R|].
  assert (Q := depth_plug c t). rewrite P in Q. assert (Q2 := depth_size T). lia.
Qed.

Lemma has_root h T : has h T -> match root_of T with None => T = E | Some y => par (h y) = None end.
Proof. destruct T as [|l x s r]; [reflexivity|]. intros ((H & _) & _). cbn. now rewrite H. Qed.

Lemma remove_u_ctx t c t' c' m : remove_u t c = Some (t', c', m) ->
  c' = c \/ exists l x s r d dc, t = N l x s r /\ l <> E /\ r <> E /\ c' = dc ++ mkF true d s l :: c.
Proof.
  destruct t as [|l x s r]; [discriminate|]. cbn [remove_u].
  destruct l as [|ll lx ls lr]; [|destruct r as [|rl rx rs rr]].
  - destruct c; intros H; injection H as <- <- <-; auto.
  - destruct c; intros H; injection H as <- <- <-; auto.
  - destruct (start (N rl rx rs rr) [] false) as [([|[|] d sd e], dc)|]; try discriminate.
    intros H. injection H as <- <- <-. right. do 6 eexists. split; [reflexivity|].
    split; [discriminate|]. split; [discriminate|reflexivity].
Qed.

Lemma remove_aug_ok fuel h t c x r : has h (plug t c) -> root_of t = Some x ->
  remove (t, c) = Some r -> 2 * size (plug t c) + 4 < fuel ->
  exists h', remove_aug_p fuel x (root_of (plug t c)) h = Some (h', root_of r) /\
    has h' r /\ (forall z, cnt z (plug t c) = 0 -> h' z = h z) /\
    (forall z, cnt z (plug t c) = cnt z r + eqn x z) /\ h' x = mkNode None None None 0.
Proof.
  intros H Hx Hr Hf. unfold remove_aug_p.
  set (T := plug t c) in *.
  assert (CT : 1 <= cnt x T) by (unfold T; rewrite cnt_plug; apply root_cnt in Hx; lia).
  assert (HxN : exists l s r, t = N l x s r).
  { destruct t as [|l y s r0]; [discriminate|]. injection Hx as ->. eauto. }
  destruct HxN as (tl & ts & tr & Et).
  assert (Rx : h x = mkNode (cpar c) (root_of tl) (root_of tr) ts).
  { unfold T in H. rewrite Et in H. exact (read_N _ _ _ _ _ _ H). }
  assert (Mem : match root_of T with None => false | Some r0 => (x =? r0) || is_member h x end = true).
  { unfold T. destruct c as [|f c].
    - cbn [plug]. rewrite Hx, Nat.eqb_refl. reflexivity.
    - destruct (root_plug (f :: c)) as (w & _ & Hw); [discriminate|]. rewrite Hw.
      unfold is_member. rewrite Rx. cbn. now rewrite orb_true_r. }
  rewrite Mem. cbn [check].
  assert (Rt : root_p fuel h x = root_of T) by (apply root_p_ok; [exact H|exact CT|lia]).
  rewrite Rt. destruct (root_of T) as [r0|] eqn:ER; [|discriminate Mem]. cbn [bind].
  rewrite peq_refl. cbn [check].
  unfold remove in Hr. destruct (remove_u t c) as [((t', c'), m)|] eqn:Eu; [|discriminate].
  cbn [bind] in Hr.
  destruct (remove_p_ok fuel h t c x t' c' m H Hx Eu) as (h1 & E1 & (H1 & O1 & C1)).
  { assert (Q := depth_size T). fold T. lia. }
  rewrite E1. cbn [bind]. fold T in O1, C1.
  set (n0 := mkNode None None None 0). set (h2 := hput h1 x n0).
  assert (Cx : cnt x (plug t' c') = 0).
  { specialize (C1 x). rewrite eqn_refl in C1. assert (Q := proj2 H x). fold T in Q. lia. }
  assert (h2x : h2 x = n0) by (unfold h2, hput; now rewrite Nat.eqb_refl).
  assert (h2o : forall z, z <> x -> h2 z = h1 z).
  { intros z zx. unfold h2, hput. destruct (Nat.eqb_spec z x); congruence. }
  assert (H2 : has h2 (plug t' c')).
  { split; [|apply H1]. eapply rep_frame; [|apply H1]. intros z Hz. apply h2o. intros ->. lia. }
  assert (O2 : forall z, cnt z T = 0 -> h2 z = h z).
  { intros z Hz. rewrite h2o by (intros ->; lia). now apply O1. }
  destruct c' as [|f c'].
  - cbn [where_i where_p]. cbn [remove_rest] in Hr.
    destruct (very_good_tree t'); [|discriminate]. cbn [check] in Hr. injection Hr as <-.
    assert (Hrt := has_root _ _ H2). cbn [plug] in *.
    exists h2. split; [|split; [exact H2|split; [exact O2|split; [exact C1|exact h2x]]]].
    destruct (root_of t') as [q|]; [|reflexivity]. rewrite Hrt. reflexivity.
  - cbn [where_i where_p bind]. cbn [remove_rest] in Hr.
    destruct (if m then _ else _) as [r'|] eqn:Eb in Hr; [|discriminate]. cbn [bind] in Hr.
    destruct (very_good_tree r'); [|discriminate]. cbn [check] in Hr. injection Hr as <-.
    assert (Szf : length (f :: c') < size T).
    { assert (Q := depth_plug (f :: c') t'). assert (Q2 := depth_size (plug t' (f :: c'))).
      assert (Q3 : size (plug t' (f :: c')) < size T).
      { (* x is in T only *)
        assert (NoDup (x :: inorder (plug t' (f :: c')))).
        { constructor; [|apply cnt_nodup; apply H2]. intros Q3. apply cnt_in in Q3. lia. }
        assert (incl (x :: inorder (plug t' (f :: c'))) (inorder T)).
        { intros z [<-|Hz]; apply cnt_in; [exact CT|]. apply cnt_in in Hz. rewrite C1. lia. }
        apply (NoDup_incl_length H0) in H3. exact H3. }
      lia. }
    assert (P3 : exists h3 root3,
      (if m then Some (h2, None) else balance_remove_p fuel (edge (h2 (fid f)) (fside f)) (fid f) (fside f) None h2)
        = Some (h3, root3) /\ stp h2 (plug t' (f :: c')) h3 r' /\
      okr (root_of (plug t' (f :: c'))) r' root3).
    { destruct m.
      - injection Eb as <-. exists h2, None. split; [reflexivity|]. split; [now apply stp_refl|]. now right.
      - assert (Ee : edge (h2 (fid f)) (fside f) = root_of t').
        { destruct f as [i p ps w].
          destruct (read_mk h2 i t' p ps w c' H2) as (_ & Q & _). exact Q. }
        rewrite Ee. apply balance_remove_ok with (ft := 2 * length (f :: c') + 2).
        + lia.
        + exact H2.
        + now right.
        + exact Eb. }
    destruct P3 as (h3 & root3 & E3 & S3 & O3). rewrite E3. cbn [bind].
    assert (H3 : has h3 r') by apply S3.
    assert (C3 : forall z, cnt z T = cnt z r' + eqn x z).
    { intros z. rewrite C1. f_equal. symmetry. apply S3. }
    assert (O3' : forall z, cnt z T = 0 -> h3 z = h z).
    { intros z Hz. destruct S3 as (_ & O & _). rewrite O; [now apply O2|]. rewrite C1 in Hz. lia. }
    assert (X3 : h3 x = n0).
    { destruct S3 as (_ & O & _). rewrite O by exact Cx. exact h2x. }
    assert (Hrt := has_root _ _ H3).
    assert (NE : root_of r' <> None).
    { intros Q. rewrite Q in Hrt. subst r'. destruct S3 as (_ & _ & Cs). specialize (Cs (fid f)).
      rewrite cnt_plug in Cs. cbn in Cs. rewrite eqn_refl in Cs. lia. }
    destruct (root_of r') as [y|] eqn:Ery; [|congruence].
    assert (Fin : forall o, o = Some (h3, Some y) -> exists h', o = Some (h', Some y) /\
       has h' r' /\ (forall z, cnt z T = 0 -> h' z = h z) /\
       (forall z, cnt z T = cnt z r' + eqn x z) /\ h' x = mkNode None None None 0).
    { intros o ->. exists h3. split; [reflexivity|]. split; [exact H3|]. split; [exact O3'|]. split; [exact C3|exact X3]. }
    apply Fin. clear Fin.
    destruct O3 as [->|(-> & R3)].
    { rewrite Ery, Hrt. reflexivity. }
    rewrite Ery in R3. rewrite Rx. cbn [par e0 e1].
    assert (Same : c <> [] -> Some y = Some r0).
    { intros Nc. rewrite R3, <- ER. unfold T.
      destruct (root_plug c Nc) as (w & _ & Hw).
      destruct (remove_u_ctx _ _ _ _ _ Eu) as [Q|(l0 & x0 & s0 & rr & d & dc & Q1 & Q2 & Q3 & Q4)].
      - rewrite Q, !Hw. reflexivity.
      - rewrite Q4, plug_app. cbn [plug]. rewrite !Hw. reflexivity. }
    destruct c as [|g c]; cbn [cpar].
    + destruct (remove_u_ctx _ _ _ _ _ Eu) as [Q|(l0 & x0 & s0 & rr & d & dc & Q1 & Q2 & Q3 & Q4)]; [discriminate|].
      rewrite Et in Q1. injection Q1 as <- <- <- <-.
      destruct tl as [|ll lx ls lr]; [congruence|]. cbn [root_of].
      rewrite (root_p_ok h3 r' lx fuel H3).
      * rewrite Ery. cbn [bind]. rewrite Hrt. reflexivity.
      * specialize (C3 lx). unfold T in C3. rewrite Et in C3. cbn [plug cnt] in C3.
        rewrite eqn_refl in C3. lia.
      * assert (size r' <= size T).
        { apply size_sub; [apply H3|]. intros z. rewrite C3. lia. }
        lia.
    + rewrite <- Same by discriminate. reflexivity.
Qed.

Lemma extract_start_ok fuel h T i e r : has h T -> extract_start T i = Some (e, r) ->
  2 * size T + 4 < fuel ->
  exists h', extract_start_p fuel (root_of T) i h = Some (e, h', root_of r) /\
    has h' r /\ (forall z, cnt z T = 0 -> h' z = h z) /\
    (forall z, cnt z T = cnt z r + match e with None => 0 | Some x => eqn x z end) /\
    match e with None => T = E | Some x => h' x = mkNode None None None 0 end.
Proof.
  intros H He Hf. unfold extract_start in He.
  destruct T as [|l x s r0].
  - cbn in He. injection He as <- <-. exists h. cbn. repeat split; auto; apply H.
  - destruct (start_spec (N l x s r0) [] i ltac:(discriminate)) as (t' & c' & S1 & S2 & S3 & S4 & _).
    rewrite S1 in He. destruct (remove (t', c')) as [r1|] eqn:Er; [|discriminate]. cbn [bind] in He.
    injection He as <- <-. cbn [root_of]. unfold extract_start_p.
    destruct (start_p_ok h (N l x s r0) [] i t' c' x fuel H eq_refl S1) as (P1 & P2 & _).
    { assert (Q := depth_size (N l x s r0)). lia. }
    destruct t' as [|tl tx ts tr]; [congruence|]. cbn [root_of zid] in *. rewrite P1. cbn [bind].
    cbn [plug] in P2. rewrite <- P2 in *.
    destruct (remove_aug_ok fuel h (N tl tx ts tr) c' tx r1 H eq_refl Er Hf) as (h' & E1 & R1 & O1 & C1 & X1).
    assert (Rt : Some x = root_of (plug (N tl tx ts tr) c')) by (rewrite P2; reflexivity).
    rewrite Rt, E1. cbn [bind]. exists h'. auto.
Qed.
