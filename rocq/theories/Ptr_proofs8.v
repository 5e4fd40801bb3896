(** Rebalancing after a removal on the heap. *)
From Coq Require Import List Bool Arith Lia.
From Verif Require Import Dict_model Dict_spec Dict_proofs Ptr_model Ptr_spec Ptr_proofs Ptr_proofs2 Ptr_proofs3 Ptr_proofs4 Ptr_proofs5 Ptr_proofs6 Ptr_proofs7.
Import ListNotations.

(** The value of a root pointer that is NULL at first: it is set when the root
    changes. *)
Definition okr (R0 : option nat) (T : tree) (root : option nat) : Prop :=
  root = root_of T \/ (root = None /\ root_of T = R0).

Lemma root_plug_eq t t' c : root_of t = root_of t' -> root_of (plug t c) = root_of (plug t' c).
Proof.
  intros H. destruct c as [|f c]; [exact H|].
  destruct (root_plug (f :: c)) as (w & _ & Hw); [discriminate|]. now rewrite !Hw.
Qed.
Lemma okr_eq R0 T T' root : root_of T = root_of T' -> okr R0 T root -> okr R0 T' root.
Proof. intros H [->|(-> & <-)]; [left; exact H|right; auto]. Qed.
Lemma okr_plug R0 t t' c root : root_of t = root_of t' -> okr R0 (plug t c) root -> okr R0 (plug t' c) root.
Proof. intros H. apply okr_eq. now apply root_plug_eq. Qed.

Lemma rotate_okr R0 h dir t c x t' root : has h (plug t c) -> root_of t = Some x ->
  rotate dir t = Some t' -> okr R0 (plug t c) root ->
  exists h' root', rotate_p dir x root h = Some (h', root') /\
    stp h (plug t c) h' (plug t' c) /\ okr R0 (plug t' c) root'.
Proof.
  intros H Hx Hr Ho. destruct (rotate_stp h dir t c x t' root H Hx Hr) as (h' & E1 & S1).
  exists h'. eexists. split; [exact E1|]. split; [exact S1|].
  destruct c as [|f c]; [now left|].
  eapply okr_eq; [|exact Ho].
  destruct (root_plug (f :: c)) as (w & _ & Hw); [discriminate|]. now rewrite !Hw.
Qed.

Lemma mk_child w i : w <> E -> exists x s, w = mk i (child w i) x s (child w (negb i)).
Proof.
  destruct w as [|l x s r]; [congruence|]. intros _. exists x, s. destruct i; reflexivity.
Qed.
Lemma child_mk i a x s b : child (mk i a x s b) i = a.
Proof. destruct i; reflexivity. Qed.
Lemma child_mk' i a x s b : child (mk i a x s b) (negb i) = b.
Proof. destruct i; reflexivity. Qed.
Lemma red_mk i a x s b : red (mk i a x s b) = Nat.odd s.
Proof. destruct i; reflexivity. Qed.
Lemma mk_N i a x s b : exists l r, mk i a x s b = N l x s r.
Proof. destruct i; cbn; eauto. Qed.
Lemma inc_set_black_inv i a x s b t : inc_set_black (mk i a x s b) = Some t ->
  exists s', st_inc_set_black s = Some s' /\ t = mk i a x s' b.
Proof.
  unfold inc_set_black, set_stat. destruct i; cbn [mk];
    (destruct (st_inc_set_black s) as [s'|]; [|discriminate]); intros H; injection H as <-; eauto.
Qed.
Lemma dec_set_red_inv i a x s b t : dec_set_red (mk i a x s b) = Some t ->
  exists s', st_dec_set_red s = Some s' /\ t = mk i a x s' b.
Proof.
  unfold dec_set_red, set_stat. destruct i; cbn [mk];
    (destruct (st_dec_set_red s) as [s'|]; [|discriminate]); intros H; injection H as <-; eauto.
Qed.

(** Moving to the other child *)
Lemma other i a x s b c : plug b (mkF (negb i) x s a :: c) = plug a (mkF i x s b :: c).
Proof. cbn [plug]. f_equal. unfold fill. cbn [fside fid fst_ fsib]. symmetry. apply mk_flip. Qed.
Lemma up i a x s b c : plug a (mkF i x s b :: c) = plug (mk i a x s b) c.
Proof. reflexivity. Qed.

Section black.
  Variable next : tree -> list frame -> option tree.
  Variable nextp : option nat -> heap -> option (heap * option nat).
  Variable R0 : option nat.
  Variable p : nat.
  Hypothesis Hnext : forall t c h root r, root_of t = Some p -> has h (plug t c) ->
    okr R0 (plug t c) root -> next t c = Some r ->
    exists h' root', nextp root h = Some (h', root') /\ stp h (plug t c) h' r /\ okr R0 r root'.

  Lemma balance_black_ok i x ps w c h root r :
    has h (plug x (mkF i p ps w :: c)) -> okr R0 (plug x (mkF i p ps w :: c)) root ->
    balance_black next i x (mkF i p ps w) c = Some r ->
    exists h' root', balance_black_p nextp p i (root_of w) root h = Some (h', root') /\
      stp h (plug x (mkF i p ps w :: c)) h' r /\ okr R0 r root'.
  Proof.
    intros H Ho Hb. unfold balance_black in Hb. cbn [fsib fid fst_] in Hb.
    assert (Dw : w = E \/ w <> E) by (destruct w; [now left|right; discriminate]).
    destruct Dw as [-> | Nw].
    - cbn [root_of balance_black_p].
      apply (Hnext (fill (mkF i p ps E) x) c); try assumption. unfold fill. apply root_mk.
    - destruct (mk_child w i Nw) as (wx & ws & Ew).
      set (a := child w i) in *. set (b := child w (negb i)) in *. clearbody a b. subst w. clear Nw.
      rewrite root_mk. cbn [balance_black_p].
      assert (Hm : forall (B : Type) (k : nat -> nat -> option B), match mk i a wx ws b with E => None | N _ u v _ => k u v end = k wx ws)
        by (intros; destruct i; reflexivity).
      assert (Hb' : (assert negb (Nat.odd ws);;
        if negb (red b) && negb (red a) then
          do w' <- dec_set_red (mk i a wx ws b) ;;
          do p0 <- st_dec ps ;;
          let t := fill (mkF i p p0 w') x in
          assert (good_tree t false) ;; next t c
        else
          do w <- (if negb (red b) then
             do r <- inc_set_black a ;;
             do ws' <- st_dec_set_red ws ;;
             do top <- rotate (negb i) (mk i r wx ws' b) ;;
             assert (good_tree (child top (negb i)) true) ;;
             Some top
           else Some (mk i a wx ws b)) ;;
          match w with
          | E => None
          | N wl wx ws wr =>
            do (ws', ps0) <-
              (if Nat.odd ps then Some (st_set_red ws, st_set_black ps)
               else (do ps0 <- st_dec ps ;; Some (st_inc ws, ps0))) ;;
            do q <- inc_set_black (child w (negb i)) ;;
            do top <- rotate i (mk i x p ps0 (mk i (child w i) wx ws' q)) ;;
            assert (good_tree top true) ;;
            Some (plug top c)
          end) = Some r).
      { rewrite <- Hb. destruct i; reflexivity. }
      clear Hb Hm. rename Hb' into Hb.
      assert (Hw : has h (plug (mk i a wx ws b) (mkF (negb i) p ps x :: c))) by (rewrite other; exact H).
      destruct (read_mk _ _ _ _ _ _ _ Hw) as (_ & Ea & Eb & Es).
      assert (Ra : red_p h (root_of a) = red a) by exact (red_p_red h a (mkF i wx ws b :: mkF (negb i) p ps x :: c) Hw).
      assert (Rb : red_p h (root_of b) = red b).
      { apply (red_p_red h b (mkF (negb i) wx ws a :: mkF (negb i) p ps x :: c)). rewrite other. exact Hw. }
      rewrite Es, Ea, Eb, Ra, Rb.
      destruct (Nat.odd ws) eqn:Ows; [discriminate|]. cbn [negb check] in Hb |- *.
      destruct (negb (red b) && negb (red a)) eqn:Blk.
      + (* the deficit moves up *)
        destruct (dec_set_red (mk i a wx ws b)) as [w'|] eqn:Ed; [|discriminate].
        apply dec_set_red_inv in Ed. destruct Ed as (ws' & Ews & ->). cbn [bind] in Hb.
        destruct (st_dec ps) as [ps'|] eqn:Eps; [|discriminate]. cbn [bind] in Hb.
        cbv zeta in Hb.
        destruct (good_tree _ false); [|discriminate]. cbn [check] in Hb.
        destruct (upd_st_mk h i a wx ws b _ _ _ Hw Ews) as (h1 & E1 & S1). rewrite E1. cbn [bind].
        rewrite other, up in S1. rewrite other, up in S1.
        destruct (upd_st_mk h1 i x p ps (mk i a wx ws' b) c _ _ (proj1 S1) Eps) as (h2 & E2 & S2).
        rewrite E2. cbn [bind].
        destruct (Hnext (fill (mkF i p ps' (mk i a wx ws' b)) x) c h2 root r) as (h' & root' & E3 & S3 & O3);
          [unfold fill; apply root_mk|apply S2| |exact Hb|].
        { eapply okr_plug; [|exact Ho]. unfold fill. cbn [fside fid fst_ fsib]. now rewrite !root_mk. }
        exists h', root'. split; [exact E3|]. split; [|exact O3].
        eapply stp_trans; [exact S1|]. eapply stp_trans; [exact S2|exact S3].
      + (* two rotations at most *)
        destruct (if negb (red b) then _ else _) as [w|] eqn:Ew in Hb; [|discriminate].
        cbn [bind] in Hb.
        assert (P1 : exists h1 root1 wx1 ws1 a1 b1,
          (if negb (red b) then
             do r <- root_of a ;;
             do h <- upd_st h r st_inc_set_black ;;
             do h <- upd_st h wx st_dec_set_red ;;
             do (h, root) <- rotate_p (negb i) wx root h ;;
             do w <- edge (h p) (negb i) ;;
             Some (h, root, w)
           else Some (h, root, wx)) = Some (h1, root1, wx1) /\
          w = mk i a1 wx1 ws1 b1 /\
          stp h (plug x (mkF i p ps (mk i a wx ws b) :: c)) h1 (plug x (mkF i p ps w :: c)) /\
          okr R0 (plug x (mkF i p ps w :: c)) root1).
        { destruct (red b) eqn:Rb'; cbn [negb] in Ew |- *.
          - injection Ew as <-. exists h, root, wx, ws, a, b. split; [reflexivity|]. split; [reflexivity|].
            split; [now apply stp_refl|exact Ho].
          - destruct a as [|al ax as_ ar]; [discriminate|].
            destruct (inc_set_black (N al ax as_ ar)) as [a'|] eqn:Ei; [|discriminate]. cbn [bind] in Ew.
            change (N al ax as_ ar) with (mk false al ax as_ ar) in *.
            apply inc_set_black_inv in Ei. destruct Ei as (as' & Eas & ->).
            destruct (st_dec_set_red ws) as [ws'|] eqn:Ews; [|discriminate]. cbn [bind] in Ew.
            destruct (rotate (negb i) (mk i (mk false al ax as' ar) wx ws' b)) as [top|] eqn:Er; [|discriminate].
            cbn [bind] in Ew. destruct (good_tree _ true); [|discriminate]. cbn [check] in Ew.
            injection Ew as <-. rewrite root_mk. cbn [bind].
            destruct (upd_st_mk h false al ax as_ ar (mkF i wx ws b :: mkF (negb i) p ps x :: c) _ _ Hw Eas) as (h1 & E1 & S1).
            rewrite E1. cbn [bind]. rewrite (up i _ wx), (up i _ wx) in S1.
            destruct (upd_st_mk h1 i (mk false al ax as' ar) wx ws b (mkF (negb i) p ps x :: c) _ _ (proj1 S1) Ews) as (h2 & E2 & S2).
            rewrite E2. cbn [bind].
            assert (S12 := stp_trans _ _ _ _ _ _ S1 S2).
            destruct (rotate_okr R0 h2 (negb i) (mk i (mk false al ax as' ar) wx ws' b) (mkF (negb i) p ps x :: c) wx top root)
              as (h3 & root3 & E3 & S3 & O3); [apply S2|apply root_mk|exact Er| |].
            { eapply okr_eq; [|exact Ho]. rewrite <- other. apply root_plug_eq. now rewrite !root_mk. }
            rewrite E3. cbn [bind].
            assert (S13 := stp_trans _ _ _ _ _ _ S12 S3). rewrite !other in S13. rewrite other in O3.
            assert (Hp3 : has h3 (plug (mk i x p ps top) c)) by apply S13.
            destruct (read_mk _ _ _ _ _ _ _ Hp3) as (_ & _ & Et & _). rewrite Et.
            destruct (rotate_mk_inv (negb i) (mk false al ax as' ar) wx ws' b top) as (A & y & sy & B & _ & Etop).
            { rewrite negb_involutive. exact Er. }
            rewrite negb_involutive in Etop. rewrite Etop in *. rewrite root_mk. cbn [bind].
            exists h3, root3, y, sy, A, (mk i B wx ws' b). split; [reflexivity|]. split; [reflexivity|].
            split; [exact S13|exact O3]. }
        destruct P1 as (h1 & root1 & wx1 & ws1 & a1 & b1 & E1 & -> & S1 & O1).
        rewrite E1. cbn [bind]. clear E1 Ew.
        assert (Hb' : (do (ws', ps0) <-
              (if Nat.odd ps then Some (st_set_red ws1, st_set_black ps)
               else (do ps0 <- st_dec ps ;; Some (st_inc ws1, ps0))) ;;
            do q <- inc_set_black b1 ;;
            do top <- rotate i (mk i x p ps0 (mk i a1 wx1 ws' q)) ;;
            assert (good_tree top true) ;;
            Some (plug top c)) = Some r).
        { rewrite <- Hb. destruct i; reflexivity. }
        clear Hb. rename Hb' into Hb.
        assert (H1 : has h1 (plug (mk i x p ps (mk i a1 wx1 ws1 b1)) c)) by apply S1.
        assert (H1w : has h1 (plug (mk i a1 wx1 ws1 b1) (mkF (negb i) p ps x :: c))) by (rewrite other; exact H1).
        destruct (read_mk _ _ _ _ _ _ _ H1) as (_ & _ & _ & Sp). rewrite Sp.
        destruct (read_mk _ _ _ _ _ _ _ H1w) as (_ & _ & _ & Sw). rewrite Sw.
        destruct (if Nat.odd ps then _ else _) as [(ws', ps')|] eqn:Ep in Hb; [|discriminate].
        cbn [bind] in Hb.
        assert (P2 : exists h2,
          (if Nat.odd ps then
             let h := set_st h1 wx1 (st_set_red ws1) in
             Some (set_st h p (st_set_black (st (h p))))
           else
             let h := set_st h1 wx1 (st_inc ws1) in
             upd_st h p st_dec) = Some h2 /\
          stp h1 (plug (mk i x p ps (mk i a1 wx1 ws1 b1)) c) h2 (plug (mk i x p ps' (mk i a1 wx1 ws' b1)) c)).
        { assert (G : forall s', stp h1 (plug (mk i x p ps (mk i a1 wx1 ws1 b1)) c) (set_st h1 wx1 s')
              (plug (mk i x p ps (mk i a1 wx1 s' b1)) c)).
          { intros s'. assert (Q := set_st_mk h1 i a1 wx1 ws1 b1 _ s' H1w). rewrite !other in Q. exact Q. }
          destruct (Nat.odd ps).
          - injection Ep as <- <-. eexists. split; [reflexivity|].
            eapply stp_trans; [apply G|]. destruct (read_mk _ _ _ _ _ _ _ (proj1 (G (st_set_red ws1)))) as (_ & _ & _ & ->).
            apply set_st_mk. apply G.
          - destruct (st_dec ps) as [ps0|] eqn:Eps; [|discriminate]. cbn [bind] in Ep. injection Ep as <- <-.
            destruct (upd_st_mk _ i x p ps (mk i a1 wx1 (st_inc ws1) b1) c _ _ (proj1 (G (st_inc ws1))) Eps) as (h2 & E2 & S2).
            exists h2. split; [exact E2|]. eapply stp_trans; [apply G|exact S2]. }
        destruct P2 as (h2 & E2 & S2). cbv zeta in E2. rewrite E2. cbn [bind].
        assert (H2w : has h2 (plug (mk i a1 wx1 ws' b1) (mkF (negb i) p ps' x :: c))) by (rewrite other; apply S2).
        destruct (read_mk _ _ _ _ _ _ _ H2w) as (_ & _ & Eb2 & _). rewrite Eb2.
        destruct b1 as [|bl bx bs br]; [discriminate|].
        change (N bl bx bs br) with (mk false bl bx bs br) in *.
        destruct (inc_set_black (mk false bl bx bs br)) as [q|] eqn:Eq; [|discriminate]. cbn [bind] in Hb.
        apply inc_set_black_inv in Eq. destruct Eq as (bs' & Ebs & ->). rewrite root_mk. cbn [bind].
        assert (H2b : has h2 (plug (mk false bl bx bs br) (mkF (negb i) wx1 ws' a1 :: mkF (negb i) p ps' x :: c)))
          by (rewrite other; exact H2w).
        destruct (upd_st_mk h2 false bl bx bs br _ _ _ H2b Ebs) as (h3 & E3 & S3).
        rewrite E3. cbn [bind]. rewrite !(other i a1), !(up i a1), !other, !(up i x) in S3.
        destruct (rotate i (mk i x p ps' (mk i a1 wx1 ws' (mk false bl bx bs' br)))) as [top|] eqn:Er; [|discriminate].
        cbn [bind] in Hb. destruct (good_tree top true); [|discriminate]. cbn [check] in Hb. injection Hb as <-.
        destruct (rotate_okr R0 h3 i (mk i x p ps' (mk i a1 wx1 ws' (mk false bl bx bs' br))) c p top root1)
          as (h4 & root4 & E4 & S4 & O4); [apply S3|apply root_mk|exact Er| |].
        { eapply okr_eq; [|exact O1]. rewrite up. apply root_plug_eq. now rewrite !root_mk. }
        exists h4, root4. split; [exact E4|]. split; [|exact O4].
        eapply stp_trans; [exact S1|]. eapply stp_trans; [exact S2|].
        eapply stp_trans; [exact S3|exact S4].
  Qed.
End black.

Lemma balance_remove_ok R0 : forall ft fp x f c h root r, ft <= fp ->
  has h (plug x (f :: c)) -> okr R0 (plug x (f :: c)) root -> balance_remove ft x (f :: c) = Some r ->
  exists h' root', balance_remove_p fp (root_of x) (fid f) (fside f) root h = Some (h', root') /\
    stp h (plug x (f :: c)) h' r /\ okr R0 r root'.
Proof.
  induction ft as [|ft IH]; intros fp x f c h root r Hf H Ho Hb; [discriminate|].
  destruct fp as [|fp]; [lia|]. cbn [balance_remove_p balance_remove] in *.
  rewrite (red_p_red h x _ H).
  destruct (red x) eqn:Rx.
  - destruct x as [|xl xi xs xr]; [discriminate|]. change (N xl xi xs xr) with (mk false xl xi xs xr) in *.
    destruct (inc_set_black (mk false xl xi xs xr)) as [x'|] eqn:Ei; [|discriminate]. cbn [bind] in Hb.
    apply inc_set_black_inv in Ei. destruct Ei as (xs' & Exs & ->). injection Hb as <-.
    rewrite root_mk. cbn [bind].
    destruct (upd_st_mk h false xl xi xs xr _ _ _ H Exs) as (h1 & E1 & S1). rewrite E1. cbn [bind].
    exists h1, root. split; [reflexivity|]. split; [exact S1|].
    refine (okr_plug R0 (mk false xl xi xs xr) _ (f :: c) root _ Ho). reflexivity.
  - destruct (good_tree x true && good_tree (fsib f) true); [|discriminate]. cbn [check] in Hb.
    destruct f as [i p ps w]. cbn [fsib fid fside fst_] in *.
    set (nextp := fun (root0 : option nat) (h0 : heap) => match par (h0 p) with
      | Some p2 => do i2 <- idx h0 p2 p;; balance_remove_p fp (Some p) p2 i2 root0 h0
      | None => do h1 <- (if Nat.odd (st (h0 p)) then upd_st h0 p st_inc_set_black else Some h0);; Some (h1, root0)
      end) in *.
    assert (Hn : forall t c h root r, root_of t = Some p -> has h (plug t c) ->
      okr R0 (plug t c) root -> balance_remove ft t c = Some r ->
      exists h' root', nextp root h = Some (h', root') /\ stp h (plug t c) h' r /\ okr R0 r root').
    { clear -IH Hf. intros t c h root r Ht H Ho Hb.
      destruct t as [|tl t0 ts tr]; [discriminate|]. injection Ht as ->.
      unfold nextp. rewrite (read_N _ _ _ _ _ _ H). cbn [par st].
      destruct c as [|g c]; cbn [cpar].
      - destruct ft as [|ft]; [discriminate|]. cbn [balance_remove red] in Hb.
        destruct (Nat.odd ts).
        + change (N tl p ts tr) with (mk false tl p ts tr) in *.
          destruct (inc_set_black (mk false tl p ts tr)) as [x'|] eqn:Ei; [|discriminate]. cbn [bind] in Hb.
          apply inc_set_black_inv in Ei. destruct Ei as (xs' & Exs & ->). injection Hb as <-.
          destruct (upd_st_mk h false tl p ts tr [] _ _ H Exs) as (h1 & E1 & S1). rewrite E1. cbn [bind].
          exists h1, root. split; [reflexivity|]. split; [exact S1|].
          eapply okr_eq; [|exact Ho]. reflexivity.
        + injection Hb as <-. exists h, root. split; [reflexivity|]. split; [now apply stp_refl|exact Ho].
      - rewrite (idx_ok h (N tl p ts tr) p g c eq_refl H). cbn [bind].
        apply (IH fp (N tl p ts tr) g c h root r); [lia|assumption..]. }
    assert (Hp : has h (plug (mk i x p ps w) c)) by exact H.
    destruct (read_mk _ _ _ _ _ _ _ Hp) as (_ & _ & Ew & _). rewrite Ew.
    assert (Hw : has h (plug w (mkF (negb i) p ps x :: c))) by (rewrite other; exact H).
    rewrite (red_p_red h w _ Hw).
    destruct (red w) eqn:Rw.
    + destruct w as [|wl wx ws wr]; [discriminate|]. rewrite ?root_mk. cbn [root_of bind].
      destruct (inc_set_black (N wl wx ws wr)) as [w'|] eqn:Ei; [|discriminate]. cbn [bind] in Hb.
      destruct (mk_child (N wl wx ws wr) i ltac:(discriminate)) as (wx0 & ws0 & Ewm).
      assert (wx0 = wx /\ ws0 = ws) as (-> & ->) by (destruct i; injection Ewm; auto).
      set (a := child (N wl wx ws wr) i) in *. set (b := child (N wl wx ws wr) (negb i)) in *.
      clearbody a b. rewrite Ewm in *. clear Ewm wl wr.
      apply inc_set_black_inv in Ei. destruct Ei as (ws' & Ews & ->).
      destruct (st_dec_set_red ps) as [ps'|] eqn:Eps; [|discriminate]. cbn [bind] in Hb.
      destruct (upd_st_mk h i a wx ws b _ _ _ Hw Ews) as (h1 & E1 & S1). rewrite E1. cbn [bind].
      rewrite !other, !(up i x) in S1.
      destruct (upd_st_mk h1 i x p ps (mk i a wx ws' b) c _ _ (proj1 S1) Eps) as (h2 & E2 & S2).
      rewrite E2. cbn [bind].
      assert (Er : rotate i (mk i x p ps' (mk i a wx ws' b)) = Some (mk i (mk i x p ps' a) wx ws' b))
        by (destruct i; reflexivity).
      destruct (rotate_okr R0 h2 i (mk i x p ps' (mk i a wx ws' b)) c p (mk i (mk i x p ps' a) wx ws' b) root) as (h3 & root3 & E3 & S3 & O3);
        [apply S2|apply root_mk|exact Er| |].
      { eapply okr_eq; [|exact Ho]. rewrite up. apply root_plug_eq. now rewrite !root_mk. }
      rewrite E3. cbn [bind].
      assert (Hb' : balance_black (balance_remove ft) i x (mkF i p ps' a) (mkF i wx ws' b :: c) = Some r).
      { rewrite <- Hb. destruct i; reflexivity. }
      assert (S13 := stp_trans _ _ _ _ _ _ S1 (stp_trans _ _ _ _ _ _ S2 S3)).
      assert (H3 : has h3 (plug x (mkF i p ps' a :: mkF i wx ws' b :: c))) by apply S13.
      assert (H3p : has h3 (plug (mk i x p ps' a) (mkF i wx ws' b :: c))) by exact H3.
      destruct (read_mk _ _ _ _ _ _ _ H3p) as (_ & _ & Ea & _). rewrite Ea.
      destruct (balance_black_ok (balance_remove ft) nextp R0 p Hn i x ps' a (mkF i wx ws' b :: c) h3 root3 r H3 O3 Hb')
        as (h4 & root4 & E4 & S4 & O4).
      exists h4, root4. split; [exact E4|]. split; [|exact O4].
      eapply stp_trans; [exact S13|exact S4].
    + cbn [bind]. apply (balance_black_ok (balance_remove ft) nextp R0 p Hn); assumption.
Qed.
