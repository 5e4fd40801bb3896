(** Proofs about the construction of paths: the end of an arm, and the output of a path *)
From Coq Require Import ZArith List Bool Lia Arith Permutation ZifyBool.
From Verif Require Import List_model List_spec List_proofs Reduce_model Poly_model Poly_spec Poly_proofs Poly_proofs2.
Import ListNotations.
Open Scope Z_scope.

Lemma opn_in : forall a (q : list nat) x y, In (x, y) (opn a q) -> In x (a :: q) /\ In y q.
Proof.
  intros a q. revert a. induction q as [|b q IH]; intros a x y I; [destruct I|]. cbn [opn] in I. destruct I as [I|I]; [injection I as <- <-; split; left; reflexivity|].
  destruct (IH b x y I) as (A & B). split; [right; exact A|right; exact B].
Qed.
Lemma app_mid_eq : forall (f : nat) m l g q k, f :: m ++ [l] = g :: q ++ [k] -> f = g /\ m = q /\ l = k.
Proof. intros f m l g q k H. injection H as -> H. apply app_inj_tail in H. destruct H; auto. Qed.

Section Inv.
Variable E : nat -> edge.
Notation coord := (coord E).
Notation inv := (inv E).
Notation openring := (openring E).
Notation linked := (linked E).

(** The ring that an unfinished edge is in *)
Lemma ring_of : forall P seen R dn d e, inv P seen R dn d -> In (e, LEFT) P -> ~ In (e, RIGT) P ->
  exists r m, In r R /\ In e r /\ openring d P r
  /\ ((back d e = true /\ exists l, r = e :: m ++ [l] /\ back d l = false /\ ~ In (l, RIGT) P)
      \/ (back d e = false /\ exists f, r = f :: m ++ [e] /\ back d f = true /\ ~ In (f, RIGT) P)).
Proof.
  intros P seen R dn d e I Pe Ne. pose proof Pe as Pe'. apply (i_started _ _ _ _ _ _ I) in Pe. apply in_app_or in Pe. destruct Pe as [J|J]; [|apply (i_done _ _ _ _ _ _ I) in J; contradiction].
  apply in_concat in J. destruct J as (r & Ir & Jr). pose proof (i_rings _ _ _ _ _ _ I r Ir) as O. destruct (ring_end E d P r e O Jr Ne) as (m & C). exists r, m. auto.
Qed.

Lemma linked_weaken : forall d d' P P' f l, (forall x, In x (f :: l) -> back d' x = back d x) -> incl P P' -> Forall (linked d P) (opn f l) -> Forall (linked d' P') (opn f l).
Proof.
  intros d d' P P' f l Hb HP H. rewrite Forall_forall in *. intros [x y] I. destruct (opn_in _ _ _ _ I) as (Ix & Iy). destruct (H _ I) as (A & B & C).
  unfold Poly_proofs2.linked, target, source in *. cbn [fst snd] in *. rewrite !Hb by (auto; right; exact Iy). auto.
Qed.

(** ** END, connecting two rings: [x] goes forward, [y] goes back *)
Lemma join_ok : forall P seen R dn d x y ln (s t : nat * bool), inv P seen R dn d -> In (x, RIGT) seen -> In (y, RIGT) seen ->
  In (x, LEFT) P -> In (y, LEFT) P -> ~ In (x, RIGT) P -> ~ In (y, RIGT) P -> rigt (E x) = rigt (E y) -> back d x = false -> back d y = true ->
  next (rings d) x <> y \/ prev (rings d) y <> x -> (forall e, In e ln -> In e (line d)) ->
  (s = (x, RIGT) /\ t = (y, RIGT)) \/ (s = (y, RIGT) /\ t = (x, RIGT)) ->
  exists R', inv (P ++ [s; t]) seen R' dn (set_rings (chain (rings d) x y) (set_line ln d))
  /\ nontrivial (rings d) x = true /\ nontrivial (rings d) y = true /\ next (chain (rings d) x y) x = y /\ prev (chain (rings d) x y) y = x.
Proof.
  intros P seen R dn d x y ln s t I Sx Sy Px Py Nx Ny C Bx By NL HL ST.
  destruct (ring_of _ _ _ _ _ _ I Px Nx) as (ra & ma & Ira & Jra & Oa & [(B & _)|(_ & f & Ha & Bf & Nf)]); [congruence|].
  destruct (ring_of _ _ _ _ _ _ I Py Ny) as (rb & mb & Irb & Jrb & Ob & [(_ & l & Hb & Bl & Nl)|(B & _)]); [|congruence].
  destruct I as [I1 I2 I3 I4 I5 I6 I7 I8 I9 I10 I11 I12].
  assert (INP : forall v, In v (P ++ [s; t]) <-> In v P \/ v = (x, RIGT) \/ v = (y, RIGT)).
  { intros v. rewrite inP. destruct ST as [(-> & ->)|(-> & ->)]; tauto. }
  destruct (in_split _ _ Ira) as (R1 & R2 & HR). subst R.
  assert (DF : ra <> rb).
  { intros Q. rewrite <- Q, Ha in Hb. apply app_mid_eq in Hb. destruct Hb as (-> & _ & ->).
    rewrite Ha in Oa. destruct Oa as (RR & _). apply ring_next_first in RR. destruct RR. destruct NL; congruence. }
  apply in_mid in Irb. destruct Irb as [Q|Irb]; [congruence|].
  assert (DA : forall q z, In q (R1 ++ R2) -> In z q -> ~ In z ra) by (intros q z; eapply other_rings; exact I1).
  destruct (in_split _ _ Irb) as (S1 & S2 & HS).
  set (m := ma ++ x :: y :: mb).
  assert (EQ : ra ++ rb = f :: m ++ [l]) by (rewrite Ha, Hb; unfold m; cbn [app]; rewrite <- !app_assoc; reflexivity).
  assert (PERM : Permutation (concat (R1 ++ ra :: R2)) ((ra ++ rb) ++ concat (S1 ++ S2))).
  { rewrite concat_perm, HS, concat_perm, app_assoc. reflexivity. }
  assert (N1 : NoDup ((ra ++ rb) ++ concat (S1 ++ S2) ++ dn)).
  { refine (Permutation_NoDup _ I1). rewrite PERM, <- app_assoc. reflexivity. }
  assert (NAB : NoDup (ra ++ rb)) by (apply nodup_app in N1; apply N1).
  assert (RC : ring (chain (rings d) x y) (ra ++ rb)).
  { rewrite Ha, Hb in *. apply (chain_rings (rings d) x y (f :: ma) (mb ++ [l])); [apply Oa|apply Ob|exact NAB]. }
  set (d' := set_rings (chain (rings d) x y) (set_line ln d)).
  exists ((ra ++ rb) :: S1 ++ S2). split; [constructor|].
  - cbn [concat]. rewrite <- app_assoc. exact N1.
  - intros e. cbn [concat]. rewrite INP, <- I2. assert (CP : In e (concat (R1 ++ ra :: R2) ++ dn) <-> In e (((ra ++ rb) ++ concat (S1 ++ S2)) ++ dn)).
    { split; apply Permutation_in; rewrite PERM; reflexivity. }
    rewrite CP. unfold LEFT, RIGT. split; [auto|]. intros [J|[J|J]]; [exact J|discriminate|discriminate].
  - intros e Ie. apply INP. auto.
  - intros q [<-|Iq].
    + split; [exact RC|]. exists f, m, l. split; [exact EQ|]. split; [exact Bf|]. split; [exact Bl|].
      assert (FX : f <> x /\ f <> y).
      { rewrite EQ in NAB. inversion NAB; subst. split; intros ->; apply H1; unfold m; apply in_or_app; left; apply in_or_app; right; [left; reflexivity|right; left; reflexivity]. }
      assert (LX : l <> x /\ l <> y).
      { rewrite EQ in NAB. change (f :: m ++ [l]) with ((f :: m) ++ [l]) in NAB. apply nodup_app in NAB. destruct NAB as (_ & _ & NAB).
        split; intros ->; refine (NAB _ _ (or_introl eq_refl)); right; unfold m; apply in_or_app; right; [left; reflexivity|right; left; reflexivity]. }
      split; [intros J; apply INP in J; destruct J as [J|[J|J]]; [contradiction|injection J as ->; tauto|injection J as ->; tauto]|].
      split; [intros J; apply INP in J; destruct J as [J|[J|J]]; [contradiction|injection J as ->; tauto|injection J as ->; tauto]|].
      destruct Oa as (_ & f1 & m1 & l1 & Q1 & _ & _ & _ & _ & La). rewrite Ha in Q1. apply app_mid_eq in Q1. destruct Q1 as (<- & <- & <-).
      destruct Ob as (_ & f2 & m2 & l2 & Q2 & _ & _ & _ & _ & Lb). rewrite Hb in Q2. apply app_mid_eq in Q2. destruct Q2 as (<- & <- & <-).
      assert (IN1 : incl P (P ++ [s; t])) by (intros v Iv; apply INP; auto).
      replace (m ++ [l]) with ((ma ++ [x]) ++ y :: mb ++ [l]) by (unfold m; rewrite <- !app_assoc; reflexivity).
      rewrite opn_app, last_last. apply Forall_app. split; [eapply linked_weaken; [reflexivity|exact IN1|exact La]|].
      constructor; [|eapply linked_weaken; [reflexivity|exact IN1|exact Lb]].
      unfold Poly_proofs2.linked, target, source. cbn [fst snd]. change (back d' x) with (back d x). change (back d' y) with (back d y). rewrite Bx, By. cbn [negb].
      unfold Reduce_model.coord. cbn [fst snd]. rewrite !INP. unfold RIGT. auto.
    + assert (Iq1 : In q (R1 ++ R2)) by (rewrite HS; apply in_mid; auto).
      assert (Iq' : In q (R1 ++ ra :: R2)) by (apply in_mid; auto).
      assert (DB : forall z, In z q -> ~ In z rb).
      { intros z Iz Jz. apply nodup_app in N1. destruct N1 as (_ & _ & N1). apply (N1 z); [apply in_or_app; right; exact Jz|]. apply in_or_app. left. eapply concat_in; eauto. }
      eapply openring_keep; [apply I4, Iq'| |reflexivity| |].
      * change (rings d') with (chain (rings d) x y). eapply chain_keep; [apply Oa|apply Ob|exact Jra|exact Jrb|apply I4, Iq'|].
        intros z Iz. split; [eapply DA; eauto|apply DB, Iz].
      * intros v Iv. apply INP. auto.
      * intros e Ie J. apply INP in J. destruct J as [J|[J|J]]; [exact J| |]; injection J as ->; exfalso; [exact (DA q x Iq1 Ie Jra)|exact (DB y Ie Jrb)].
  - intros e Ie. apply INP. left. apply I5, HL, Ie.
  - intros v Iv. apply INP in Iv. destruct Iv as [Iv|[-> | ->]]; auto.
  - exact I7.
  - exact I8.
  - exact I9.
  - exact I10.
  - exact I11.
  - exact I12.
  - split; [rewrite Ha in *; eapply nontrivial_ring; [apply Oa|exact Jra]|]. split; [rewrite Hb in *; eapply nontrivial_ring; [apply Ob|exact Jrb]|].
    assert (RX : ring (chain (rings d) x y) (x :: y :: mb ++ l :: f :: ma)).
    { change (x :: y :: mb ++ l :: f :: ma) with ((x :: y :: mb) ++ [l] ++ f :: ma). rewrite app_assoc. apply ring_rot. rewrite Ha, Hb in RC. cbn [app] in *. rewrite <- app_assoc in RC. exact RC. }
    split; [apply RX|]. assert (RY : ring (chain (rings d) x y) (y :: (mb ++ l :: f :: ma) ++ [x])) by exact (ring_rot1 _ _ _ RX).
    rewrite (prev_last _ _ _ RY). apply last_last.
Qed.

(** ** Output *)
Definition tp (d : pdata) (e : nat) : nat := pidx d (target d e).
Definition sp (d : pdata) (e : nat) : nat := pidx d (source d e).
Lemma ring_loop_ok : forall d vi o e first x q p fuel cnt r, path (next (rings d)) p (q ++ [x]) e -> ~ In e (q ++ [x]) -> (length q < fuel)%nat ->
  0 <= cnt -> cnt + Z.of_nat (length q) < 2 ^ 32 ->
  ring_loop fuel d vi o e first (next (rings d) p) cnt r
  = bind (appends vi o (map (tp d) q) r) (fun r => check (tp d x =? first)%nat (Done (r, cnt + Z.of_nat (length q)))).
Proof.
  intros d vi o e first x. induction q as [|a q IH]; intros p fuel cnt r PT NE FU C0 C1; (destruct fuel as [|fuel]; [cbn [length] in *; lia|]); cbn [app path] in PT.
  - destruct PT as (-> & PT). cbn [ring_loop]. rewrite PT, Nat.eqb_refl. cbn [map appends bind length]. rewrite Z.add_0_r. reflexivity.
  - destruct PT as (-> & PT). cbn [ring_loop].
    assert (NX : next (rings d) a <> e).
    { intros Q. apply NE. right. rewrite <- Q. rewrite (path_hd _ _ _ _ PT). destruct q; left; reflexivity. }
    destruct (Nat.eqb_spec (next (rings d) a) e) as [Q|_]; [congruence|]. cbn [map appends].
    change (pidx d (target d a)) with (tp d a). destruct (append vi o (tp d a) r) as [r1| |]; cbn [bind]; [|reflexivity|reflexivity].
    cbn [length] in *. assert (X : u32 (cnt + 1) = cnt + 1) by (apply u32_id; lia). rewrite X. rewrite (IH a fuel (cnt + 1) r1 PT); [|intros J; apply NE; right; exact J|lia|lia|lia].
    replace (cnt + 1 + Z.of_nat (length q)) with (cnt + Z.of_nat (S (length q))) by lia. reflexivity.
Qed.

Lemma dir_chain : forall d l a, Forall (fun xy => tp d (fst xy) = sp d (snd xy)) (opn a l) -> opn (sp d a) (map (tp d) (a :: l)) = map (dirp d) (a :: l).
Proof.
  intros d. induction l as [|b l IH]; intros a H; [reflexivity|]. cbn [opn] in H. apply Forall_cons_iff in H. destruct H as [H1 H2]. cbn [fst snd] in H1.
  change (map (tp d) (a :: b :: l)) with (tp d a :: map (tp d) (b :: l)). cbn [opn]. rewrite H1. change (map (dirp d) (a :: b :: l)) with (dirp d a :: map (dirp d) (b :: l)). rewrite <- (IH b H2).
  f_equal. unfold dirp. change (pidx d (target d a)) with (tp d a). rewrite H1. reflexivity.
Qed.

Lemma output_ok : forall P seen R dn d x y ln fuel (s t : nat * bool) es et, inv P seen R dn d -> In (x, RIGT) seen -> In (y, RIGT) seen ->
  In (x, LEFT) P -> In (y, LEFT) P -> ~ In (x, RIGT) P -> ~ In (y, RIGT) P -> rigt (E x) = rigt (E y) -> back d x = false -> back d y = true ->
  next (rings d) x = y \/ prev (rings d) y = x -> (forall e, In e ln -> In e (line d)) ->
  (s = (x, RIGT) /\ t = (y, RIGT) /\ es = x /\ et = y) \/ (s = (y, RIGT) /\ t = (x, RIGT) /\ es = y /\ et = x) ->
  (length (concat R) <= fuel)%nat -> 2 * Z.of_nat (length (concat R ++ dn)) + 3 < 2 ^ 32 ->
  exists R' dn' d', output fuel es et (set_line ln d) = Done d' /\ inv (P ++ [s; t]) seen R' dn' d'
  /\ next (rings d) x = y /\ prev (rings d) y = x /\ line d' = ln /\ back d' = back d /\ pidx d' = pidx d /\ points (out d') = points (out d) /\ pts d' = pts d
  /\ Permutation (concat R ++ dn) (concat R' ++ dn').
Proof.
  intros P seen R dn d x y ln fuel s t es et I Sx Sy Px Py Nx Ny C Bx By NL HL ST FU SZ.
  destruct (ring_of _ _ _ _ _ _ I Px Nx) as (ra & ma & Ira & Jra & Oa & [(B & _)|(_ & f & Ha & Bf & Nf)]); [congruence|].
  destruct (ring_of _ _ _ _ _ _ I Py Ny) as (rb & mb & Irb & Jrb & Ob & [(_ & l & Hb & Bl & Nl)|(B & _)]); [|congruence].
  destruct I as [I1 I2 I3 I4 I5 I6 I7 I8 I9 I10 I11 I12].
  assert (INP : forall v, In v (P ++ [s; t]) <-> In v P \/ v = (x, RIGT) \/ v = (y, RIGT)).
  { intros v. rewrite inP. destruct ST as [(-> & -> & _)|(-> & -> & _)]; tauto. }
  (* the two ends are in the same ring *)
  assert (FY : f = y).
  { rewrite Ha in Oa. destruct Oa as (RR & _). pose proof (ring_next_first _ _ _ _ RR) as (A1 & A2).
    destruct NL as [NL|NL]; [congruence|]. rewrite Hb in Ob. destruct Ob as (RR2 & _). pose proof (ring_next_first _ _ _ _ RR2) as (B1 & B2). congruence. }
  subst f. rename ma into m. clear Nf Bf.
  assert (RR : ring (rings d) (y :: m ++ [x])) by (rewrite <- Ha; apply Oa).
  pose proof (ring_next_first _ _ _ _ RR) as (NX & PY).
  destruct Oa as (_ & f1 & m1 & l1 & Q1 & _ & _ & _ & _ & La). rewrite Ha in Q1. apply app_mid_eq in Q1. destruct Q1 as (<- & <- & <-).
  clear rb mb Irb Jrb Ob l Hb Bl Nl.
  destruct (in_split _ _ Ira) as (R1 & R2 & HR). subst R.
  (* numbers of points *)
  assert (PI : forall v w, In v seen -> In w seen -> coord v = coord w -> pidx d v = pidx d w).
  { intros v w Iv Iw Q. pose proof (I7 v Iv) as A1. pose proof (I7 w Iw) as A2. rewrite Q in A1. apply (proj1 (NoDup_nth_error (points (out d))) I8); [apply nth_error_Some; congruence|congruence]. }
  assert (LK : Forall (fun xy => tp d (fst xy) = sp d (snd xy)) (opn y (m ++ [x]))).
  { rewrite Forall_forall in *. intros [u v] Iu. destruct (La _ Iu) as (A1 & A2 & A3). apply PI; auto. }
  assert (FST : tp d x = pidx d (y, RIGT)).
  { unfold tp, target. rewrite Bx. cbn [negb]. apply PI; auto. }
  assert (SPY : sp d y = pidx d (y, RIGT)) by (unfold sp, source; rewrite By; reflexivity).
  assert (TPY : tp d y = pidx d (y, LEFT)) by (unfold tp, target; rewrite By; reflexivity).
  set (c := pidx d (y, RIGT) :: map (tp d) (y :: m)).
  assert (CYC : cyc_pairs c = map (dirp d) (y :: m ++ [x])).
  { unfold c. rewrite cyc_opn, <- SPY. rewrite opn_app in LK. apply Forall_app in LK. destruct LK as (L1 & L2). rewrite dir_chain by exact L1.
    change (y :: m ++ [x]) with ((y :: m) ++ [x]). rewrite map_app. f_equal. cbn [map]. f_equal. unfold dirp. change (pidx d (target d x)) with (tp d x). rewrite FST, <- SPY.
    apply Forall_inv in L2. cbn [fst snd] in L2. change (pidx d (source d x)) with (sp d x). rewrite <- L2. f_equal.
    clear. revert y. induction m as [|z m IH]; intros y; [reflexivity|]. change (last (map (tp d) (y :: z :: m)) (sp d y)) with (last (map (tp d) (z :: m)) (sp d y)).
    transitivity (last (map (tp d) (z :: m)) (sp d z)).
    - cbn [map]. generalize (map (tp d) m) (tp d z). clear. induction l as [|b l IH]; intros a; [reflexivity|]. apply (IH b).
    - etransitivity; [exact (IH z)|]. f_equal. clear. destruct m as [|b m]; [reflexivity|]. change (last (z :: b :: m) y) with (last (b :: m) y). revert b. induction m as [|c m IH]; intros b; [reflexivity|apply (IH c)]. }
  assert (LEN : Z.of_nat (length (y :: m ++ [x])) = Z.of_nat (length m) + 2) by (cbn [length]; rewrite app_length; cbn [length]; lia).
  assert (LENC : Z.of_nat (length c) = Z.of_nat (length m) + 2) by (unfold c; cbn [length map]; rewrite map_length; lia).
  assert (LC : (length (concat (R1 ++ (y :: m ++ [x]) :: R2)) = length (y :: m ++ [x]) + length (concat (R1 ++ R2)))%nat).
  { rewrite (Permutation_length (concat_perm R1 (y :: m ++ [x]) R2)), app_length. reflexivity. }
  subst ra. rewrite app_length, LC in SZ. rewrite LC in FU. change node with nat in *.
  assert (U3 : u32 (offs d + 3) = offs d + 3) by (apply u32_id; lia).
  assert (BOUND : forall p, In p c -> (p < length (points (out d)))%nat).
  { assert (B0 : forall v, In v seen -> (pidx d v < length (points (out d)))%nat) by (intros v Iv; apply nth_error_Some; rewrite (I7 v Iv); discriminate).
    intros p Ip. unfold c in Ip. destruct Ip as [<-|Ip]; [apply B0, Sy|]. apply in_map_iff in Ip. destruct Ip as (z & <- & Iz). apply B0, I6.
    eapply linked_out; [exact La|]. change (y :: m ++ [x]) with ((y :: m) ++ [x]). rewrite removelast_last. exact Iz. }
  destruct (chain_ok c (out d) (offs d + 3)) as (r' & ex & A & P1 & P2 & P3 & P4 & P5 & P6); [discriminate|lia|lia|exact BOUND|exact I11|].
  set (d0 := set_line ln d).
  set (d' := set_out r' (offs d + 3 + Z.of_nat (length m)) d0).
  exists (R1 ++ R2), ((y :: m ++ [x]) ++ dn), d'.
  assert (OUT : output fuel es et d0 = Done d').
  { unfold output. assert (EE : (if back d0 es then es else et) = y).
    { change (back d0) with (back d). destruct ST as [(_ & _ & -> & ->)|(_ & _ & -> & ->)]; [rewrite Bx|rewrite By]; reflexivity. }
    cbv zeta. rewrite EE. change (back d0 y) with (back d y). rewrite By. cbn [check]. change (out d0) with (out d). change (pidx d0) with (pidx d). change (rings d0) with (rings d). change (offs d0) with (offs d).
    rewrite U3. unfold c in A. cbn [map] in A. rewrite TPY in A. cbn [appends] in A.
    destruct (append _ _ (pidx d (y, RIGT)) _) as [ra| |] eqn:A1; cbn [bind] in A |- *; [|discriminate|discriminate].
    destruct (append _ _ (pidx d (y, LEFT)) _) as [rb| |] eqn:A2; cbn [bind] in A |- *; [|discriminate|discriminate].
    assert (NT : nontrivial (rings d) y = true) by (eapply nontrivial_ring; [exact RR|left; reflexivity]). unfold nontrivial in NT.
    assert (NE : negb (y =? next (rings d) y)%nat = true) by lia. rewrite NE. cbn [check].
    change (next (rings d) y) with (next (rings d0) y).
    rewrite (ring_loop_ok d0 (length (paths (out d))) (offs d + 3) y (pidx d (y, RIGT)) x m y fuel 0 rb).
    - change (tp d0) with (tp d). rewrite A. cbn [bind]. rewrite FST, Nat.eqb_refl. cbn [check bind fst snd]. unfold d'. rewrite u32_id by (clear - SZ LEN I12; change node with nat in *; lia). reflexivity.
    - apply RR.
    - pose proof (ring_nodup _ _ RR) as N. inversion N; assumption.
    - change node with nat; clear - FU LEN; lia.
    - change node with nat; lia.
    - change node with nat; lia. }
  split; [exact OUT|].
  assert (PERM : Permutation (concat (R1 ++ (y :: m ++ [x]) :: R2) ++ dn) (concat (R1 ++ R2) ++ (y :: m ++ [x]) ++ dn)).
  { rewrite concat_perm, <- app_assoc. rewrite !app_assoc. apply Permutation_app_tail. apply Permutation_app_comm. }
  split; [constructor|].
  - exact (Permutation_NoDup PERM I1).
  - intros e. rewrite INP. rewrite <- I2. unfold LEFT, RIGT. split.
    + intros J. left. apply (Permutation_in _ (Permutation_sym PERM)), J.
    + intros [J|[J|J]]; [|discriminate|discriminate]. apply (Permutation_in _ PERM), J.
  - intros e Ie. apply INP. apply in_app_or in Ie. destruct Ie as [Ie|Ie]; [|left; apply I3, Ie].
    destruct Ie as [<-|Ie]; [auto|]. pose proof (linked_in E _ _ _ _ _ La Ie) as J.
    apply in_app_or in Ie. destruct Ie as [Ie|[<-|[]]]; [|auto].
    left. assert (T : In (target d e) P).
    { eapply linked_out; [exact La|]. change (y :: m ++ [x]) with ((y :: m) ++ [x]). rewrite removelast_last. right. exact Ie. }
    unfold source, target in *. destruct (back d e); cbn [negb] in *; assumption.
  - intros q Iq. assert (Iq' : In q (R1 ++ (y :: m ++ [x]) :: R2)) by (apply in_mid; auto).
    eapply openring_keep; [apply I4, Iq'|apply I4, Iq'|reflexivity| |].
    + intros v Iv. apply INP. auto.
    + intros e Ie J. assert (DQ : ~ In e (y :: m ++ [x])) by (eapply other_rings; [exact I1|exact Iq|exact Ie]).
      apply INP in J. destruct J as [J|[J|J]]; [exact J| |]; injection J as ->; exfalso; apply DQ; [right; apply in_or_app; right; left; reflexivity|left; reflexivity].
  - intros e Ie. apply INP. left. apply I5, HL, Ie.
  - intros v Iv. apply INP in Iv. destruct Iv as [Iv|[-> | ->]]; auto.
  - change (out d') with r'. rewrite P1. exact I7.
  - change (out d') with r'. rewrite P1. exact I8.
  - change (out d') with r'. rewrite P2. apply Forall_app. auto.
  - change (out d') with r'. rewrite P2, flat_map_app, map_app. change (dirp d') with (dirp d). rewrite <- CYC, P4. rewrite I10. apply Permutation_app_comm.
  - change (out d') with r'. change (offs d') with (offs d + 3 + Z.of_nat (length m)). rewrite P1. intros p Lp. pose proof (P6 p Lp). lia.
  - change (offs d') with (offs d + 3 + Z.of_nat (length m)). rewrite app_length. lia.
  - split; [exact NX|]. split; [exact PY|]. split; [reflexivity|]. split; [reflexivity|]. split; [reflexivity|]. split; [exact P1|]. split; [reflexivity|exact PERM].
Qed.
End Inv.
