(** Proofs about the construction of paths: rings of edges, and the effect of a pair of ends *)
From Coq Require Import ZArith List Bool Lia Arith Permutation ZifyBool.
From Verif Require Import List_model List_spec List_proofs Reduce_model Poly_model Poly_spec Poly_proofs.
Import ListNotations.
Open Scope Z_scope.

(** ** Rings *)
Lemma ring_rot1 : forall h a r, ring h (a :: r) -> ring h (r ++ [a]).
Proof.
  intros h a [|b r] R; [exact R|]. destruct R as (D & F & B). cbn [app]. split; [|split].
  - apply (Permutation_NoDup (l := a :: b :: r)); [|exact D]. change (b :: r ++ [a]) with ((b :: r) ++ [a]). apply Permutation_cons_append.
  - exact (proj1 (rotate _ _ _ _) F).
  - rewrite rev_app_distr. cbn [rev app] in *. exact (proj2 (rotate _ _ _ _) B).
Qed.
Lemma ring_rot : forall h l m, ring h (l ++ m) -> ring h (m ++ l).
Proof.
  intros h l. induction l as [|a l IH]; intros m R; [rewrite app_nil_r; exact R|].
  change ((a :: l) ++ m) with (a :: l ++ m) in R. apply ring_rot1 in R. rewrite <- app_assoc in R. apply IH in R. rewrite <- app_assoc in R. exact R.
Qed.
Lemma ring_next_first : forall h f m l, ring h (f :: m ++ [l]) -> next h l = f /\ prev h f = l.
Proof.
  intros h f m l R. split; [|rewrite (prev_last _ _ _ R); apply last_last].
  assert (R2 : ring h (l :: f :: m)) by (change (l :: f :: m) with ([l] ++ (f :: m)); apply ring_rot; exact R). destruct R2 as (_ & F & _). apply F.
Qed.
Lemma path_in : forall f (b c : nat) m x, path f b m c -> In x (b :: m) -> In (f x) (m ++ [c]).
Proof.
  intros f b c m. revert b. induction m as [|y m IH]; intros b x Q I; cbn [path app] in *.
  - destruct I as [<-|[]]. left. auto.
  - destruct Q as [Q1 Q2]. destruct I as [<-|I]; [left; auto|right; eauto].
Qed.
Lemma ring_closed : forall h l x, ring h l -> In x l -> In (next h x) l /\ In (prev h x) l.
Proof.
  intros h [|a r] x R I; [destruct I|]. destruct R as (_ & F & B). split.
  - pose proof (path_in _ _ _ _ x F I) as J. apply in_app_or in J. destruct J as [J|[J|[]]]; [right; exact J|left; exact J].
  - assert (I' : In x (a :: rev r)) by (destruct I as [I|I]; [left; exact I|right; rewrite <- in_rev; exact I]).
    pose proof (path_in _ _ _ _ x B I') as J. apply in_app_or in J. destruct J as [J|[J|[]]]; [right; apply in_rev, J|left; exact J].
Qed.
Lemma ring_nodup : forall h l, ring h l -> NoDup l.
Proof. intros h [|a r] R; [constructor|apply R]. Qed.
(** two rings with no common node, chained *)
Lemma chain_rings : forall h p n xs ys, ring h (xs ++ [p]) -> ring h (n :: ys) -> NoDup ((xs ++ [p]) ++ n :: ys) ->
  ring (chain h p n) ((xs ++ [p]) ++ n :: ys).
Proof.
  intros h p n xs ys R1 R2 D. apply ring_rot in R1. cbn [app] in R1.
  assert (D2 : NoDup ((p :: xs) ++ n :: ys)).
  { refine (Permutation_NoDup _ D). apply Permutation_app_tail. symmetry. apply Permutation_cons_append. }
  pose proof (chain_merge h p xs n ys R1 R2 D2) as M.
  change (p :: n :: ys ++ xs) with (([p] ++ n :: ys) ++ xs) in M. apply ring_rot in M. rewrite <- app_assoc. exact M.
Qed.
Lemma chain_keep : forall h p n lp ln l, ring h lp -> ring h ln -> In p lp -> In n ln -> ring h l ->
  (forall x, In x l -> ~ In x lp /\ ~ In x ln) -> ring (chain h p n) l.
Proof.
  intros h p n lp ln l Rp Rn Ip In_ R D. apply ring_keep; auto.
  - intros I. apply (proj1 (D _ I)), Ip.
  - intros I. apply (proj2 (D _ I)), In_.
  - intros I. apply (proj1 (D _ I)). apply ring_closed; assumption.
  - intros I. apply (proj2 (D _ I)). apply ring_closed; assumption.
Qed.
Lemma nontrivial_ring : forall h f m l x, ring h (f :: m ++ [l]) -> In x (f :: m ++ [l]) -> nontrivial h x = true.
Proof.
  intros h f m l x R I. apply in_split in I. destruct I as (a & b & Q).
  assert (R2 : ring h (x :: b ++ a)) by (change (x :: b ++ a) with ((x :: b) ++ a); apply ring_rot; rewrite <- Q; exact R).
  destruct (b ++ a) as [|y r] eqn:X.
  { apply app_eq_nil in X. destruct X as [-> ->]. cbn [app] in Q. injection Q as _ Q. destruct m; discriminate. }
  assert (D : NoDup (x :: y :: r)) by (apply (ring_nodup h), R2).
  unfold nontrivial. destruct R2 as (_ & (F & _) & B). rewrite F.
  destruct (Nat.eqb_spec y x) as [->|N]; [exfalso; inversion D; apply H1; left; reflexivity|].
  assert (P : In (prev h x) (y :: r)).
  { pose proof (path_hd _ _ _ _ B) as PH. rewrite PH, hd_rev. destruct r as [|z r] using rev_ind; [left; reflexivity|]. rewrite app_comm_cons, last_last. apply in_or_app. right. left. reflexivity. }
  destruct (Nat.eqb_spec (prev h x) x) as [Q2|_]; [exfalso; inversion D; apply H1; rewrite <- Q2; exact P|]. reflexivity.
Qed.

Lemma vec2_eq_iff : forall a b, vec2_eq a b = true <-> a = b.
Proof. intros [a b] [c d]. unfold vec2_eq. cbn [fst snd]. split; [intros H; f_equal; lia|intros H; injection H as -> ->; lia]. Qed.
Lemma member_In : forall e l, member_of e l = true <-> In e l.
Proof. intros. apply existsb_In. Qed.
Lemma vupd_same : forall A (f : nat * bool -> A) v x, vupd f v x v = x.
Proof. intros A f [e s] x. unfold vupd, vertex_eqb. cbn [fst snd]. rewrite Nat.eqb_refl, eqb_reflx. reflexivity. Qed.
Lemma vupd_other : forall A (f : nat * bool -> A) v x w, w <> v -> vupd f v x w = f w.
Proof.
  intros A f [e s] x [e' s'] H. unfold vupd, vertex_eqb. cbn [fst snd]. destruct (Nat.eqb_spec e' e) as [->|N]; [|reflexivity].
  destruct (Bool.eqb s' s) eqn:Q; [|reflexivity]. apply eqb_prop in Q. subst. congruence.
Qed.
Lemma upd_eq : forall A (f : nat -> A) i x, Reduce_model.upd f i x i = x.
Proof. intros. unfold Reduce_model.upd. rewrite Nat.eqb_refl. reflexivity. Qed.
Lemma upd_ne : forall A (f : nat -> A) i x j, j <> i -> Reduce_model.upd f i x j = f j.
Proof. intros A f i x j H. unfold Reduce_model.upd. destruct (Nat.eqb_spec j i); congruence. Qed.

Lemma nodup_app : forall A (a b : list A), NoDup (a ++ b) <-> NoDup a /\ NoDup b /\ forall x, In x a -> ~ In x b.
Proof.
  intros A a b. induction a as [|y a IH]; cbn [app].
  - split; [intros H; split; [constructor|split; [exact H|intros x []]]|intros (_ & H & _); exact H].
  - split.
    + intros N. inversion N; subst. apply IH in H2. destruct H2 as (A1 & A2 & A3). split; [constructor; auto; intros X; apply H1, in_or_app; auto|].
      split; [exact A2|]. intros x [<-|Ia] Ib; [apply H1, in_or_app; auto|exact (A3 x Ia Ib)].
    + intros (N1 & N2 & N3). inversion N1; subst. constructor.
      * intros X. apply in_app_or in X. destruct X as [X|X]; [exact (H1 X)|exact (N3 y (or_introl eq_refl) X)].
      * apply IH. split; [exact H2|]. split; [exact N2|]. intros x Ia. apply N3. right; exact Ia.
Qed.

Lemma concat_in : forall (r : list nat) R e, In r R -> In e r -> In e (concat R).
Proof. intros r R e A B. apply in_concat. eauto. Qed.
Lemma nodup_concat : forall R1 (r : list nat) R2 dn, NoDup (concat (R1 ++ r :: R2) ++ dn) -> NoDup (r ++ concat (R1 ++ R2) ++ dn).
Proof.
  intros R1 r R2 dn H. refine (Permutation_NoDup _ H). rewrite !concat_app. cbn [concat]. rewrite <- !app_assoc. rewrite !app_assoc. apply Permutation_app_tail.
  apply Permutation_app_tail. apply Permutation_app_comm.
Qed.
Lemma concat_perm : forall R1 (r : list nat) R2, Permutation (concat (R1 ++ r :: R2)) (r ++ concat (R1 ++ R2)).
Proof. intros. rewrite !concat_app. cbn [concat]. rewrite !app_assoc. apply Permutation_app_tail. apply Permutation_app_comm. Qed.

Lemma other_rings : forall R1 (r : list nat) R2 dn q (x : nat), NoDup (concat (R1 ++ r :: R2) ++ dn) -> In q (R1 ++ R2) -> In x q -> ~ In x r.
Proof.
  intros R1 r R2 dn q x N I J K. apply nodup_concat in N. apply nodup_app in N. destruct N as (_ & _ & N). apply (N x K). apply in_or_app. left. eapply concat_in; eauto.
Qed.
Lemma in_mid : forall A (a : list A) x b y, In y (a ++ x :: b) <-> y = x \/ In y (a ++ b).
Proof. intros. rewrite !in_app_iff. cbn [In]. split; intros H; intuition (subst; auto). Qed.
Lemma inP : forall (P : list (nat * bool)) s t v, In v (P ++ [s; t]) <-> In v P \/ v = s \/ v = t.
Proof. intros. rewrite in_app_iff. cbn [In]. intuition. Qed.

Section Inv.
Variable E : nat -> edge.
Notation coord := (coord E).
Definition source (d : pdata) (e : nat) : nat * bool := (e, back d e).
Definition linked (d : pdata) (P : list (nat * bool)) (xy : nat * nat) : Prop :=
  coord (target d (fst xy)) = coord (source d (snd xy)) /\ In (target d (fst xy)) P /\ In (source d (snd xy)) P.
Definition openring (d : pdata) (P : list (nat * bool)) (r : list nat) : Prop :=
  ring (rings d) r /\ exists f m l, r = f :: m ++ [l] /\ back d f = true /\ back d l = false
  /\ ~ In (f, RIGT) P /\ ~ In (l, RIGT) P /\ Forall (linked d P) (opn f (m ++ [l])).
Definition dirp (d : pdata) (e : nat) : nat * nat := (pidx d (source d e), pidx d (target d e)).

Record inv (P seen : list (nat * bool)) (R : list (list nat)) (dn : list nat) (d : pdata) : Prop := {
  i_nodup : NoDup (concat R ++ dn);
  i_started : forall e, In e (concat R ++ dn) <-> In (e, LEFT) P;
  i_done : forall e, In e dn -> In (e, RIGT) P;
  i_rings : forall r, In r R -> openring d P r;
  i_line : forall e, In e (line d) -> In (e, LEFT) P;
  i_seen : incl P seen;
  i_pidx : forall v, In v seen -> nth_error (points (out d)) (pidx d v) = Some (coord v);
  i_pnodup : NoDup (points (out d));
  i_paths : Forall (fun w => NoDup w /\ w <> []) (paths (out d));
  i_edges : Permutation (flat_map cyc_pairs (paths (out d))) (map (dirp d) dn);
  i_aux : forall p, (p < length (points (out d)))%nat -> 0 <= aux (out d) p < offs d + 3;
  i_offs : 0 <= offs d <= 2 * Z.of_nat (length dn)
}.

(** The right end of an edge of an open ring is pending only for the first and the last edge *)
Lemma linked_in : forall d P m f x, Forall (linked d P) (opn f m) -> In x m -> In (source d x) P.
Proof.
  intros d P. induction m as [|y m IH]; intros f x H I; [destruct I|]. cbn [opn] in H. apply Forall_cons_iff in H. destruct H as [H1 H2].
  destruct I as [<-|I]; [apply H1|eauto].
Qed.
Lemma linked_out : forall d P m f x, Forall (linked d P) (opn f m) -> In x (removelast (f :: m)) -> In (target d x) P.
Proof.
  intros d P. induction m as [|y m IH]; intros f x H I; [destruct I|]. cbn [opn] in H. apply Forall_cons_iff in H. destruct H as [H1 H2].
  change (removelast (f :: y :: m)) with (f :: removelast (y :: m)) in I. destruct I as [<-|I]; [apply H1|eauto].
Qed.
Lemma ring_end : forall d P r e, openring d P r -> In e r -> ~ In (e, RIGT) P ->
  exists m, (back d e = true /\ exists l, r = e :: m ++ [l] /\ back d l = false /\ ~ In (l, RIGT) P)
         \/ (back d e = false /\ exists f, r = f :: m ++ [e] /\ back d f = true /\ ~ In (f, RIGT) P).
Proof.
  intros d P r e (R & f & m & l & -> & Bf & Bl & Pf & Pl & L) I N. exists m.
  destruct I as [<-|I]; [left; eauto 8|].
  destruct (Nat.eq_dec e l) as [->|Nl]; [right; eauto 8|]. exfalso.
  pose proof (linked_in _ _ _ _ _ L I) as S. apply in_app_or in I. destruct I as [I|[I|[]]]; [|congruence].
  assert (T : In (target d e) P).
  { eapply linked_out; [exact L|]. change (f :: m ++ [l]) with ((f :: m) ++ [l]). rewrite removelast_last. right; exact I. }
  unfold source, target in *. destruct (back d e); cbn [negb] in *; contradiction.
Qed.

(** *** What may change without effect on a ring *)
Lemma openring_keep : forall d d' P P' r, openring d P r -> ring (rings d') r -> (forall x, In x r -> back d' x = back d x) ->
  incl P P' -> (forall e, In e r -> In (e, RIGT) P' -> In (e, RIGT) P) -> openring d' P' r.
Proof.
  intros d d' P P' r (R & f & m & l & -> & Bf & Bl & Pf & Pl & L) R' Hb HP HQ. split; [exact R'|].
  assert (If : In f (f :: m ++ [l])) by (left; reflexivity). assert (Il : In l (f :: m ++ [l])) by (right; apply in_or_app; right; left; reflexivity).
  exists f, m, l. split; [reflexivity|]. rewrite !Hb by assumption. split; [exact Bf|]. split; [exact Bl|]. split; [eauto|]. split; [eauto|].
  assert (X : forall a (q : list nat) x y, In (x, y) (opn a q) -> In x (a :: q) /\ In y q).
  { clear. intros a q. revert a. induction q as [|b q IH]; intros a x y I; [destruct I|]. cbn [opn] in I. destruct I as [I|I]; [injection I as <- <-; split; left; reflexivity|].
    destruct (IH b x y I) as (A & B). split; [right; exact A|right; exact B]. }
  rewrite Forall_forall in *. intros [x y] I. pose proof (X _ _ _ _ I) as (Ix & Iy). destruct (L _ I) as (A & B & C).
  unfold linked, target, source in *. cbn [fst snd] in *. rewrite !Hb by (auto; right; exact Iy). auto.
Qed.
Lemma dirp_keep : forall d d' l, (forall e, In e l -> back d' e = back d e) -> (forall e, In e l -> forall s, pidx d' (e, s) = pidx d (e, s)) -> map (dirp d') l = map (dirp d) l.
Proof.
  intros d d' l Hb Hp. apply map_ext_in. intros e I. unfold dirp, source, target. rewrite !Hb, !Hp by assumption. reflexivity.
Qed.

(** ** START *)
Lemma start_ok : forall P seen R dn d es et b (ln : list nat), inv P seen R dn d -> In (es, LEFT) seen -> In (et, LEFT) seen -> es <> et ->
  ~ In (es, LEFT) P -> ~ In (et, LEFT) P -> ~ In (es, RIGT) P -> ~ In (et, RIGT) P -> left (E es) = left (E et) ->
  (forall e, In e ln -> e = es \/ e = et \/ In e (line d)) ->
  exists d' R', list_edge_init2 E es et (set_back (Reduce_model.upd (Reduce_model.upd (back d) es b) et (negb b)) (set_line ln d)) = Done d'
  /\ inv (P ++ [(es, LEFT); (et, LEFT)]) seen R' dn d' /\ line d' = ln /\ (forall e, back d' e = if (e =? et)%nat then negb b else if (e =? es)%nat then b else back d e)
  /\ pidx d' = pidx d /\ out d' = out d /\ pts d' = pts d.
Proof.
  intros P seen R dn d es et b ln [I1 I2 I3 I4 I5 I6 I7 I8 I9 I10 I11 I12] Ss St NE Ns Nt Nrs Nrt C HL.
  unfold list_edge_init2. cbn [back set_back].
  rewrite upd_ne, !upd_eq by congruence. assert (X : xorb b (negb b) && vec2_eq (left (E es)) (left (E et)) = true).
  { rewrite C. assert (V : vec2_eq (left (E et)) (left (E et)) = true) by (apply vec2_eq_iff; reflexivity). rewrite V. destruct b; reflexivity. }
  unfold check. rewrite X. clear X.
  set (d' := set_rings _ _). exists d', ((if b then [es; et] else [et; es]) :: R). split; [reflexivity|].
  assert (NR : forall r, In r R -> ~ In es r /\ ~ In et r).
  { intros r Ir. split; intros J; [apply Ns|apply Nt]; apply I2, in_or_app; left; eapply concat_in; eauto. }
  assert (BK : forall e, back d' e = if (e =? et)%nat then negb b else if (e =? es)%nat then b else back d e).
  { intros e. unfold d'. cbn [back set_rings list_edge_init set_back]. unfold Reduce_model.upd. reflexivity. }
  assert (BO : forall e, e <> es -> e <> et -> back d' e = back d e).
  { intros e A B. rewrite BK. destruct (Nat.eqb_spec e et); [congruence|]. destruct (Nat.eqb_spec e es); [congruence|]. reflexivity. }
  assert (DN : forall e, In e dn -> e <> es /\ e <> et).
  { intros e Ie. split; intros ->; [apply Ns|apply Nt]; apply I2, in_or_app; right; exact Ie. }
  assert (RG : rings d' = chain (init (init (rings d) es) et) es et) by reflexivity.
  assert (Res : ring (init (init (rings d) es) et) [es]) by (apply init_others; [apply init_ring|intros [J|[]]; congruence]).
  assert (Ret : ring (init (init (rings d) es) et) [et]) by apply init_ring.
  assert (RR : ring (rings d') [es; et]).
  { rewrite RG. apply (chain_rings _ es et [] []); auto. cbn [app]. constructor; [intros [J|[]]; congruence|constructor; [intros []|constructor]]. }
  split; [constructor|].
  - cbn [concat]. rewrite <- app_assoc. apply nodup_app. split; [destruct b; (constructor; [intros [J|[]]; congruence|constructor; [intros []|constructor]])|].
    split; [exact I1|]. intros x J K. apply I2 in K. destruct b; destruct J as [<-|[<-|[]]]; contradiction.
  - intros e. cbn [concat]. rewrite <- app_assoc, in_app_iff, I2, inP. split.
    + intros [J|J]; [right; destruct b; destruct J as [<-|[<-|[]]]; auto|auto].
    + intros [J|[J|J]]; [auto|left|left]; injection J as ->; destruct b; cbn [In]; auto.
  - intros e Ie. apply inP. left. auto.
  - intros r [<-|Ir].
    + split; [destruct b; [exact RR|exact (ring_rot1 _ _ _ RR)]|].
      assert (LK : forall x y, (x = es /\ y = et) \/ (x = et /\ y = es) -> back d' x = true -> back d' y = false -> Forall (linked d' (P ++ [(es, LEFT); (et, LEFT)])) (opn x ([] ++ [y]))).
      { intros x y XY Bx By. constructor; [|constructor]. unfold linked, target, source. cbn [fst snd]. rewrite Bx, By. cbn [negb]. unfold Reduce_model.coord. cbn [fst snd].
        rewrite !inP. destruct XY as [(-> & ->)|(-> & ->)]; (split; [congruence|]); unfold LEFT; auto. }
      assert (ES : back d' es = b) by (rewrite BK; destruct (Nat.eqb_spec es et); [congruence|]; rewrite Nat.eqb_refl; reflexivity).
      assert (ET : back d' et = negb b) by (rewrite BK, Nat.eqb_refl; reflexivity).
      assert (N1 : ~ In (es, RIGT) (P ++ [(es, LEFT); (et, LEFT)])) by (rewrite inP; intros [J|[J|J]]; [contradiction|discriminate|discriminate]).
      assert (N2 : ~ In (et, RIGT) (P ++ [(es, LEFT); (et, LEFT)])) by (rewrite inP; intros [J|[J|J]]; [contradiction|discriminate|discriminate]).
      destruct b; cbn [negb] in *.
      * exists es, [], et. repeat (split; [assumption || reflexivity|]). apply LK; auto.
      * exists et, [], es. repeat (split; [assumption || reflexivity|]). apply LK; auto.
    + eapply openring_keep; [apply I4, Ir| | | |].
      * rewrite RG. destruct (NR r Ir) as (A & B). eapply chain_keep; [exact Res|exact Ret|left; reflexivity|left; reflexivity| |].
        -- apply init_others; [apply init_others; [apply I4, Ir|exact A]|exact B].
        -- intros x Ix. split; intros [J|[]]; subst x; contradiction.
      * intros x Ix. destruct (NR r Ir) as (A & B). apply BO; intros ->; contradiction.
      * intros v Iv. apply inP. auto.
      * intros e _ J. apply inP in J. destruct J as [J|[J|J]]; [exact J|discriminate|discriminate].
  - intros e Ie. apply inP. change (line d') with ln in Ie. destruct (HL e Ie) as [->|[->|J]]; auto.
  - intros v Iv. apply inP in Iv. destruct Iv as [Iv|[->| ->]]; auto.
  - exact I7.
  - exact I8.
  - exact I9.
  - change (out d') with (out d). rewrite I10. rewrite (dirp_keep d d' dn); [apply Permutation_refl| |reflexivity].
    intros e Ie. destruct (DN e Ie). apply BO; assumption.
  - exact I11.
  - exact I12.
  - split; [reflexivity|]. split; [exact BK|]. split; [reflexivity|]. split; reflexivity.
Qed.

(** ** BEND *)
Lemma bend_ok : forall P seen R dn d es et (ln : list nat), inv P seen R dn d -> In (es, RIGT) seen -> In (et, LEFT) seen -> es <> et ->
  In (es, LEFT) P -> ~ In (et, LEFT) P -> ~ In (es, RIGT) P -> ~ In (et, RIGT) P -> rigt (E es) = left (E et) ->
  (forall e, In e ln -> e = et \/ In e (line d)) ->
  exists d' R', list_edge_insert E es et (list_edge_init et (set_back (Reduce_model.upd (back d) et (back d es)) (set_line ln d))) = Done d'
  /\ inv (P ++ [(es, RIGT); (et, LEFT)]) seen R' dn d' /\ line d' = ln /\ (forall e, back d' e = if (e =? et)%nat then back d es else back d e)
  /\ pidx d' = pidx d /\ out d' = out d /\ pts d' = pts d.
Proof.
  intros P seen R dn d es et ln [I1 I2 I3 I4 I5 I6 I7 I8 I9 I10 I11 I12] Ss St NE Ps Nt Nrs Nrt C HL.
  assert (NR : forall r, In r R -> ~ In et r).
  { intros r Ir J. apply Nt. apply I2, in_or_app; left; eapply concat_in; eauto. }
  assert (DN : forall e, In e dn -> e <> et) by (intros e Ie ->; apply Nt; apply I2, in_or_app; right; exact Ie).
  assert (IR : exists r, In r R /\ In es r).
  { apply I2 in Ps. apply in_app_or in Ps. destruct Ps as [J|J]; [apply in_concat in J; exact J|]. apply I3 in J. contradiction. }
  destruct IR as (r & Ir & Jr). pose proof (I4 r Ir) as O.
  unfold list_edge_insert, list_edge_init. cbn [rings back set_rings set_back set_line].
  rewrite upd_ne, upd_eq by congruence.
  set (h := init (rings d) et).
  assert (RE : ring h [et]) by apply init_ring.
  assert (RO : forall q, In q R -> ring h q) by (intros q Iq; apply init_others; [apply I4, Iq|apply NR, Iq]).
  assert (NT : nontrivial h es = true).
  { destruct O as (_ & f & m & l & -> & _). eapply nontrivial_ring; [apply RO, Ir|exact Jr]. }
  assert (TR : trivial h et = true).
  { unfold trivial, h, init, set_next, set_prev. cbn [next prev]. rewrite List_proofs.upd_same, List_proofs.upd_same, Nat.eqb_refl. reflexivity. }
  rewrite NT, TR. assert (V : vec2_eq (rigt (E es)) (left (E et)) = true) by (apply vec2_eq_iff; exact C). rewrite V, xorb_nilpotent. cbn [andb negb check].
  set (r' := if back d es then et :: r else r ++ [et]).
  assert (MEM : forall x, In x r' <-> x = et \/ In x r).
  { intros x. unfold r'. destruct (back d es); [cbn [In]; split; intros [J|J]; auto|]. rewrite in_app_iff. cbn [In]. split; intros [J|J]; auto; destruct J as [J|[]]; auto. }
  destruct (in_split _ _ Ir) as (R1 & R2 & HR). subst R.
  assert (DT : forall q x, In q (R1 ++ R2) -> In x q -> ~ In x r) by (intros q x; eapply other_rings; exact I1).
  assert (KR : forall p n, (p = es /\ n = et) \/ (p = et /\ n = es) -> forall q, In q (R1 ++ R2) -> ring (chain h p n) q).
  { intros p n PN q Iq. assert (IR' : In q (R1 ++ r :: R2)) by (apply in_mid; auto).
    destruct PN as [(-> & ->)|(-> & ->)].
    - eapply chain_keep; [apply RO, Ir|exact RE|exact Jr|left; reflexivity|apply RO, IR'|]. intros x Ix. split; [eapply DT; eauto|intros [J|[]]; subst x; exact (NR q IR' Ix)].
    - eapply chain_keep; [exact RE|apply RO, Ir|left; reflexivity|exact Jr|apply RO, IR'|]. intros x Ix. split; [intros [J|[]]; subst x; exact (NR q IR' Ix)|eapply DT; eauto]. }
  destruct (ring_end d P r es O Jr Nrs) as (m & CASE).
  assert (ND : NoDup r') by (unfold r'; pose proof (ring_nodup _ _ (proj1 O)) as N; pose proof (NR r Ir); destruct (back d es); [constructor; assumption|];
    apply (Permutation_NoDup (Permutation_cons_append r et)); constructor; assumption).
  set (dd := fun g => set_rings g (set_rings h (set_back (Reduce_model.upd (back d) et (back d es)) (set_line ln d)))).
  set (g := if back d es then chain h et es else chain h es et).
  assert (RG : ring g r').
  { unfold g, r'. destruct CASE as [(B & l & -> & Bl & Nl)|(B & f & -> & Bf & Nf)]; rewrite B.
    - apply (chain_rings h et es [] (m ++ [l])); [exact RE|apply RO, Ir|]. unfold r' in ND. rewrite B in ND. exact ND.
    - change (f :: m ++ [es]) with ((f :: m) ++ [es]). apply (chain_rings h es et (f :: m) []); [apply RO, Ir|exact RE|]. unfold r' in ND. rewrite B in ND. exact ND. }
  assert (EQ : (if back d es
     then check (prev (chain h et es) es =? et)%nat (Done (dd (chain h et es)))
     else check (next (chain h es et) es =? et)%nat (Done (dd (chain h es et)))) = Done (dd g)).
  { unfold g, r' in *. destruct CASE as [(B & l & -> & Bl & Nl)|(B & f & -> & Bf & Nf)]; rewrite B in *.
    - destruct RG as (_ & _ & P2). change (es :: m ++ [l]) with ([es] ++ (m ++ [l])) in P2. rewrite rev_app_distr in P2. cbn [rev app] in P2. apply path_app in P2. destruct P2 as (_ & P2). cbn [path] in P2.
      rewrite P2, Nat.eqb_refl. reflexivity.
    - apply (ring_rot _ (f :: m ++ [es]) [et]) in RG. destruct RG as (_ & P2 & _). change (f :: m ++ [es]) with ((f :: m) ++ [es]) in P2. apply (proj1 (path_app _ _ (f :: m) es [] _)) in P2. destruct P2 as (_ & P2). cbn [path] in P2.
      rewrite P2, Nat.eqb_refl. reflexivity. }
  exists (dd g), (r' :: R1 ++ R2). split; [exact EQ|]. clear EQ.
  set (d' := dd g).
  assert (BK : forall e, back d' e = if (e =? et)%nat then back d es else back d e) by reflexivity.
  assert (BO : forall e, e <> et -> back d' e = back d e) by (intros e A; rewrite BK; destruct (Nat.eqb_spec e et); [congruence|]; reflexivity).
  split; [constructor|].
  - cbn [concat]. rewrite <- app_assoc. pose proof (nodup_concat _ _ _ _ I1) as N. apply nodup_app in N. destruct N as (N1 & N2 & N3).
    apply nodup_app. split; [exact ND|]. split; [exact N2|]. intros x J K. apply MEM in J. destruct J as [->|J]; [|exact (N3 x J K)].
    apply Nt, I2. apply in_app_or in K. apply in_or_app. destruct K as [K|K]; [left; apply (Permutation_in _ (Permutation_sym (concat_perm R1 r R2))), in_or_app; right; exact K|right; exact K].
  - intros e. cbn [concat]. rewrite <- app_assoc, in_app_iff, MEM, inP. rewrite <- I2.
    rewrite !in_app_iff. assert (CP : In e (concat (R1 ++ r :: R2)) <-> In e r \/ In e (concat (R1 ++ R2))).
    { rewrite <- in_app_iff. split; apply Permutation_in; [apply concat_perm|apply Permutation_sym, concat_perm]. }
    rewrite CP. split.
    + intros [[->|J]|[J|J]]; auto.
    + intros [[[J|J]|J]|[J|J]]; auto; [discriminate|injection J as ->; auto].
  - intros e Ie. apply inP. left. auto.
  - intros q [<-|Iq].
    + split; [exact RG|].
      assert (IN1 : incl P (P ++ [(es, RIGT); (et, LEFT)])) by (intros v Iv; apply inP; auto).
      assert (BR : forall x, In x r -> back d' x = back d x) by (intros x Ix; apply BO; intros ->; exact (NR r Ir Ix)).
      assert (NR2 : forall x, x <> es -> ~ In (x, RIGT) P -> ~ In (x, RIGT) (P ++ [(es, RIGT); (et, LEFT)])).
      { intros x Nx Np J. apply inP in J. destruct J as [J|[J|J]]; [exact (Np J)|injection J as ->; congruence|discriminate]. }
      assert (Bet : back d' et = back d es) by (rewrite BK, Nat.eqb_refl; reflexivity).
      assert (Bes : back d' es = back d es) by (apply BO; congruence).
      (* the old links *)
      assert (OL : forall f m0 l, r = f :: m0 ++ [l] -> Forall (linked d' (P ++ [(es, RIGT); (et, LEFT)])) (opn f (m0 ++ [l]))).
      { intros f m0 l Q. destruct O as (_ & f1 & m1 & l1 & Q1 & _ & _ & _ & _ & L). rewrite Q1 in Q. injection Q as -> Q. apply app_inj_tail in Q. destruct Q as (-> & ->).
        assert (X : forall a (q : list nat) x y, In (x, y) (opn a q) -> In x (a :: q) /\ In y q).
        { clear. intros a q. revert a. induction q as [|b q IH]; intros a x y I; [destruct I|]. cbn [opn] in I. destruct I as [I|I]; [injection I as <- <-; split; left; reflexivity|].
          destruct (IH b x y I) as (A & B). split; [right; exact A|right; exact B]. }
        rewrite Forall_forall in *. intros [x y] I. pose proof (X _ _ _ _ I) as (Ix & Iy). destruct (L _ I) as (A1 & A2 & A3).
        unfold linked, target, source in *. cbn [fst snd] in *. rewrite !BR by (rewrite Q1; (exact Ix) || (right; exact Iy)). auto. }
      unfold r'. destruct CASE as [(B & l & Hr & Bl & Nl)|(B & f & Hr & Bf & Nf)]; rewrite B.
      * rewrite Hr. exists et, (es :: m), l. split; [reflexivity|]. rewrite Bet. split; [exact B|].
        assert (Il : In l r) by (rewrite Hr; right; apply in_or_app; right; left; reflexivity).
        split; [rewrite BR by exact Il; exact Bl|].
        split; [apply NR2; [congruence|exact Nrt]|]. split; [apply NR2; [intros ->; rewrite B in Bl; discriminate|exact Nl]|].
        change ((es :: m) ++ [l]) with (es :: m ++ [l]). cbn [opn]. constructor; [|apply OL; exact Hr].
        unfold linked, target, source. cbn [fst snd]. rewrite Bet, Bes, B. cbn [negb]. unfold Reduce_model.coord. cbn [fst snd]. rewrite !inP. unfold LEFT, RIGT. auto.
      * rewrite Hr. exists f, (m ++ [es]), et. split; [reflexivity|]. rewrite Bet.
        assert (If : In f r) by (rewrite Hr; left; reflexivity).
        split; [rewrite BR by exact If; exact Bf|]. split; [exact B|].
        split; [apply NR2; [intros ->; rewrite B in Bf; discriminate|exact Nf]|]. split; [apply NR2; [congruence|exact Nrt]|].
        rewrite opn_app. apply Forall_app. split; [apply OL; exact Hr|]. constructor; [|constructor].
        unfold linked, target, source. cbn [fst snd]. rewrite last_last, Bet, Bes, B. cbn [negb]. unfold Reduce_model.coord. cbn [fst snd]. rewrite !inP. unfold LEFT, RIGT. auto.
    + assert (Iq' : In q (R1 ++ r :: R2)) by (apply in_mid; auto).
      eapply openring_keep; [apply I4, Iq'| | | |].
      * change (rings d') with g. unfold g. destruct (back d es); apply KR; auto.
      * intros x Ix. apply BO. intros ->. exact (NR q Iq' Ix).
      * intros v Iv. apply inP. auto.
      * intros e Ie J. apply inP in J. destruct J as [J|[J|J]]; [exact J| |discriminate]. injection J as ->. exfalso. exact (DT q es Iq Ie Jr).
  - intros e Ie. apply inP. change (line d') with ln in Ie. destruct (HL e Ie) as [->|J]; auto.
  - intros v Iv. apply inP in Iv. destruct Iv as [Iv|[->| ->]]; auto.
  - exact I7.
  - exact I8.
  - exact I9.
  - change (out d') with (out d). rewrite I10. rewrite (dirp_keep d d' dn); [apply Permutation_refl| |reflexivity].
    intros e Ie. apply BO, DN, Ie.
  - exact I11.
  - exact I12.
  - split; [reflexivity|]. split; [exact BK|]. split; [reflexivity|]. split; reflexivity.
Qed.
End Inv.
