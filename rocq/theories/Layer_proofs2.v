(** The loop over the layers. *)
From Coq Require Import List NArith Arith Bool Lia.
From Verif Require Import Bitmap_model Bitmap_spec Lazy_model Lazy_spec Lazy_proofs Layer_model Layer_spec Layer_proofs.
Import ListNotations.

(** *** Flattening returns no empty sweep structure *)
Section NonEmpty.
Variables region sweep : Type.
Variable region_void : region -> bool.
Variable run_sweep : list (item region sweep) -> (nat -> bool) -> sweep.
Variable sweep_empty : sweep -> bool.

Definition ne (l : lazy region sweep) : Prop :=
  forall s, In (ISweep _ _ s) (data _ _ l) -> sweep_empty s = false.

Definition one (o : option (lazy region sweep)) : Prop := forall l, o = Some l -> ne l.

Lemma ne0 : ne (lazy0 region sweep).
Proof. intros s []. Qed.

Lemma eager_ne l m : ne l -> ne (flatten_eager _ _ run_sweep sweep_empty l m).
Proof.
  intros H. unfold flatten_eager.
  set (sw := run_sweep _ _).
  assert (G : ne (if sweep_empty sw then mk_lazy _ _ [] (comb _ _ l)
                  else mk_lazy _ _ [ISweep _ _ sw] (upd (comb _ _ l) 0 2%N))).
  { destruct (sweep_empty sw) eqn:E; [intros s []|]. intros s [X|[]]. injection X as <-. exact E. }
  destruct (data _ _ l) as [|[r|r|s] [|i d]]; auto. destruct m; auto.
Qed.

Lemma append_ne a b op : ne a -> ne b -> one (lazy_append _ _ a b op).
Proof.
  intros A B l. unfold lazy_append. destruct (negb _); [discriminate|].
  destruct (bitmap_repeat _ _ _); [|discriminate]. destruct (bitmap_spread _ _ _); [|discriminate].
  intros X. injection X as <-. intros s Hs. cbn in Hs. apply in_app_or in Hs. destruct Hs; auto.
Qed.

Lemma loop_ne n opt op : forall a b, ne a -> ne b -> one (lazy_loop _ _ run_sweep sweep_empty n opt a b op).
Proof.
  induction n as [|n IH]; intros a b A B; cbn [lazy_loop]; [apply append_ne; auto|].
  destruct (_ && _); [intros l X; injection X as <-; destruct op; auto using ne0|].
  destruct (_ && _); [intros l X; injection X as <-; destruct op; auto using ne0|].
  destruct (_ <=? _); [apply append_ne; auto|].
  destruct (negb _); [intros l X; discriminate|].
  destruct (_ <? _).
  - destruct (_ <=? _); [apply IH; auto using eager_ne|intros l X; discriminate].
  - destruct (_ <=? _); [apply IH; auto using eager_ne|intros l X; discriminate].
Qed.

Lemma flatten_lazy_ne opt a b op : ne a -> ne b -> one (flatten_lazy _ _ run_sweep sweep_empty opt a b op).
Proof. intros A B. unfold flatten_lazy. destruct (negb _); [intros l X; discriminate|]. now apply loop_ne. Qed.

Lemma fold_ne opt op xs : Forall one xs -> forall o, ne o -> one (fold_lazy _ _ run_sweep sweep_empty opt op o xs).
Proof.
  induction 1 as [|[x|] xs Hx _ IH]; intros o O; cbn.
  - intros l X. injection X as <-. exact O.
  - destruct (flatten_lazy _ _ _ _ _ _ _ _) as [o'|] eqn:E; [|intros l X; discriminate].
    apply IH. eapply flatten_lazy_ne; [exact O| |exact E]. now apply Hx.
  - intros l X. discriminate.
Qed.

Lemma fold1_ne opt op xs : Forall one xs -> one (fold_lazy1 _ _ run_sweep sweep_empty opt op xs).
Proof.
  intros H. destruct H as [|[x|] xs Hx H]; cbn.
  - intros l X. injection X as <-. apply ne0.
  - apply fold_ne; auto.
  - intros l X. discriminate.
Qed.

Lemma Forall_map' {A B} (f : A -> B) (P : B -> Prop) l : Forall (fun x => P (f x)) l -> Forall P (map f l).
Proof. induction 1; cbn; constructor; auto. Qed.

Lemma leaf_ne r i : (forall s, i <> ISweep _ _ s) -> one (Some (flatten_lazy_leaf _ _ region_void r i)).
Proof.
  intros H l X. injection X as <-. unfold flatten_lazy_leaf. destruct (region_void r); [apply ne0|].
  intros s [X|[]]. now apply H in X.
Qed.

Lemma rec_ne opt zi a : one (flatten_rec _ _ region_void run_sweep sweep_empty opt zi a).
Proof.
  set (f := flatten_rec _ _ region_void run_sweep sweep_empty opt zi).
  assert (V : forall l, Forall (fun a => one (f a)) l -> one (fold_lazy1 _ _ run_sweep sweep_empty opt OP_ADD (map f l))).
  { intros l H. apply fold1_ne. apply Forall_map'. exact H. }
  induction a as [r|r|i ls H|l H|l H|l m H H'|l H] using csg_ind'.
  - now apply leaf_ne.
  - now apply leaf_ne.
  - unfold f. cbn [flatten_rec]. fold f.
    destruct (negb _); [intros l X; injection X as <-; apply ne0|].
    rewrite nth_error_map. destruct (nth_error ls (zi - i)) as [[lzi o]|] eqn:E; cbn [option_map];
      [|intros l X; injection X as <-; apply ne0].
    apply nth_error_In in E. rewrite Forall_forall in H. specialize (H _ E).
    destruct o as [rs|].
    + destruct (negb _); [destruct (lzi =? 0); intros l X; [injection X as <-; apply ne0|discriminate]|].
      apply V. exact H.
    + destruct (negb _); [destruct (lzi =? 0); intros l X; [injection X as <-; apply ne0|discriminate]|].
      intros l X. injection X as <-. apply ne0.
  - apply V. exact H.
  - apply fold1_ne. apply Forall_map'. eapply Forall_impl; [|exact H]. intros x. apply V.
  - unfold f. cbn [flatten_rec]. fold f.
    destruct (fold_lazy1 _ _ _ _ _ _ (map f l)) as [o|] eqn:E1; [|intros l' X; discriminate].
    destruct (fold_lazy1 _ _ _ _ _ _ (map f m)) as [os|] eqn:E2; [|intros l' X; discriminate].
    apply flatten_lazy_ne; [eapply V; [exact H|exact E1]|eapply V; [exact H'|exact E2]].
  - apply fold1_ne. apply Forall_map'. eapply Forall_impl; [|exact H]. intros x. apply V.
Qed.

Lemma flatten_layer_ne opt zi a s :
  flatten_layer _ _ region_void run_sweep sweep_empty opt zi a = Some (Some s) -> sweep_empty s = false.
Proof.
  unfold flatten_layer, flatten_result. pose proof (rec_ne opt zi a) as H.
  destruct (flatten_rec _ _ _ _ _ _ _ _) as [ol|]; [|discriminate].
  specialize (H ol eq_refl). apply (eager_ne _ MODE_TRI) in H.
  set (y := flatten_eager _ _ _ _ ol MODE_TRI) in *. intros X.
  destruct (data _ _ y) as [|[r|r|s'] [|i d]] eqn:D; try discriminate.
  injection X as <-. apply H. rewrite D. now left.
Qed.

End NonEmpty.

Section Proofs.

Variables obj zt region sweep poly point : Type.
Variable slice : obj -> zt -> option region.
Variable region_void : region -> bool.
Variable run_sweep : list (item region sweep) -> (nat -> bool) -> sweep.
Variable sweep_empty : sweep -> bool.
Variable trianglify : sweep -> option poly.
Variable points : poly -> nat.
Variable solid_in : obj -> zt -> point -> bool.
Variable region_in : region -> point -> bool.
Variable sweep_in : sweep -> point -> bool.
Variable poly_in : poly -> point -> bool.
Hypothesis slice_ok : slice_correct obj zt region point solid_in region_in slice.
Hypothesis run_ok : sweep_correct region sweep point region_in sweep_in run_sweep.
Hypothesis empty_ok : empty_correct sweep point sweep_in sweep_empty.
Hypothesis void_ok : void_correct region point region_in region_void.
Hypothesis tri_ok : tri_correct sweep poly point sweep_in poly_in sweep_empty trianglify points.

Notation csg3 := (csg3 obj).
Notation tree := (tree obj region).
Notation csg_in := (csg_in region point region_in).
Notation csg_ok := (csg_ok region).
Notation to_csg := (to_csg obj region).
Notation root_in := (root_in obj zt point solid_in).
Notation out := (out zt poly).
Notation layer_is := (layer_is zt poly point poly_in).
Notation rel := (rel obj region).
Notation turn := (turn obj zt region slice sweep region_void run_sweep sweep_empty poly trianglify points).
Notation process := (process obj zt region slice sweep region_void run_sweep sweep_empty poly trianglify points).

Variable opt : csg_opt.
Variable no_csg : bool.
Variable cnt : nat.
Variable zof : nat -> zt.
Variable root : option (list csg3).
Hypothesis max_ok : 2 <= max_simultaneous opt.
Hypothesis skip_ok : skip_empty opt = true.

Definition rootd : csg3 := T3Add _ (match root with None => [] | Some l => l end).

Lemma rootd_in z p : csg3_in obj zt point solid_in z p rootd = root_in z p root.
Proof. unfold rootd. destruct root; reflexivity. Qed.

Record inv (done : list nat) (st : (list tree * list zt) * out) : Prop := mk_inv {
  i_z : snd (fst st) = map zof (seq 0 cnt);
  i_rel : rel (at0 obj region) rootd (TAdd _ _ (fst (fst st)));
  i_new : forall zi, zi < cnt -> ~ In zi done ->
    rel (fresh obj region zi) rootd (TAdd _ _ (fst (fst st))) /\
    nth_error (o_layer _ _ (snd st)) zi = Some (0, None) /\
    nth_error (o_flag _ _ (snd st)) zi = Some false;
  i_done : forall zi, zi < cnt -> In zi done ->
    csg_ok zi (to_csg (TAdd _ _ (fst (fst st)))) = true /\
    (forall p, csg_in zi p (to_csg (TAdd _ _ (fst (fst st)))) = root_in (zof zi) p root) /\
    (no_csg = false -> layer_is (snd st) zi (fun p => root_in (zof zi) p root));
  i_out : o_z _ _ (snd st) = map zof (seq 0 cnt);
  i_len : length (o_layer _ _ (snd st)) = cnt /\ length (o_flag _ _ (snd st)) = cnt
}.

Lemma nth_z zi : zi < cnt -> nth_error (map zof (seq 0 cnt)) zi = Some (zof zi).
Proof.
  intros H. rewrite nth_error_map.
  replace (nth_error (seq 0 cnt) zi) with (Some zi); [reflexivity|]. symmetry.
  rewrite nth_error_nth' with (d := 0) by (now rewrite seq_length). f_equal. now rewrite seq_nth.
Qed.

Lemma nth_repeat {A} (x : A) n i : i < n -> nth_error (repeat x n) i = Some x.
Proof. revert i. induction n; intros [|i] H; cbn; try lia; [reflexivity|]. apply IHn. lia. Qed.

Lemma init_inv : inv [] (tree_from_csg3 obj zt region cnt zof root,
  op_tree_init obj zt region poly (tree_from_csg3 obj zt region cnt zof root)).
Proof.
  assert (R : forall Q : obj -> nat -> list (layer region) -> Prop,
    (forall o, Q o 0 (repeat (0, None) cnt)) -> rel Q rootd (TAdd _ _ (fst (tree_from_csg3 obj zt region cnt zof root)))).
  { intros Q HQ. pose proof (from_csg3_rel obj region cnt Q rootd HQ) as H. unfold rootd in *. cbn in H |- *.
    destruct root; exact H. }
  constructor; cbn [fst snd].
  - reflexivity.
  - apply R. intros o. reflexivity.
  - intros zi Hz _. split; [|split].
    + apply R. intros o. split; [reflexivity|]. now apply nth_repeat.
    + cbn. rewrite map_length, seq_length. now apply nth_repeat.
    + cbn. rewrite map_length, seq_length. now apply nth_repeat.
  - intros zi _ [].
  - reflexivity.
  - cbn. now rewrite !repeat_length, map_length, seq_length.
Qed.

Lemma each_steps z zi ts : snd (each (add_layer obj zt region slice z zi) ts false) = steps obj zt region slice z zi ts.
Proof. now rewrite each_add. Qed.

(** triangulation never fails *)
Definition tri_total : Prop := forall s, trianglify s <> None.

Lemma turn_inv done st zi : inv done st -> zi < cnt -> ~ In zi done ->
  match turn opt no_csg st zi with
  | Done st' => inv (zi :: done) st'
  | Error => no_csg = false /\ exists s, trianglify s = None
  | Crash => False
  end.
Proof.
  intros I Hz Hn. destruct st as [[ts zs] r]. destruct I as [Iz Ir In_ Id Io [Il If]]. cbn [fst snd] in *.
  unfold Layer_model.turn, tree_add_layer. cbn [fst snd]. rewrite Iz, (nth_z zi Hz), each_steps.
  set (ts' := steps _ _ _ _ (zof zi) zi ts).
  assert (E' : TAdd _ _ ts' = step obj zt region slice (zof zi) zi (TAdd _ _ ts)) by (now rewrite step_add).
  destruct (In_ zi Hz Hn) as (Fr & La & Fl).
  destruct (step_this obj zt region point slice solid_in region_in slice_ok (zof zi) zi rootd _ Fr) as (G1 & G2 & _).
  rewrite <- E' in G1, G2.
  assert (P : forall zj, zj < cnt -> ~ In zj (zi :: done) -> rel (fresh obj region zj) rootd (TAdd _ _ ts')).
  { intros zj Hj N. rewrite E'. apply step_fresh; [intros ->; apply N; now left|].
    apply In_; [exact Hj|]. intros X. apply N. now right. }
  assert (D : forall zj, zj < cnt -> In zj (zi :: done) ->
     csg_ok zj (to_csg (TAdd _ _ ts')) = true /\
     (forall p, csg_in zj p (to_csg (TAdd _ _ ts')) = root_in (zof zj) p root)).
  { intros zj Hj J. destruct (Nat.eq_dec zj zi) as [-> | Ne].
    - split; [exact G1|]. intros p. rewrite G2. apply rootd_in.
    - destruct J as [J|J]; [congruence|]. destruct (Id zj Hj J) as (D1 & D2 & _). rewrite E'. split.
      + rewrite (step_other_ok obj zt region slice (zof zi) zi zj Ne _ _ Ir). exact D1.
      + intros p. rewrite (step_other_in obj zt region point slice region_in (zof zi) zi zj p Ne _ _ Ir). apply D2. }
  assert (R' : rel (at0 obj region) rootd (TAdd _ _ ts')) by (rewrite E'; now apply step_at0).
  destruct no_csg eqn:NC.
  - (* without flattening *)
    constructor; cbn [fst snd]; auto.
    + intros zj Hj N. split; [now apply P|]. apply In_; [exact Hj|]. intros X. apply N. now right.
    + intros zj Hj J. destruct (D zj Hj J) as [D1 D2]. repeat split; auto. rewrite NC. discriminate.
  - unfold op_flatten_layer. cbn [fst snd]. rewrite Il.
    replace (zi <? cnt) with true by (symmetry; now apply Nat.ltb_lt). cbn [negb].
    destruct (flatten_layer_ok region sweep point region_in sweep_in region_void run_sweep sweep_empty
      run_ok empty_ok void_ok opt zi (to_csg (TAdd _ _ ts')) max_ok skip_ok G1) as (s & S1 & S2).
    rewrite S1.
    assert (L : forall (r' : out), (forall zj, zj <> zi -> nth_error (o_layer _ _ r') zj = nth_error (o_layer _ _ r) zj /\
                                  nth_error (o_flag _ _ r') zj = nth_error (o_flag _ _ r) zj) ->
                o_z _ _ r' = map zof (seq 0 cnt) ->
                length (o_layer _ _ r') = cnt -> length (o_flag _ _ r') = cnt ->
                layer_is r' zi (fun p => root_in (zof zi) p root) -> inv (zi :: done) ((ts', map zof (seq 0 cnt)), r')).
    { intros r' Ho Hz' Hl Hf Hi. constructor; cbn [fst snd]; auto.
      - intros zj Hj N. split; [now apply P|]. destruct (Ho zj) as [-> ->]; [intros ->; apply N; now left|].
        apply In_; [exact Hj|]. intros X. apply N. now right.
      - intros zj Hj J. destruct (D zj Hj J) as [D1 D2]. split; [exact D1|]. split; [exact D2|]. intros _.
        destruct (Nat.eq_dec zj zi) as [-> | Ne]; [exact Hi|]. destruct J as [J|J]; [congruence|].
        destruct (Id zj Hj J) as (_ & _ & Y). specialize (Y eq_refl). destruct (Ho zj Ne) as [H1 H2].
        unfold Layer_spec.layer_is in *. rewrite H1, H2. exact Y. }
    destruct s as [s|].
    + destruct (trianglify s) as [q|] eqn:T; [|eauto].
      destruct (tri_ok s q T) as [T1 T2]. apply flatten_layer_ne in S1. specialize (T2 S1).
      replace (0 <? points q) with true by (symmetry; now apply Nat.ltb_lt). cbn [negb].
      rewrite (nth_error_nth _ _ _ La). cbn [app]. apply L; cbn.
      * intros zj Ne. split; apply put_other; congruence.
      * exact Io.
      * now rewrite put_length.
      * now rewrite put_length.
      * right. exists q. cbn. split; [apply put_same; lia|]. split; [apply put_same; lia|].
        intros p. rewrite T1. rewrite <- (rootd_in (zof zi) p), <- G2, <- S2. reflexivity.
    + apply L; auto. left. split; [exact La|]. split; [exact Fl|]. intros p.
      rewrite <- (rootd_in (zof zi) p), <- G2, <- S2. reflexivity.
Qed.

Lemma process_inv zis : forall done st, inv done st -> NoDup zis ->
  (forall zi, In zi zis -> zi < cnt /\ ~ In zi done) ->
  match process opt no_csg st zis with
  | Done st' => inv (rev zis ++ done) st'
  | Error => no_csg = false /\ exists s, trianglify s = None
  | Crash => False
  end.
Proof.
  induction zis as [|zi zis IH]; intros done st I ND H; cbn [Layer_model.process rev app]; [exact I|].
  destruct (H zi (or_introl eq_refl)) as [Hz Hn]. pose proof (turn_inv done st zi I Hz Hn) as T.
  destruct (turn opt no_csg st zi) as [| |st']; auto.
  inversion ND; subst. rewrite <- app_assoc. cbn [app]. apply IH; auto.
  intros zj Hj. destruct (H zj (or_intror Hj)) as [A B]. split; [exact A|].
  intros [<-|X]; auto.
Qed.

Lemma run_in_ok zis : NoDup zis -> (forall zi, In zi zis -> zi < cnt) ->
  match run_in obj zt region slice sweep region_void run_sweep sweep_empty poly trianglify points
          opt no_csg cnt zof root zis with
  | Done st' => inv (rev zis) st'
  | Error => no_csg = false /\ exists s, trianglify s = None
  | Crash => False
  end.
Proof.
  intros ND H. unfold run_in. rewrite <- (app_nil_r (rev zis)). apply process_inv; auto using init_inv.
Qed.

End Proofs.
