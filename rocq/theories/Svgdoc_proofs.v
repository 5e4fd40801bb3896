(** Proofs about the placement of the shapes of an SVG file. *)
From Coq Require Import ZArith QArith Qabs Qfield List Bool Lia Lqa Setoid.
From Verif Require Import Svgdoc_model Svgdoc_spec.
Import ListNotations.
Local Open Scope Q_scope.

Lemma veq_refl a : veq a a.
Proof. split; reflexivity. Qed.
Lemma veq_trans a b c : veq a b -> veq b c -> veq a c.
Proof. intros [A B] [C D]. split; [now rewrite A|now rewrite B]. Qed.

Lemma at_mul a b p : veq (at_pt (mul a b) p) (at_pt a (at_pt b p)).
Proof. split; cbn; ring. Qed.
Lemma at_veq m p q : veq p q -> veq (at_pt m p) (at_pt m q).
Proof. intros [A B]. split; cbn; rewrite A, B; reflexivity. Qed.

Section P.
Variables tand sind cosd : Q -> Q.
Notation xform_cmd := (xform_cmd tand sind cosd).
Notation xform_list := (xform_list tand sind cosd).
Notation std_attr := (std_attr tand sind cosd).
Notation draw := (draw tand sind cosd).
Notation means := (means tand sind cosd).
Notation meanss := (meanss tand sind cosd).
Notation maps := (maps tand sind cosd).
Notation mapss := (mapss tand sind cosd).

Lemma cmd_ok n v f : means n v f -> exists ms, xform_cmd (n, v) = Some ms /\
  forall m p, veq (at_pt (fold_left mul ms m) p) (at_pt m (f p)).
Proof.
  destruct 1; eexists; (split; [reflexivity|]); intros m p; cbn [fold_left];
    try (eapply veq_trans; [apply at_mul|]; apply at_veq; split; cbn; ring).
  eapply veq_trans; [apply at_mul|]. eapply veq_trans; [apply at_mul|]. eapply veq_trans; [apply at_mul|].
  apply at_veq. split; cbn; ring.
Qed.

Lemma list_ok cs f : meanss cs f -> forall m, exists m', xform_list cs m = (m', true) /\
  forall p, veq (at_pt m' p) (at_pt m (f p)).
Proof.
  induction 1 as [|n v cs f g M _ IH]; intros m.
  - exists m. split; [reflexivity|]. intros p. apply veq_refl.
  - destruct (cmd_ok n v f M) as (ms & E & A). destruct (IH (fold_left mul ms m)) as (m' & E' & A').
    exists m'. split; [cbn -[Svgdoc_model.xform_cmd]; rewrite E; exact E'|].
    intros p. eapply veq_trans; [apply A'|]. apply A.
Qed.

Definition is_layer (l : name) (id : option name) : bool :=
  match id with Some i => if list_eq_dec Z.eq_dec l i then true else false | None => false end.

Definition next_layer (lay : option name) (id : option name) : option name :=
  match lay with Some l => if is_layer l id then None else Some l | None => None end.

Definition lay_ok (lay id : option name) (tr : option (list (tcmd))) : Prop :=
  forall l, lay = Some l -> id = Some l -> tr <> None.

Lemma std_none id c : lay_ok (layer c) id None -> layer (std_attr id None c) = next_layer (layer c) id /\ lmat (std_attr id None c) = lmat c.
Proof.
  intros L. split; [|reflexivity]. cbn. unfold next_layer. destruct (layer c) as [l|]; [|reflexivity].
  unfold is_layer. destruct id as [i|]; [|reflexivity]. destruct (list_eq_dec Z.eq_dec l i) as [->|]; [|reflexivity].
  exfalso. now apply (L i).
Qed.

Lemma std_some id cs f c : meanss cs f -> layer (std_attr id (Some cs) c) = next_layer (layer c) id /\
  forall p, veq (at_pt (lmat (std_attr id (Some cs) c)) p) (at_pt (lmat c) (f p)).
Proof.
  intros M. destruct (list_ok cs f M (lmat c)) as (m' & E & A). cbn -[Svgdoc_model.xform_list]. rewrite E. cbn [negb].
  unfold next_layer, is_layer, name_eqb. destruct (layer c) as [l|]; [|split; [reflexivity|exact A]].
  destruct id as [i|]; [|split; [reflexivity|exact A]].
  destruct (list_eq_dec Z.eq_dec l i); split; try reflexivity; exact A.
Qed.

(** the elements of a tree *)
Lemma elem_ind2 (P : elem -> Prop) : (forall k id tr ch, Forall P ch -> P (El k id tr ch)) -> forall e, P e.
Proof.
  intros H. fix IH 1. intros [k id tr ch]. apply H. induction ch as [|e ch IHc]; constructor; [apply IH|exact IHc].
Qed.

Definition good (lay : option name) (path : list elem) : Prop :=
  (exists F, mapss path F) /\ forall l e, lay = Some l -> In e path -> id_of e = Some l -> has_transform e.

Definition placed (c : loc) (x : nat * mat) (y : nat * list elem) : Prop :=
  fst x = fst y /\ forall F, mapss (snd y) F -> forall p, veq (at_pt (snd x) p) (at_pt (lmat c) (F p)).

Notation keep lay := (filter (fun x : nat * list elem => in_layer lay (snd x))).

Lemma keep_flat lay (es : list elem) : keep lay (flat_map shapes es) = flat_map (fun e => keep lay (shapes e)) es.
Proof. induction es as [|e es IH]; cbn; [reflexivity|]. now rewrite filter_app, IH. Qed.

Lemma keep_cons lay e l : keep lay (map (fun x => (fst x, e :: snd x)) l) =
  map (fun x => (fst x, e :: snd x)) (keep (next_layer lay (id_of e)) l).
Proof.
  induction l as [|x l IH]; cbn; [reflexivity|]. rewrite IH.
  assert (E : in_layer lay (e :: snd x) = in_layer (next_layer lay (id_of e)) (snd x)).
  { unfold next_layer, is_layer. destruct lay as [l'|]; [|reflexivity]. cbn.
    destruct (id_of e) as [i|]; [|reflexivity]. destruct (list_eq_dec Z.eq_dec l' i); reflexivity. }
  rewrite E. destruct (in_layer (next_layer lay (id_of e)) (snd x)); reflexivity.
Qed.

Lemma Forall2_flat (A B C : Type) (R : B -> C -> Prop) (f : A -> list B) (g : A -> list C) l :
  Forall (fun a => Forall2 R (f a) (g a)) l -> Forall2 R (flat_map f l) (flat_map g l).
Proof. induction 1; cbn; [constructor|]. now apply Forall2_app. Qed.

Lemma good_tail lay e path : good lay (e :: path) -> good (next_layer lay (id_of e)) path.
Proof.
  intros [(F & M) L]. split.
  - inversion M; subst. eauto.
  - intros l e' E I. apply (L l e'); [|now right]. unfold next_layer in E. destruct lay as [l'|]; [|discriminate E].
    destruct (is_layer l' (id_of e)); [discriminate E|]. exact E.
Qed.

(** the local state below an element *)
Definition below (c : loc) (k : kind) (id : option name) (tr : option (list tcmd)) : loc :=
  match k with
  | Svg pre post =>
      let c := std_attr id tr (mk_loc (mul (lmat c) pre) (layer c)) in mk_loc (mul (lmat c) post) (layer c)
  | _ => std_attr id tr c
  end.

Lemma below_ok c k id tr ch f : maps (El k id tr ch) f -> lay_ok (layer c) id tr ->
  layer (below c k id tr) = next_layer (layer c) id /\
  forall p, veq (at_pt (lmat (below c k id tr)) p) (at_pt (lmat c) (f p)).
Proof.
  intros M L. inversion M as [k' id' ch' PL|k' id' cs ch' f' PL ME|pre post id' ch'|pre post id' cs ch' f' ME]; subst.
  - destruct PL; unfold below; destruct (std_none id c L) as [-> ->]; (split; [reflexivity|]); intros p; apply veq_refl.
  - destruct PL; unfold below; apply std_some; assumption.
  - unfold below. cbn [lmat layer]. destruct (std_none id (mk_loc (mul (lmat c) pre) (layer c)) L) as [-> ->]. cbn [lmat layer].
    split; [reflexivity|]. intros p. eapply veq_trans; [apply at_mul|]. apply at_mul.
  - unfold below. cbn [lmat layer].
    destruct (std_some id cs f' (mk_loc (mul (lmat c) pre) (layer c)) ME) as [-> A].
    split; [reflexivity|]. intros p. eapply veq_trans; [apply at_mul|]. eapply veq_trans; [apply A|]. apply at_mul.
Qed.

Lemma lay_of_good lay k id tr ch path : good lay (El k id tr ch :: path) -> lay_ok lay id tr.
Proof. intros [_ L] l E I. exact (L l (El k id tr ch) E (or_introl eq_refl) I). Qed.

Lemma draw_ok e : forall c, (forall y, In y (shapes e) -> good (layer c) (snd y)) ->
  Forall2 (placed c) (draw c e) (keep (layer c) (shapes e)).
Proof.
  induction e as [k id tr ch IH] using elem_ind2. intros c G.
  assert (REC : (match k with Group | Svg _ _ => True | _ => False end) ->
    Forall2 (placed c) (flat_map (draw (below c k id tr)) ch)
      (keep (layer c) (map (fun x => (fst x, El k id tr ch :: snd x)) (flat_map shapes ch)))).
  { intros K.
    assert (G' : forall y, In y (flat_map shapes ch) -> good (layer c) (El k id tr ch :: snd y)).
    { intros y I. apply (G (fst y, El k id tr ch :: snd y)). destruct k; try contradiction; cbn; apply in_map_iff; exists y; auto. }
    rewrite keep_cons. cbn [id_of].
    destruct (flat_map shapes ch) as [|y0 ys] eqn:FS.
    - cbn. assert (E : flat_map (draw (below c k id tr)) ch = []).
      { clear G G' K. revert FS IH. induction ch as [|e ch IHc]; intros FS IH; [reflexivity|]. cbn in *.
        apply app_eq_nil in FS as [F1 F2]. inversion IH as [|? ? I1 I2]; subst.
        rewrite IHc by assumption. rewrite app_nil_r. specialize (I1 (below c k id tr)). rewrite F1 in I1.
        specialize (I1 ltac:(intros y [])). inversion I1. reflexivity. }
      rewrite E. constructor.
    - pose proof (G' y0 (or_introl eq_refl)) as G0. pose proof (lay_of_good _ _ _ _ _ _ G0) as L.
      destruct G0 as [(F0 & M0) _]. inversion M0 as [|e0 es0 f g ME MES]; subst.
      destruct (below_ok c k id tr ch f ME L) as [BL BM].
      rewrite <- FS in *. rewrite keep_flat. rewrite <- BL.
      assert (ST : Forall2 (placed (below c k id tr)) (flat_map (draw (below c k id tr)) ch)
                     (flat_map (fun e => keep (layer (below c k id tr)) (shapes e)) ch)).
      { apply Forall2_flat. rewrite Forall_forall in IH |- *. intros e I. apply IH; [assumption|].
        intros y IY. rewrite BL. apply (good_tail _ (El k id tr ch)). apply G'. apply in_flat_map. eauto. }
      revert ST. generalize (flat_map (draw (below c k id tr)) ch).
      generalize (flat_map (fun e => keep (layer (below c k id tr)) (shapes e)) ch). clear - BL BM L.
      intros l2 l1 ST. induction ST as [|x y l1 l2 [P1 P2] _ IHs]; cbn; constructor; [|exact IHs].
      split; [exact P1|]. cbn [snd]. intros F M p. inversion M as [|e0 es0 f1 g1 ME1 MES1]; subst.
      destruct (below_ok c k id tr ch f1 ME1 L) as [_ BM1].
      eapply veq_trans; [apply (P2 g1 MES1)|]. apply BM1. }
  destruct k as [|n| |pre post]; cbn [Svgdoc_model.draw shapes].
  - exact (REC I).
  - assert (GO : good (layer c) [El (Shape n) id tr ch]) by (apply (G (n, [El (Shape n) id tr ch])); left; reflexivity).
    pose proof (lay_of_good _ _ _ _ _ _ GO) as L. destruct GO as [(F & M) _].
    inversion M as [|e0 es0 f g ME MES]; subst. destruct (below_ok c (Shape n) id tr ch f ME L) as [BL _]. cbn [below] in BL.
    rewrite BL. cbn [filter snd]. unfold next_layer, in_layer. cbn [existsb id_of].
    assert (PL : placed c (n, lmat (std_attr id tr c)) (n, [El (Shape n) id tr ch])).
    { split; [reflexivity|]. cbn [snd]. intros F' M' p. inversion M' as [|e0 es0 f1 g1 ME1 MES1]; subst. inversion MES1; subst.
      destruct (below_ok c (Shape n) id tr ch f1 ME1 L) as [_ BM]. apply BM. }
    unfold is_layer. destruct (layer c) as [l|]; [|constructor; [exact PL|constructor]].
    destruct id as [i|]; [|constructor].
    destruct (list_eq_dec Z.eq_dec l i); cbn [orb]; [|constructor]. constructor; [exact PL|constructor].
  - constructor.
  - exact (REC I).
Qed.
End P.
