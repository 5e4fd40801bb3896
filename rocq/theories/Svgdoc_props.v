(** C62: where the shapes of an SVG file are drawn, and which of them. *)
From Coq Require Import ZArith QArith Qabs Qfield List Bool Lia Lqa String Ascii.
From Verif Require Import Svgdoc_model Svgdoc_spec Svgdoc_proofs.
Import ListNotations.
Local Open Scope Q_scope.

Definition wanted (lay : option name) : option name := match lay with Some [] => None | l => l end.

(** All shapes of the wanted layer are drawn, in the order of the document, and no others.  A point of a shape is mapped by the
    transformations of all the elements it is in, the innermost first, then reflected at the x axis, then mapped by the outer matrix.
    The commands of [transform] must be valid around each shape, and the element of the layer must have a [transform]. *)
Theorem C62_shapes_partial : forall (tand sind cosd : Q -> Q) (m : mat) (lay : option name) (es : list elem),
  (forall n path, In (n, path) (flat_map shapes es) ->
     (exists F, mapss tand sind cosd path F) /\
     forall l e, wanted lay = Some l -> In e path -> id_of e = Some l -> has_transform e) ->
  Forall2 (fun x y => fst x = fst y /\
             forall F, mapss tand sind cosd (snd y) F ->
             forall p, veq (at_pt (snd x) p) (at_pt m (fst (F p), - snd (F p))))
    (svg_parse tand sind cosd m lay es)
    (filter (fun y => in_layer (wanted lay) (snd y)) (flat_map shapes es)).
Proof.
  intros tand sind cosd m lay es G. unfold svg_parse. fold (wanted lay).
  set (c := mk_loc (mul m (scale 1 (- (1)))) (wanted lay)).
  assert (H : Forall2 (placed tand sind cosd c) (flat_map (draw tand sind cosd c) es)
                (filter (fun y => in_layer (wanted lay) (snd y)) (flat_map shapes es))).
  { rewrite keep_flat. apply Forall2_flat. rewrite Forall_forall. intros e I.
    apply (draw_ok tand sind cosd e c). intros [n path] IY. apply (G n path). apply in_flat_map. eauto. }
  induction H as [|x y l1 l2 [P1 P2] _ IH]; constructor; [|exact IH].
  split; [exact P1|]. intros F M p. eapply veq_trans; [apply (P2 F M)|]. cbn [lmat c].
  eapply veq_trans; [apply at_mul|]. apply at_veq. split; cbn; ring.
Qed.

Definition s (t : string) : name := map (fun c => Z.of_nat (nat_of_ascii c)) (list_ascii_of_string t).
Definition id0 : mat := xlat 0 0.
Definition q0 (x : Q) : Q := 0.

(** A document with a layer in a group. *)
Definition ex_doc : list elem :=
  [El (Svg id0 (scale 2 2)) None None
     [El Group (Some (s "L")) (Some [(translate_, [1; 2]); (scale_, [3])])
        [El (Shape 0) None (Some [(matrix_, [1; 0; 1; 1; 0; 0])]) [];
         El Skipped None None [El (Shape 1) None None []];
         El (Shape 2) (Some (s "x")) None []];
      El (Shape 3) None None []]]%Q.

Example C62_example :
  (forall n path, In (n, path) (flat_map shapes ex_doc) ->
     (exists F, mapss q0 q0 q0 path F) /\
     forall l e, wanted (Some (s "L")) = Some l -> In e path -> id_of e = Some l -> has_transform e) /\
  map fst (filter (fun y => in_layer (wanted (Some (s "L"))) (snd y)) (flat_map shapes ex_doc)) = [0; 2]%nat /\
  map (fun x => (fst x, (Qred (fst (at_pt (snd x) (1, 1))), Qred (snd (at_pt (snd x) (1, 1))))))
    (svg_parse q0 q0 q0 id0 (Some (s "L")) ex_doc) = [(0%nat, (14, - (10))); (2%nat, (8, - (10)))]%Q.
Proof.
  split; [|split; vm_compute; reflexivity].
  assert (MS : forall e es f, maps q0 q0 q0 e f -> (exists g, mapss q0 q0 q0 es g) -> exists F, mapss q0 q0 q0 (e :: es) F).
  { intros e es f M (g & N). eexists. econstructor; eassumption. }
  intros n path I. cbn in I. destruct I as [I|[I|[I|[]]]]; injection I as <- <-; split.
  - eapply MS; [apply mp_svg_none|]. eapply MS; [apply mp_some; [constructor|]; repeat econstructor|].
    eapply MS; [apply mp_some; [constructor|]; repeat econstructor|]. eexists. constructor.
  - intros l e E I. injection E as <-. destruct I as [<-|[<-|[<-|[]]]]; cbn; try discriminate; congruence.
  - eapply MS; [apply mp_svg_none|]. eapply MS; [apply mp_some; [constructor|]; repeat econstructor|].
    eapply MS; [apply mp_none; constructor|]. eexists. constructor.
  - intros l e E I. injection E as <-. destruct I as [<-|[<-|[<-|[]]]]; cbn; try discriminate; congruence.
  - eapply MS; [apply mp_svg_none|]. eapply MS; [apply mp_none; constructor|]. eexists. constructor.
  - intros l e E I. injection E as <-. destruct I as [<-|[<-|[]]]; cbn; try discriminate; congruence.
Qed.

(** A layer without [transform] is not found: nothing is drawn. *)
Theorem C62_layer_refuted :
  ~ (forall (tand sind cosd : Q -> Q) (m : mat) (lay : option name) (es : list elem),
       (forall n path, In (n, path) (flat_map shapes es) -> exists F, mapss tand sind cosd path F) ->
       map fst (svg_parse tand sind cosd m lay es) =
       map fst (filter (fun y => in_layer (wanted lay) (snd y)) (flat_map shapes es))).
Proof.
  intros H. specialize (H q0 q0 q0 id0 (Some (s "L")) [El Group (Some (s "L")) None [El (Shape 7) None None []]]).
  assert (V : map fst (svg_parse q0 q0 q0 id0 (Some (s "L")) [El Group (Some (s "L")) None [El (Shape 7) None None []]]) = []) by reflexivity.
  rewrite V in H. vm_compute in H. assert (E : @nil nat = [7%nat]); [|discriminate E]. apply H.
  intros n path [I|[]]. injection I as <- <-. eexists. econstructor; [apply mp_none; constructor|].
  econstructor; [apply mp_none; constructor|]. constructor.
Qed.

(** Other commands are understood, too: any prefix of a name, and missing numbers. *)
Theorem C62_commands_refuted :
  ~ (forall (tand sind cosd : Q -> Q) n v, xform_cmd tand sind cosd (n, v) <> None -> exists f, means tand sind cosd n v f).
Proof.
  intros H. destruct (H q0 q0 q0 (s "s") [2]) as (f & M); [discriminate|].
  remember (s "s") as n eqn:E. destruct M; vm_compute in E; discriminate E.
Qed.
Theorem C62_numbers_refuted :
  ~ (forall (tand sind cosd : Q -> Q) v, xform_cmd tand sind cosd (matrix_, v) <> None -> exists f, means tand sind cosd matrix_ v f).
Proof.
  intros H. destruct (H q0 q0 q0 [2]) as (f & M); [discriminate|].
  remember matrix_ as n eqn:E. remember [2] as v eqn:V. destruct M; try (vm_compute in E; discriminate E). discriminate V.
Qed.

(** A view box of the same proportions as the view is mapped as the standard says, for each value of [preserveAspectRatio]. *)
Theorem C62_view_partial : forall (eps vx vy vw vh ex ey ew eh : Q) (pas : name) (a : par) (p : vec),
  0 < eps -> eps <= vw -> eps <= vh -> ew / vw == eh / vh ->
  veq (at_pt (fst (svg_xform eps vx vy vw vh ex ey ew eh pas)) p) (view_map a vx vy vw vh ex ey ew eh p).
Proof.
  intros eps vx vy vw vh ex ey ew eh pas a p E VW VH R.
  assert (D : forall x v, eps <= v -> div0 eps x v = x / v).
  { intros x v L. unfold div0. assert (B : Qle_bool eps (Qabs v) = true).
    { apply Qle_bool_iff. eapply Qle_trans; [exact L|]. apply Qle_Qabs. }
    rewrite B. reflexivity. }
  unfold svg_xform. rewrite !D by assumption.
  set (sx := ew / vw) in *. set (sy := eh / vh) in *.
  assert (WX : ew - vw * sx == 0) by (unfold sx; field; lra).
  assert (WY : eh - vh * sy == 0) by (unfold sy; field; lra).
  assert (WX' : ew - vw * sy == 0) by (rewrite <- R; exact WX).
  assert (WY' : eh - vh * sx == 0) by (rewrite R; exact WY).
  clearbody sx sy.
  set (ax := match_align pas xMin xMid xMax). set (ay := match_align pas YMin YMid YMax). clearbody ax ay.
  assert (A : veq (ex + (fst p - vx) * sx, ey + (snd p - vy) * sx) (view_map a vx vy vw vh ex ey ew eh p)).
  { assert (RX : ew / vw == sx).
    { assert (N : ~ vw == 0) by lra. assert (Y : ew == vw * sx) by lra. rewrite Y. field. exact N. }
    assert (RY : eh / vh == sx).
    { assert (N : ~ vh == 0) by lra. assert (Y : eh == vh * sx) by lra. rewrite Y. field. exact N. }
    destruct a as [|bx by_ sl]; cbn [view_map fst snd]; split; cbn [fst snd].
    - rewrite RX. reflexivity.
    - rewrite RY. reflexivity.
    - destruct (xorb _ _); [rewrite RX|rewrite RY]; rewrite WX; ring.
    - destruct (xorb _ _); [rewrite RX|rewrite RY]; rewrite WY'; ring. }
  eapply veq_trans; [|exact A]. clear A.
  destruct (qlt ax 0 && qlt ay 0); [destruct (xorb (qlt sx sy) (contains pas slice_))|]; split; cbn; rewrite ?WX, ?WY, ?WX', ?WY', <- ?R; ring.
Qed.

(** What happens in general: if an alignment is named, the view box is stretched; otherwise it is scaled uniformly and aligned
    by the factor -1, i.e., moved by the gap to the left and up. *)
Definition named (w pas : name) : Prop := exists a b, pas = a ++ w ++ b.
Definition aligned (pas : name) : Prop :=
  exists w, In w [s "xMin"; s "xMid"; s "xMax"; s "YMin"; s "YMid"; s "YMax"] /\ named w pas.

Lemma prefix_iff a b : prefix a b = true <-> exists c, b = a ++ c.
Proof.
  revert b. induction a as [|x a IH]; intros b; cbn.
  - split; [eauto|reflexivity].
  - destruct b as [|y b]; [split; [discriminate|intros (c & E); discriminate E]|].
    rewrite andb_true_iff, Z.eqb_eq, IH. split.
    + intros [-> (c & ->)]. eauto.
    + intros (c & E). injection E as -> ->. eauto.
Qed.
Lemma contains_iff h w : contains h w = true <-> named w h.
Proof.
  unfold named. induction h as [|c h IH]; cbn [contains]; rewrite orb_true_iff, prefix_iff.
  - split.
    + intros [(x & E)|E]; [|discriminate E]. exists [], x. exact E.
    + intros (a & b & E). left. symmetry in E. apply app_eq_nil in E as [-> E]. exists b. now rewrite E.
  - rewrite IH. split.
    + intros [(x & E)|(a & b & ->)]; [exists [], x; exact E|]. exists (c :: a), b. reflexivity.
    + intros (a & b & E). destruct a as [|y a]; [left; exists b; exact E|]. injection E as -> ->. right. eauto.
Qed.

Lemma align_neg pas mn md mx : qlt (match_align pas mn md mx) 0 = negb (contains pas mn || contains pas md || contains pas mx).
Proof.
  unfold match_align. destruct (contains pas mn); [reflexivity|]. destruct (contains pas md); [reflexivity|].
  destruct (contains pas mx); reflexivity.
Qed.
Lemma align_none pas mn md mx : contains pas mn || contains pas md || contains pas mx = false -> match_align pas mn md mx = - (1).
Proof.
  unfold match_align. destruct (contains pas mn); [discriminate|]. destruct (contains pas md); [discriminate|].
  destruct (contains pas mx); [discriminate|]. reflexivity.
Qed.

Theorem C62_view_general : forall (eps vx vy vw vh ex ey ew eh : Q) (pas : name) (p : vec),
  0 < eps -> eps <= vw -> eps <= vh ->
  let m := fst (svg_xform eps vx vy vw vh ex ey ew eh pas) in
  (aligned pas -> veq (at_pt m p) (view_map PNone vx vy vw vh ex ey ew eh p)) /\
  (~ aligned pas -> named (s "slice") pas -> veq (at_pt m p) (view_map (PAlign (- (1)) (- (1)) true) vx vy vw vh ex ey ew eh p)) /\
  (~ aligned pas -> ~ named (s "slice") pas -> veq (at_pt m p) (view_map (PAlign (- (1)) (- (1)) false) vx vy vw vh ex ey ew eh p)).
Proof.
  intros eps vx vy vw vh ex ey ew eh pas p E VW VH.
  assert (D : forall x v, eps <= v -> div0 eps x v = x / v).
  { intros x v L. unfold div0. assert (B : Qle_bool eps (Qabs v) = true).
    { apply Qle_bool_iff. eapply Qle_trans; [exact L|]. apply Qle_Qabs. }
    rewrite B. reflexivity. }
  assert (AL : aligned pas <-> contains pas xMin || contains pas xMid || contains pas xMax ||
                              (contains pas YMin || contains pas YMid || contains pas YMax) = true).
  { rewrite !orb_true_iff, !contains_iff. unfold aligned. split.
    - intros (w & I & N). cbn [In] in I.
      destruct I as [<-|[<-|[<-|[<-|[<-|[<-|[]]]]]]]; change (s "xMin") with xMin in *; change (s "xMid") with xMid in *;
        change (s "xMax") with xMax in *; change (s "YMin") with YMin in *; change (s "YMid") with YMid in *;
        change (s "YMax") with YMax in *; tauto.
    - intros [[[N|N]|N]|[[N|N]|N]]; eexists; (split; [|exact N]); cbn; tauto. }
  assert (LE : forall a b : Q, Qle_bool a b = false -> Qle_bool b a = true).
  { intros a b H. destruct (Qle_bool b a) eqn:H'; [reflexivity|].
    assert (~ a <= b) by (intros L; apply Qle_bool_iff in L; congruence).
    assert (~ b <= a) by (intros L; apply Qle_bool_iff in L; congruence). lra. }
  cbv zeta. unfold svg_xform. rewrite !D by assumption. rewrite !align_neg.
  split; [|split].
  - intros A. apply AL in A.
    assert (B : negb (contains pas xMin || contains pas xMid || contains pas xMax) && negb (contains pas YMin || contains pas YMid || contains pas YMax) = false).
    { rewrite <- negb_orb. rewrite A. reflexivity. }
    rewrite B. split; cbn; ring.
  - intros A SL. change (s "slice") with slice_ in SL. apply contains_iff in SL. rewrite SL.
    assert (A' : contains pas xMin || contains pas xMid || contains pas xMax || (contains pas YMin || contains pas YMid || contains pas YMax) = false)
      by (apply not_true_is_false; intros X; apply A, AL, X).
    apply orb_false_iff in A' as [AX AY]. rewrite AX, AY, !align_none by assumption. cbn [negb andb view_map].
    rewrite !xorb_true_r. unfold qlt. rewrite negb_involutive.
    destruct (Qle_bool (eh / vh) (ew / vw)) eqn:L; destruct (Qle_bool (ew / vw) (eh / vh)) eqn:L'; cbn [negb].
    + apply Qle_bool_iff in L, L'. assert (R : ew / vw == eh / vh) by lra. split; cbn [at_pt fst snd m00 m01 w0 m10 m11 w1]; rewrite R; ring.
    + split; cbn [at_pt fst snd m00 m01 w0 m10 m11 w1]; ring.
    + split; cbn [at_pt fst snd m00 m01 w0 m10 m11 w1]; ring.
    + apply LE in L. congruence.
  - intros A SL. change (s "slice") with slice_ in SL.
    assert (SF : contains pas slice_ = false) by (apply not_true_is_false; intros X; apply SL, contains_iff, X). rewrite SF.
    assert (A' : contains pas xMin || contains pas xMid || contains pas xMax || (contains pas YMin || contains pas YMid || contains pas YMax) = false)
      by (apply not_true_is_false; intros X; apply A, AL, X).
    apply orb_false_iff in A' as [AX AY]. rewrite AX, AY, !align_none by assumption. cbn [negb andb view_map].
    rewrite !xorb_false_r. unfold qlt.
    destruct (Qle_bool (eh / vh) (ew / vw)) eqn:L; destruct (Qle_bool (ew / vw) (eh / vh)) eqn:L'; cbn [negb].
    + apply Qle_bool_iff in L, L'. assert (R : ew / vw == eh / vh) by lra. split; cbn [at_pt fst snd m00 m01 w0 m10 m11 w1]; rewrite R; ring.
    + split; cbn [at_pt fst snd m00 m01 w0 m10 m11 w1]; ring.
    + split; cbn [at_pt fst snd m00 m01 w0 m10 m11 w1]; ring.
    + apply LE in L. congruence.
Qed.

Example C62_view_general_example :
  aligned (s "xMidYMid meet") /\ ~ aligned (s "none") /\
  veq (at_pt (fst (svg_xform (1 # 1000000) 0 0 10 10 0 0 20 10 (s "none"))) (0, 0)) (- (10), 0).
Proof.
  split; [|split; [|split; vm_compute; reflexivity]].
  - exists (s "xMid"). split; [cbn; tauto|]. exists [], (s "YMid meet"). reflexivity.
  - intros (w & I & N). apply contains_iff in N. cbn [In] in I.
    destruct I as [<-|[<-|[<-|[<-|[<-|[<-|[]]]]]]]; vm_compute in N; discriminate N.
Qed.

Example C62_view_example :
  (5 / 10 == 10 / 20)%Q /\ veq (at_pt (fst (svg_xform (1 # 1000000) 1 2 10 20 0 0 5 10 (s "xMidYMid meet"))) (11, 22)) (5, 10).
Proof. split; [reflexivity|]. split; vm_compute; reflexivity. Qed.

(** In general it is not: without [preserveAspectRatio], the view box should be centred, ... *)
Theorem C62_view_default_refuted :
  ~ (forall (eps vx vy vw vh ex ey ew eh : Q) (p : vec),
       0 < eps -> eps <= vw -> eps <= vh ->
       veq (at_pt (fst (svg_xform eps vx vy vw vh ex ey ew eh [])) p) (view_map (PAlign (1 # 2) (1 # 2) false) vx vy vw vh ex ey ew eh p)).
Proof.
  intros H. destruct (H (1 # 10) 0 0 10 10 0 0 20 10 (0, 0)) as [A _]; [reflexivity|discriminate|discriminate|]. vm_compute in A. discriminate A.
Qed.
(** ... with none it should be stretched, ... *)
Theorem C62_view_none_refuted :
  ~ (forall (eps vx vy vw vh ex ey ew eh : Q) (p : vec),
       0 < eps -> eps <= vw -> eps <= vh ->
       veq (at_pt (fst (svg_xform eps vx vy vw vh ex ey ew eh (s "none"))) p) (view_map PNone vx vy vw vh ex ey ew eh p)).
Proof.
  intros H. destruct (H (1 # 10) 0 0 10 10 0 0 20 10 (10, 10)) as [A _]; [reflexivity|discriminate|discriminate|]. vm_compute in A. discriminate A.
Qed.
(** ... and with xMinYMin it should not be stretched. *)
Theorem C62_view_align_refuted :
  ~ (forall (eps vx vy vw vh ex ey ew eh : Q) (p : vec),
       0 < eps -> eps <= vw -> eps <= vh ->
       veq (at_pt (fst (svg_xform eps vx vy vw vh ex ey ew eh (s "xMinYMin meet"))) p) (view_map (PAlign 0 0 false) vx vy vw vh ex ey ew eh p)).
Proof.
  intros H. destruct (H (1 # 10) 0 0 10 10 0 0 20 10 (10, 10)) as [A _]; [reflexivity|discriminate|discriminate|]. vm_compute in A. discriminate A.
Qed.
(** The inverse that is stored along is not the inverse. *)
Theorem C62_view_inverse_refuted :
  ~ (forall (eps vx vy vw vh ex ey ew eh : Q) (pas : name) (p : vec),
       0 < eps -> eps <= vw -> eps <= vh ->
       let m := svg_xform eps vx vy vw vh ex ey ew eh pas in veq (at_pt (snd m) (at_pt (fst m) p)) p).
Proof.
  intros H. destruct (H (1 # 10) 1 1 10 10 0 0 10 10 [] (0, 0)) as [A _]; [reflexivity|discriminate|discriminate|]. vm_compute in A. discriminate A.
Qed.

Print Assumptions C62_shapes_partial.
Print Assumptions C62_layer_refuted.
Print Assumptions C62_commands_refuted.
Print Assumptions C62_numbers_refuted.
Print Assumptions C62_view_partial.
Print Assumptions C62_view_general.
Print Assumptions C62_view_default_refuted.
Print Assumptions C62_view_none_refuted.
Print Assumptions C62_view_align_refuted.
Print Assumptions C62_view_inverse_refuted.
