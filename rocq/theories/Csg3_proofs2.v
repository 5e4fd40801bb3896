(** The root modifier in the conversion of the SCAD tree *)
From Coq Require Import List Bool.
From Verif Require Import Csg3_model Csg3_spec Csg3_proofs.
Import ListNotations.

Section Root.
Variables (mat X op : Type) (unit : mat) (mul : mat -> mat -> mat) (build : op -> mat -> list (csg mat X) -> built mat X).
Notation scad := (scad mat X op).
Notation state := (state mat X).
Notation conv := (conv mat X op unit mul build).
Notation objs := (objs mat X).
Notation no := (no mat X).
Notation rx := (root_xform mat X).
Notation mk := (mk_state mat X).
Notation find_root := (find_root mat X op mul).

Definition keeps (s : scad) : Prop := forall dim m st st', conv s dim false m st = Ok _ _ st' -> rx st' = rx st.
Lemma children_rx : forall l dim m st st', (forall x, In x l -> keeps x) -> children mat X op conv l dim false m st = Ok _ _ st' -> rx st' = rx st.
Proof.
  induction l as [|x l IH]; intros dim m st st' H E; cbn [children] in E; [injection E as <-; reflexivity|].
  destruct (conv x dim false m st) as [s1| |] eqn:E1; try discriminate. cbn [bind] in E.
  rewrite (IH _ _ _ _ (fun y I => H y (or_intror I)) E). exact (H x (or_introl eq_refl) _ _ _ _ E1).
Qed.
Lemma difference_rx : forall l dim m st0 f st', (forall x, In x l -> keeps x) -> difference mat X op conv l st0 m dim f = Ok _ _ st' -> rx st' = rx f.
Proof.
  induction l as [|x l IH]; intros dim m st0 f st' H E; cbn [difference] in E; [injection E as <-; reflexivity|].
  destruct (no f).
  - assert (G : forall b g, children mat X op conv (x :: l) dim false m (mk true b (rx f)) = Ok _ _ g -> rx g = rx f) by (intros b g Q; exact (children_rx _ _ _ _ _ H Q)).
    assert (GEN : forall fs, bind mat X (children mat X op conv (x :: l) dim false m (mk true [] (rx f)))
      (fun g => match objs g with [] => Ok _ _ (mk (no g) (objs st0 ++ fs) (rx g)) | gs => Ok _ _ (mk (no g) (objs st0 ++ [Sub _ _ fs gs]) (rx g)) end) = Ok _ _ st' -> rx st' = rx f).
    { intros fs Q. destruct (children mat X op conv (x :: l) dim false m (mk true [] (rx f))) as [g| |] eqn:EG; try discriminate. cbn [bind] in Q.
      destruct (objs g); injection Q as <-; exact (G _ _ EG). }
    destruct (objs f) as [|o [|o2 fs]]; [injection E as <-; reflexivity| |destruct o; exact (GEN _ E)].
    destruct o as [y my|a b|cl|xl]; try exact (GEN _ E).
    destruct (children mat X op conv (x :: l) dim false m (mk true b (rx f))) as [g| |] eqn:EG; try discriminate. injection E as <-. exact (G _ _ EG).
  - destruct (conv x dim false m f) as [f1| |] eqn:E1; try discriminate. cbn [bind] in E.
    rewrite (IH _ _ _ _ _ (fun y I => H y (or_intror I)) E). exact (H x (or_introl eq_refl) _ _ _ _ E1).
Qed.
Lemma intersection_rx : forall l dim m cut r st st', (forall x, In x l -> keeps x) -> intersection mat X op conv l m dim cut r st = Ok _ _ st' -> rx st' = rx st.
Proof.
  induction l as [|x l IH]; intros dim m cut r st st' H E; cbn [intersection] in E.
  - destruct cut as [|c0 cut]; [injection E as <-; reflexivity|].
    destruct (cut_push_add mat X (c0 :: cut) (objs st)) as [|? [|? ?]]; try discriminate. injection E as <-. reflexivity.
  - destruct (conv x dim false m (mk (no st) [] (rx st))) as [s1| |] eqn:E1; try discriminate. cbn [bind] in E.
    rewrite (IH _ _ _ _ _ _ (fun y I => H y (or_intror I)) E). exact (H x (or_introl eq_refl) _ _ _ _ E1).
Qed.
Lemma conv_rx : forall s, keeps s.
Proof.
  apply scad_kids_ind. intros [ign root k] K dim m st st' E. cbn [Csg3_model.conv andb] in E. destruct ign; [injection E as <-; reflexivity|].
  assert (FIN : forall o m rc, match build o m (objs rc) with Push _ _ l => Ok _ _ (mk (no rc) (objs st ++ l) (rx rc)) | Fail _ _ => Error _ _ end = Ok _ _ st' -> rx st' = rx rc).
  { intros o m0 rc Q. destruct (build o m0 (objs rc)); [|discriminate]. injection Q as <-. reflexivity. }
  assert (MSG : forall out s0, msg mat X out s0 = Ok _ _ st' -> rx st' = rx s0) by (intros [|] s0 Q; [discriminate|injection Q as <-; reflexivity]).
  assert (CH : forall d mm f (l : list scad), (forall x, In x l -> keeps x) -> bind mat X (children mat X op conv l d false mm (mk (no st) [] (rx st))) f = Ok _ _ st' ->
    (forall rc, f rc = Ok _ _ st' -> rx st' = rx rc) -> rx st' = rx st).
  { intros d mm f l KL Q HF. destruct (children mat X op conv l d false mm (mk (no st) [] (rx st))) as [rc| |] eqn:EC; try discriminate. rewrite (HF rc Q).
    exact (children_rx _ _ _ _ _ KL EC). }
  destruct k as [l|l|l|x l|l|o out l|o out l|o out l|d out s|d out s]; cbn [kids] in K.
  - exact (children_rx _ _ _ _ _ K E).
  - exact (difference_rx _ _ _ _ _ _ K E).
  - exact (intersection_rx _ _ _ _ _ _ _ K E).
  - destruct x; [exact (children_rx _ _ _ _ _ K E)|exact (children_rx _ _ _ _ _ K E)|exact (MSG _ _ E)].
  - exact (children_rx _ _ _ _ _ K E).
  - destruct dim; cbn [negb] in E; [|exact (MSG _ _ E)]. exact (CH _ _ _ _ K E (fun rc => FIN o m rc)).
  - destruct dim; [exact (MSG _ _ E)|]. exact (CH _ _ _ _ K E (fun rc => FIN o unit rc)).
  - destruct dim; [exact (MSG _ _ E)|]. exact (CH _ _ _ _ K E (fun rc => FIN o unit rc)).
  - destruct (negb (Bool.eqb d dim)); [exact (MSG _ _ E)|]. destruct s; try discriminate; injection E as <-; reflexivity.
  - destruct (negb (Bool.eqb d dim)); [exact (MSG _ _ E)|]. destruct s; try discriminate; injection E as <-; reflexivity.
Qed.

Definition finds (l : list (scad * mat)) (st st' : state) : Prop :=
  match l with
  | [] => st' = st
  | (r, m) :: _ => conv r true false unit (mk (no st) (objs st) (Some m)) = Ok _ _ st'
  end.
Lemma finds_rx : forall l st st', finds l st st' -> rx st = None -> l <> [] -> exists m, rx st' = Some m.
Proof. intros [|[r m] l] st st' F N Q; [congruence|]. apply conv_rx in F. exists m. exact F. Qed.
Lemma found_none : forall st, rx st = None -> found mat X st = false.
Proof. intros st H. unfold found. rewrite H. reflexivity. Qed.
Lemma found_some : forall st m, rx st = Some m -> found mat X st = true.
Proof. intros st m H. unfold found. rewrite H. reflexivity. Qed.
Lemma conv_done : forall s dim m st m0, rx st = Some m0 -> conv s dim true m st = Ok _ _ st.
Proof. intros [ign root k] dim m st m0 H. cbn [Csg3_model.conv]. rewrite (found_some _ _ H). reflexivity. Qed.
Lemma children_done : forall l dim m st m0, rx st = Some m0 -> children mat X op conv l dim true m st = Ok _ _ st.
Proof. induction l as [|x l IH]; intros dim m st m0 H; [reflexivity|]. cbn [children]. rewrite (conv_done _ _ _ _ _ H). cbn [bind]. exact (IH _ _ _ _ H). Qed.

Definition search_ok (s : scad) : Prop := forall m st st', rx st = None -> conv s true true m st = Ok _ _ st' -> finds (find_root m s) st st'.
Lemma children_search : forall l m st st', (forall x, In x l -> search_ok x) -> rx st = None -> children mat X op conv l true true m st = Ok _ _ st' ->
  finds (flat_map (fun x => find_root m x) l) st st'.
Proof.
  induction l as [|x l IH]; intros m st st' H N E; cbn [children flat_map] in *; [injection E as <-; reflexivity|].
  destruct (conv x true true m st) as [s1| |] eqn:E1; try discriminate. cbn [bind] in E.
  pose proof (H x (or_introl eq_refl) _ _ _ N E1) as F. destruct (find_root m x) as [|[r m1] rs] eqn:ER.
  - cbn [finds] in F. subst s1. cbn [app]. exact (IH _ _ _ (fun y I => H y (or_intror I)) N E).
  - destruct (finds_rx _ _ _ F N ltac:(discriminate)) as (m2 & R). rewrite (children_done _ _ _ _ _ R) in E. injection E as <-. exact F.
Qed.
Lemma conv_search : forall s, search_ok s.
Proof.
  apply scad_kids_ind. intros [ign root k] K m st st' N E. cbn [Csg3_model.conv] in E. rewrite (found_none _ N) in E. cbn [andb] in E.
  cbn [Csg3_spec.find_root]. destruct root.
  { cbn [finds]. cbn [Csg3_model.conv andb]. exact E. }
  destruct ign; [injection E as <-; reflexivity|].
  destruct k as [l|l|l|x l|l|o out l|o out l|o out l|d out s|d out s]; cbn [kids] in K; try exact (children_search _ _ _ _ K N E); try (injection E as <-; reflexivity).
  destruct x as [|a|err]; [exact (children_search _ _ _ _ K N E)|exact (children_search _ _ _ _ K N E)|].
  destruct err; [discriminate|]. injection E as <-. reflexivity.
Qed.
Lemma search_top : forall l m st st', rx st = None -> children mat X op conv l true true m st = Ok _ _ st' -> finds (flat_map (fun x => find_root m x) l) st st'.
Proof. intros. apply children_search; auto. intros x _. apply conv_search. Qed.

(** No errors *)
Hypothesis BF : forall o m rc, build o m rc <> Fail _ _.
Definition no_err (s : scad) : Prop := forall dim m st, clean mat X op s dim -> conv s dim false m st <> Error _ _.
Lemma children_err : forall l dim m st, (forall x, In x l -> no_err x) -> every (fun x => clean mat X op x dim) l -> children mat X op conv l dim false m st <> Error _ _.
Proof.
  induction l as [|x l IH]; intros dim m st H C; cbn [children]; [discriminate|]. destruct C as (C1 & C2).
  pose proof (H x (or_introl eq_refl) dim m st C1) as E. destruct (conv x dim false m st) as [s1| |]; cbn [bind]; [|congruence|discriminate].
  apply IH; [intros; apply H; right; assumption|exact C2].
Qed.
Lemma difference_err : forall l dim m st0 f, (forall x, In x l -> no_err x) -> every (fun x => clean mat X op x dim) l -> difference mat X op conv l st0 m dim f <> Error _ _.
Proof.
  induction l as [|x l IH]; intros dim m st0 f H C; cbn [difference]; [discriminate|].
  destruct (no f).
  - pose proof (fun st => children_err (x :: l) dim m st H C) as G.
    assert (GEN : forall fs, bind mat X (children mat X op conv (x :: l) dim false m (mk true [] (rx f)))
      (fun g => match objs g with [] => Ok _ _ (mk (no g) (objs st0 ++ fs) (rx g)) | gs => Ok _ _ (mk (no g) (objs st0 ++ [Sub _ _ fs gs]) (rx g)) end) <> Error _ _).
    { intros fs. specialize (G (mk true [] (rx f))). destruct (children mat X op conv (x :: l) dim false m (mk true [] (rx f))) as [g| |]; cbn [bind]; [|congruence|discriminate].
      destruct (objs g); discriminate. }
    destruct (objs f) as [|o [|o2 fs]]; [discriminate| |destruct o; apply GEN].
    destruct o as [y my|a b|cl|xl]; try apply GEN.
    specialize (G (mk true b (rx f))). destruct (children mat X op conv (x :: l) dim false m (mk true b (rx f))) as [g| |]; cbn [bind]; [discriminate|congruence|discriminate].
  - destruct C as (C1 & C2). pose proof (H x (or_introl eq_refl) dim m f C1) as E. destruct (conv x dim false m f) as [f1| |]; cbn [bind]; [|congruence|discriminate].
    apply IH; [intros; apply H; right; assumption|exact C2].
Qed.
Lemma intersection_err : forall l dim m cut r st, (forall x, In x l -> no_err x) -> every (fun x => clean mat X op x dim) l -> intersection mat X op conv l m dim cut r st <> Error _ _.
Proof.
  induction l as [|x l IH]; intros dim m cut r st H C; cbn [intersection].
  - destruct cut as [|c0 cut]; [discriminate|]. destruct (cut_push_add mat X (c0 :: cut) (objs st)) as [|? [|? ?]]; discriminate.
  - destruct C as (C1 & C2). pose proof (H x (or_introl eq_refl) dim m (mk (no st) [] (rx st)) C1) as E. destruct (conv x dim false m (mk (no st) [] (rx st))) as [s1| |]; cbn [bind]; [|congruence|discriminate].
    apply IH; [intros; apply H; right; assumption|exact C2].
Qed.
Lemma conv_err : forall s, no_err s.
Proof.
  apply scad_kids_ind. intros [ign root k] K dim m st C. cbn [Csg3_model.conv andb]. cbn [clean] in C. destruct ign; [discriminate|].
  assert (FIN : forall d o mm (l : list scad), (forall x, In x l -> no_err x) -> every (fun x => clean mat X op x d) l ->
    bind mat X (children mat X op conv l d false unit (mk (no st) [] (rx st)))
      (fun rc => match build o mm (objs rc) with Push _ _ l => Ok _ _ (mk (no rc) (objs st ++ l) (rx rc)) | Fail _ _ => Error _ _ end) <> Error _ _).
  { intros d o mm l KL CL. pose proof (children_err l d unit (mk (no st) [] (rx st)) KL CL) as E.
    destruct (children mat X op conv l d false unit (mk (no st) [] (rx st))) as [rc| |]; cbn [bind]; [|congruence|discriminate].
    destruct (build o mm (objs rc)) eqn:EB; [discriminate|]. destruct (BF _ _ _ EB). }
  destruct k as [l|l|l|x l|l|o out l|o out l|o out l|d out s|d out s]; cbn [kids] in K.
  - exact (children_err l dim m st K C).
  - exact (difference_err l dim m st _ K C).
  - exact (intersection_err l dim m _ _ _ K C).
  - destruct x; [exact (children_err l dim m st K C)|exact (children_err l dim _ st K C)|subst err; discriminate].
  - exact (children_err l dim m st K C).
  - destruct dim; cbn [negb]; [exact (FIN _ _ _ _ K C)|subst out; discriminate].
  - destruct dim; [subst out; discriminate|exact (FIN _ _ _ _ K C)].
  - destruct dim; [subst out; discriminate|exact (FIN _ _ _ _ K C)].
  - destruct (Bool.eqb d dim); cbn [negb]; [destruct s; congruence|subst out; discriminate].
  - destruct (Bool.eqb d dim); cbn [negb]; [destruct s; congruence|subst out; discriminate].
Qed.
End Root.
