(** Proofs for C23: closed meshes. *)
From Coq Require Import ZArith Bool List Lia Permutation Arith.
From Verif Require Import Stl_model Stl_spec.
Import ListNotations.

Lemma sbind_ok {A B} (x : sres A) (f : A -> sres B) b : sbind x f = SOk b -> exists a, x = SOk a /\ f a = SOk b.
Proof. destruct x; cbn; try discriminate. eauto. Qed.

(** *** writing is done triangle by triangle: independent of the state *)
Section Hom.
Variable normal : point3 -> point3 -> point3 -> option point3.
Variable zs : list (Z * Z * bool).
Variables zero one mone : Z.
Context {C : Type}.
Variable put : C -> tri3 -> C.

Definition hom (c : C) (r : sres C) (s : sres (list tri3)) : Prop :=
  r = let% ts := s in SOk (fold_left put ts c).

Lemma each_collect_app {A} (g : list tri3 -> A -> sres (list tri3)) :
  (forall ts x, g ts x = let% us := g [] x in SOk (ts ++ us)) ->
  forall l ts, each g ts l = let% us := each g [] l in SOk (ts ++ us).
Proof.
  intros H. induction l as [|x l IH]; intros ts; cbn [each sbind].
  - rewrite app_nil_r. reflexivity.
  - rewrite H. destruct (g [] x) as [us| | |]; cbn [sbind]; try reflexivity.
    rewrite IH, (IH us). destruct (each g [] l); cbn [sbind]; try reflexivity. rewrite app_assoc. reflexivity.
Qed.

Lemma each_hom {A} (f : C -> A -> sres C) (g : list tri3 -> A -> sres (list tri3)) :
  (forall c x, hom c (f c x) (g [] x)) ->
  (forall ts x, g ts x = let% us := g [] x in SOk (ts ++ us)) ->
  forall l c, hom c (each f c l) (each g [] l).
Proof.
  intros H G. induction l as [|x l IH]; intros c; unfold hom in *; cbn [each sbind fold_left].
  - reflexivity.
  - rewrite H. destruct (g [] x) as [us| | |]; cbn [sbind]; try reflexivity.
    rewrite IH, (each_collect_app g G l us). destruct (each g [] l); cbn [sbind]; try reflexivity. rewrite fold_left_app. reflexivity.
Qed.

Notation put_edge := (put_edge normal).
Lemma put_edge_hom point z0 z1 i j c :
  hom c (put_edge put c point z0 z1 i j) (put_edge collect [] point z0 z1 i j).
Proof.
  unfold hom, Stl_model.put_edge. destruct (nth_error point i), (nth_error point j); try reflexivity.
  destruct (normal _ _ _); reflexivity.
Qed.
Lemma put_edge_app point z0 z1 i j ts :
  put_edge collect ts point z0 z1 i j = let% us := put_edge collect [] point z0 z1 i j in SOk (ts ++ us).
Proof.
  unfold Stl_model.put_edge. destruct (nth_error point i), (nth_error point j); try reflexivity.
  destruct (normal _ _ _); try reflexivity. cbn [sbind]. unfold collect. rewrite <- app_assoc. reflexivity.
Qed.

Lemma put_top_hom point z c t : hom c (put_top zero one put point z c t) (put_top zero one collect point z [] t).
Proof.
  unfold hom, put_top. destruct (nth_error point (p1 t)), (nth_error point (p0 t)), (nth_error point (p2 t)); reflexivity.
Qed.
Lemma put_top_app point z ts t : put_top zero one collect point z ts t = let% us := put_top zero one collect point z [] t in SOk (ts ++ us).
Proof.
  unfold put_top. destruct (nth_error point (p1 t)), (nth_error point (p0 t)), (nth_error point (p2 t)); reflexivity.
Qed.
Lemma put_bottom_hom point z c t : hom c (put_bottom zero mone put point z c t) (put_bottom zero mone collect point z [] t).
Proof.
  unfold hom, put_bottom. destruct (nth_error point (p0 t)), (nth_error point (p1 t)), (nth_error point (p2 t)); reflexivity.
Qed.
Lemma put_bottom_app point z ts t : put_bottom zero mone collect point z ts t = let% us := put_bottom zero mone collect point z [] t in SOk (ts ++ us).
Proof.
  unfold put_bottom. destruct (nth_error point (p0 t)), (nth_error point (p1 t)), (nth_error point (p2 t)); reflexivity.
Qed.

Lemma seq_hom (f g : C -> sres C) (f' g' : list tri3 -> sres (list tri3)) :
  (forall c, hom c (f c) (f' [])) -> (forall c, hom c (g c) (g' [])) ->
  (forall ts, g' ts = let% us := g' [] in SOk (ts ++ us)) ->
  forall c, hom c (let% c := f c in g c) (let% ts := f' [] in g' ts).
Proof.
  intros F G A c. unfold hom in *. rewrite F. destruct (f' []) as [ts| | |]; cbn [sbind]; try reflexivity.
  rewrite G, (A ts). destruct (g' []); cbn [sbind]; try reflexivity. rewrite fold_left_app. reflexivity.
Qed.
Lemma seq_app (f' g' : list tri3 -> sres (list tri3)) :
  (forall ts, f' ts = let% us := f' [] in SOk (ts ++ us)) ->
  (forall ts, g' ts = let% us := g' [] in SOk (ts ++ us)) ->
  forall ts, (let% c := f' ts in g' c) = let% us := (let% c := f' [] in g' c) in SOk (ts ++ us).
Proof.
  intros F G ts. rewrite F. destruct (f' []) as [us| | |]; cbn [sbind]; try reflexivity.
  rewrite G, (G us). destruct (g' []); cbn [sbind]; try reflexivity. rewrite app_assoc. reflexivity.
Qed.
Lemma if_hom (b : bool) (f : C -> sres C) (f' : list tri3 -> sres (list tri3)) :
  (forall c, hom c (f c) (f' [])) -> forall c, hom c (if b then f c else SOk c) (if b then f' [] else SOk []).
Proof. intros F c. destruct b; [apply F|reflexivity]. Qed.
Lemma if_app (b : bool) (f' : list tri3 -> sres (list tri3)) :
  (forall ts, f' ts = let% us := f' [] in SOk (ts ++ us)) ->
  forall ts, (if b then f' ts else SOk ts) = let% us := (if b then f' [] else SOk []) in SOk (ts ++ us).
Proof. intros F ts. destruct b; [apply F|]. cbn. rewrite app_nil_r. reflexivity. Qed.

Lemma put_sides_hom point z0 z1 c t :
  hom c (put_sides normal put point z0 z1 c t) (put_sides normal collect point z0 z1 [] t).
Proof.
  unfold put_sides.
  apply (seq_hom (fun c => if o01 t then put_edge put c point z0 z1 (p0 t) (p1 t) else SOk c)
    (fun c => let% c := (if o12 t then put_edge put c point z0 z1 (p1 t) (p2 t) else SOk c) in
      if o20 t then put_edge put c point z0 z1 (p2 t) (p0 t) else SOk c)
    (fun c => if o01 t then put_edge collect c point z0 z1 (p0 t) (p1 t) else SOk c)
    (fun c => let% c := (if o12 t then put_edge collect c point z0 z1 (p1 t) (p2 t) else SOk c) in
      if o20 t then put_edge collect c point z0 z1 (p2 t) (p0 t) else SOk c)).
  - intros c'. apply (if_hom _ (fun c => put_edge put c point z0 z1 (p0 t) (p1 t)) (fun c => put_edge collect c point z0 z1 (p0 t) (p1 t))).
    intros. apply put_edge_hom.
  - apply (seq_hom (fun c => if o12 t then put_edge put c point z0 z1 (p1 t) (p2 t) else SOk c)
      (fun c => if o20 t then put_edge put c point z0 z1 (p2 t) (p0 t) else SOk c)
      (fun c => if o12 t then put_edge collect c point z0 z1 (p1 t) (p2 t) else SOk c)
      (fun c => if o20 t then put_edge collect c point z0 z1 (p2 t) (p0 t) else SOk c)).
    + intros c'. apply (if_hom _ (fun c => put_edge put c point z0 z1 (p1 t) (p2 t)) (fun c => put_edge collect c point z0 z1 (p1 t) (p2 t))).
      intros. apply put_edge_hom.
    + intros c'. apply (if_hom _ (fun c => put_edge put c point z0 z1 (p2 t) (p0 t)) (fun c => put_edge collect c point z0 z1 (p2 t) (p0 t))).
      intros. apply put_edge_hom.
    + apply (if_app _ (fun c => put_edge collect c point z0 z1 (p2 t) (p0 t))). intros. apply put_edge_app.
  - apply seq_app with (f' := fun c => if o12 t then put_edge collect c point z0 z1 (p1 t) (p2 t) else SOk c)
     (g' := fun c => if o20 t then put_edge collect c point z0 z1 (p2 t) (p0 t) else SOk c).
    + apply (if_app _ (fun c => put_edge collect c point z0 z1 (p1 t) (p2 t))). intros. apply put_edge_app.
    + apply (if_app _ (fun c => put_edge collect c point z0 z1 (p2 t) (p0 t))). intros. apply put_edge_app.
Qed.
Lemma put_sides_app point z0 z1 ts t :
  put_sides normal collect point z0 z1 ts t = let% us := put_sides normal collect point z0 z1 [] t in SOk (ts ++ us).
Proof.
  unfold put_sides. revert ts.
  apply seq_app with (f' := fun c => if o01 t then put_edge collect c point z0 z1 (p0 t) (p1 t) else SOk c)
    (g' := fun c => let% c := (if o12 t then put_edge collect c point z0 z1 (p1 t) (p2 t) else SOk c) in
      if o20 t then put_edge collect c point z0 z1 (p2 t) (p0 t) else SOk c).
  - apply (if_app _ (fun c => put_edge collect c point z0 z1 (p0 t) (p1 t))). intros. apply put_edge_app.
  - apply seq_app with (f' := fun c => if o12 t then put_edge collect c point z0 z1 (p1 t) (p2 t) else SOk c)
     (g' := fun c => if o20 t then put_edge collect c point z0 z1 (p2 t) (p0 t) else SOk c).
    + apply (if_app _ (fun c => put_edge collect c point z0 z1 (p1 t) (p2 t))). intros. apply put_edge_app.
    + apply (if_app _ (fun c => put_edge collect c point z0 z1 (p2 t) (p0 t))). intros. apply put_edge_app.
Qed.

Notation top p z := (fun c => each (put_top zero one collect p z) c).
Lemma put_poly_hom c zi point tris :
  hom c (put_poly normal zs zero one mone put c zi point tris) (put_poly normal zs zero one mone collect [] zi point tris).
Proof.
  unfold put_poly. destruct (nth_error zs zi) as [[[z0 z1] flat]|]; [|reflexivity].
  apply (seq_hom (fun c => if negb flat then each (put_top zero one put point z1) c tris else SOk c)
    (fun c => let% c := each (put_bottom zero mone put point z0) c tris in
       if negb flat then each (put_sides normal put point z0 z1) c tris else SOk c)
    (fun c => if negb flat then each (put_top zero one collect point z1) c tris else SOk c)
    (fun c => let% c := each (put_bottom zero mone collect point z0) c tris in
       if negb flat then each (put_sides normal collect point z0 z1) c tris else SOk c)).
  - apply (if_hom _ (fun c => each (put_top zero one put point z1) c tris) (fun c => each (put_top zero one collect point z1) c tris)).
    intros c'. apply each_hom; intros; [apply put_top_hom|apply put_top_app].
  - apply (seq_hom (fun c => each (put_bottom zero mone put point z0) c tris)
      (fun c => if negb flat then each (put_sides normal put point z0 z1) c tris else SOk c)
      (fun c => each (put_bottom zero mone collect point z0) c tris)
      (fun c => if negb flat then each (put_sides normal collect point z0 z1) c tris else SOk c)).
    + intros c'. apply each_hom; intros; [apply put_bottom_hom|apply put_bottom_app].
    + apply (if_hom _ (fun c => each (put_sides normal put point z0 z1) c tris) (fun c => each (put_sides normal collect point z0 z1) c tris)).
      intros c'. apply each_hom; intros; [apply put_sides_hom|apply put_sides_app].
    + apply (if_app _ (fun c => each (put_sides normal collect point z0 z1) c tris)). intros. apply each_collect_app, put_sides_app.
  - apply seq_app with (f' := fun c => each (put_bottom zero mone collect point z0) c tris)
      (g' := fun c => if negb flat then each (put_sides normal collect point z0 z1) c tris else SOk c).
    + intros. apply each_collect_app, put_bottom_app.
    + apply (if_app _ (fun c => each (put_sides normal collect point z0 z1) c tris)). intros. apply each_collect_app, put_sides_app.
Qed.
Lemma put_poly_app ts zi point tris :
  put_poly normal zs zero one mone collect ts zi point tris =
  let% us := put_poly normal zs zero one mone collect [] zi point tris in SOk (ts ++ us).
Proof.
  unfold put_poly. destruct (nth_error zs zi) as [[[z0 z1] flat]|]; [|reflexivity]. revert ts.
  apply seq_app with (f' := fun c => if negb flat then each (put_top zero one collect point z1) c tris else SOk c)
    (g' := fun c => let% c := each (put_bottom zero mone collect point z0) c tris in
       if negb flat then each (put_sides normal collect point z0 z1) c tris else SOk c).
  - apply (if_app _ (fun c => each (put_top zero one collect point z1) c tris)). intros. apply each_collect_app, put_top_app.
  - apply seq_app with (f' := fun c => each (put_bottom zero mone collect point z0) c tris)
      (g' := fun c => if negb flat then each (put_sides normal collect point z0 z1) c tris else SOk c).
    + intros. apply each_collect_app, put_bottom_app.
    + apply (if_app _ (fun c => each (put_sides normal collect point z0 z1) c tris)). intros. apply each_collect_app, put_sides_app.
Qed.
End Hom.

(** induction over objects *)
Section Ind.
Variable P : csg2 -> Prop.
Definition layerP (x : option (list csg2) * nat) : Prop := match fst x with Some a => Forall P a | None => True end.
Hypothesis (HN : P Null) (HV : P Vline2) (HS : P Sweep)
  (HA : forall l, Forall P l -> P (Add l))
  (HX : forall l, Forall (Forall P) l -> P (Xor l))
  (HC : forall l, Forall (Forall P) l -> P (Cut l))
  (HB : forall a b, Forall P a -> P (Sub a b))
  (HP : forall p t, P (Poly p t))
  (HT : forall i l, Forall layerP l -> P (Stack i l)).
Fixpoint csg2_ind2 (r : csg2) : P r :=
  let fix v (l : list csg2) : Forall P l :=
    match l with [] => Forall_nil _ | x :: l => Forall_cons _ (csg2_ind2 x) (v l) end in
  let fix vv (l : list (list csg2)) : Forall (Forall P) l :=
    match l with [] => Forall_nil _ | x :: l => Forall_cons _ (v x) (vv l) end in
  match r with
  | Null => HN | Vline2 => HV | Sweep => HS
  | Add l => HA l (v l)
  | Xor l => HX l (vv l)
  | Cut l => HC l (vv l)
  | Sub a b => HB a b (v a)
  | Poly p t => HP p t
  | Stack i l => HT i l
      ((fix w (l : list (option (list csg2) * nat)) : Forall layerP l :=
        match l with
        | [] => Forall_nil _
        | x :: l => Forall_cons (P := layerP) x
            (match x return layerP x with
             | (Some a, _) => v a | (None, _) => I end) (w l)
        end) l)
  end.
End Ind.

Section Put.
Variable normal : point3 -> point3 -> point3 -> option point3.
Variable zs : list (Z * Z * bool).
Variables zero one mone : Z.

(** the local functions of [put_csg2], by themselves *)
Section Loc.
Context {C : Type}.
Variable put : C -> tri3 -> C.
Notation pc := (put_csg2 normal zs zero one mone put).
Fixpoint put_v (c : C) (zi : nat) (l : list csg2) : sres C :=
  match l with
  | [] => SOk c
  | r :: l => let% c := pc c zi r in put_v c zi l
  end.
Definition put_layer (c : C) (i : nat) (x : option (list csg2) * nat) : sres C :=
  match fst x with
  | None | Some [] => SOk c
  | Some add => let% _ := sassert (Nat.eqb i (snd x)) in put_v c (snd x) add
  end.
Fixpoint put_layers (c : C) (i : nat) (l : list (option (list csg2) * nat)) : sres C :=
  match l with
  | [] => SOk c
  | x :: l => let% c := put_layer c i x in put_layers c (S i) l
  end.
Lemma put_csg2_eq c zi r : pc c zi r =
  match r with
  | Null => SOk c
  | Add add => put_v c zi add
  | Xor xor => match xor with [] => SOk c | a :: _ => put_v c zi a end
  | Sub add _ => put_v c zi add
  | Cut cut => match cut with [] => SOk c | a :: _ => put_v c zi a end
  | Poly point tris => put_poly normal zs zero one mone put c zi point tris
  | Stack idx0 layers => put_layers c idx0 layers
  | Vline2 => SFail
  | Sweep => SFail
  end.
Proof.
  assert (V : forall l c zi, (fix put_v (c : C) (zi : nat) (l : list csg2) {struct l} : sres C :=
    match l with
    | [] => SOk c
    | r :: l => let% c := pc c zi r in put_v c zi l
    end) c zi l = put_v c zi l).
  { induction l as [|x l IH]; intros; cbn; [reflexivity|]. destruct (pc c0 zi0 x); cbn; auto. }
  destruct r as [|l|l|l l'|l|p t|i l| |]; cbn [put_csg2]; try reflexivity; try apply V;
    try (destruct l; [reflexivity|apply V]).
  revert c i. induction l as [|[r lz] l IH]; intros c i; [reflexivity|]. cbn [put_layers].
  unfold put_layer at 1. cbn [fst snd].
  destruct r as [[|x a]|]; cbn [sbind]; try apply IH.
  destruct (sassert (Nat.eqb i lz)); cbn [sbind]; try reflexivity. cbn [put_v].
  destruct (pc c lz x) as [c1| | |]; cbn [sbind]; try reflexivity. rewrite V.
  destruct (put_v c1 lz a); cbn [sbind]; try reflexivity. apply IH.
Qed.
End Loc.

Definition homs {C} (put : C -> tri3 -> C) (f : C -> sres C) (f' : list tri3 -> sres (list tri3)) : Prop :=
  (forall c, hom put c (f c) (f' [])) /\ (forall ts, f' ts = let% us := f' [] in SOk (ts ++ us)).

Lemma put_csg2_homs {C} (put : C -> tri3 -> C) r : forall zi,
  homs put (fun c => put_csg2 normal zs zero one mone put c zi r)
    (fun c => put_csg2 normal zs zero one mone collect c zi r).
Proof.
  set (P := fun r => forall zi, homs put (fun c => put_csg2 normal zs zero one mone put c zi r)
    (fun c => put_csg2 normal zs zero one mone collect c zi r)).
  assert (ID : homs put (fun c => SOk c) (fun c => SOk c)).
  { split; intros; cbn; [reflexivity|]. rewrite app_nil_r. reflexivity. }
  assert (FL : homs put (fun c => SFail) (fun c => SFail)).
  { split; intros; reflexivity. }
  assert (SQ : forall f f' g g', homs put f f' -> homs put g g' ->
     homs put (fun c => let% c := f c in g c) (fun c => let% c := f' c in g' c)).
  { intros f f' g g' [F F'] [G G']. split.
    - apply seq_hom; assumption.
    - apply seq_app; assumption. }
  assert (V : forall l, Forall P l -> forall zi, homs put (fun c => put_v put c zi l) (fun c => put_v collect c zi l)).
  { intros l F. induction F as [|x l X F IH]; intros zi; cbn [put_v]; [exact ID|].
    apply (SQ _ _ (fun c => put_v put c zi l) (fun c => put_v collect c zi l)); auto. }
  assert (E : forall f f' g g', (forall c, f c = f' c) -> (forall c, g c = g' c) -> homs put f g -> homs put f' g').
  { intros f f' g g' E1 E2 [H1 H2]. split; intros.
    - rewrite <- E1, <- E2. apply H1.
    - rewrite <- !E2. apply H2. }
  Ltac st E := eapply E; [intros; symmetry; apply put_csg2_eq|intros; symmetry; apply put_csg2_eq|]; cbn beta iota.
  revert r. apply (csg2_ind2 P).
  - intros zi. st E. exact ID.
  - intros zi. st E. exact FL.
  - intros zi. st E. exact FL.
  - intros l F zi. st E. apply V, F.
  - intros l F zi. st E. destruct l as [|x l]; [exact ID|]. inversion F; subst. apply V. assumption.
  - intros l F zi. st E. destruct l as [|x l]; [exact ID|]. inversion F; subst. apply V. assumption.
  - intros a b F zi. st E. apply V, F.
  - intros p t zi. st E. split; intros.
    + apply put_poly_hom.
    + apply put_poly_app.
  - intros a l F zi. st E. revert a. induction F as [|[r lz] l X F IH]; intros i; cbn [put_layers]; [exact ID|].
    eapply (SQ (fun c => put_layer put c i (r, lz)) (fun c => put_layer collect c i (r, lz))); [|apply IH].
    unfold put_layer. unfold layerP in X. cbn [fst snd] in *. destruct r as [[|x a]|]; try exact ID.
    destruct (Nat.eqb i lz); cbn [sassert sbind]; [apply V, X|exact FL].
Qed.
End Put.

(** *** counting edges *)
Local Open Scope Z_scope.

Fixpoint sum {A} (f : A -> Z) (l : list A) : Z := match l with [] => 0 | x :: l => f x + sum f l end.
Lemma sum_app {A} (f : A -> Z) l m : sum f (l ++ m) = sum f l + sum f m.
Proof. induction l as [|x l IH]; cbn [sum app]; [lia|].  rewrite IH. lia. Qed.
Lemma sum_plus {A} (f g h : A -> Z) l : (forall x, In x l -> f x = g x + h x) -> sum f l = sum g l + sum h l.
Proof.
  induction l as [|x l IH]; intros H; cbn [sum]; [lia|]. 
  rewrite IH, (H x); [lia|left; reflexivity|]. intros y I. apply H. right. exact I.
Qed.
Lemma sum_scale {A} (f : A -> Z) k l : sum (fun x => k * f x) l = k * sum f l.
Proof. induction l as [|x l IH]; cbn [sum]; [lia|].  rewrite IH. lia. Qed.
Lemma sum_ext {A} (f g : A -> Z) l : (forall x, In x l -> f x = g x) -> sum f l = sum g l.
Proof.
  induction l as [|x l IH]; intros H; cbn [sum]; [reflexivity|]. 
  rewrite IH, (H x); [reflexivity|left; reflexivity|]. intros y I. apply H. right. exact I.
Qed.
Lemma sum_flat_map {A B} (f : B -> Z) (g : A -> list B) l : sum f (flat_map g l) = sum (fun x => sum f (g x)) l.
Proof. induction l as [|x l IH]; cbn [flat_map]; [reflexivity|]. rewrite sum_app, IH. reflexivity. Qed.

(** 1 or 0 *)
Definition ind {A} {P : A -> A -> Prop} {Q : A -> A -> Prop} (dec : forall a b : A, {P a b} + {Q a b}) (a b : A) : Z :=
  if dec a b then 1 else 0.

Lemma count_sum {A} (dec : forall a b : A, {a = b} + {a <> b}) l x :
  Z.of_nat (count_occ dec l x) = sum (fun y => ind dec y x) l.
Proof.
  unfold ind. induction l as [|y l IH]; cbn [count_occ sum]; [reflexivity|].
   rewrite <- IH. destruct (dec y x); lia.
Qed.

Definition i2 := ind p2_eq_dec.
Definition iz := ind Z.eq_dec.

Lemma ind_e3 a za b zb c zc d zd :
  ind e3_eq_dec ((a, za), (b, zb)) ((c, zc), (d, zd)) = i2 a c * iz za zc * (i2 b d * iz zb zd).
Proof.
  unfold ind at 1, i2, iz, ind.
  destruct (e3_eq_dec _ _) as [E|N].
  - injection E as -> -> -> ->. 
    destruct (p2_eq_dec c c); [|congruence]. destruct (p2_eq_dec d d); [|congruence].
    destruct (Z.eq_dec zc zc); [|congruence]. destruct (Z.eq_dec zd zd); [|congruence]. reflexivity.
  - destruct (p2_eq_dec a c); [|reflexivity]. destruct (Z.eq_dec za zc); [|reflexivity].
    destruct (p2_eq_dec b d); [|reflexivity]. destruct (Z.eq_dec zb zd); [|reflexivity].
    subst. congruence.
Qed.
Lemma ind_e2 a b c d : ind e2_eq_dec (a, b) (c, d) = i2 a c * i2 b d.
Proof.
  unfold ind at 1, i2, ind.
  destruct (e2_eq_dec _ _) as [E|N].
  - injection E as -> ->. destruct (p2_eq_dec c c); [|congruence]. destruct (p2_eq_dec d d); [|congruence]. reflexivity.
  - destruct (p2_eq_dec a c); [|reflexivity]. destruct (p2_eq_dec b d); [|reflexivity]. subst. congruence.
Qed.

(** in a balanced set of edges, each point is equally often start and end *)
Lemma balanced_ends (E : list (point2 * point2)) :
  (forall a b, count_occ e2_eq_dec E (a, b) = count_occ e2_eq_dec E (b, a)) ->
  forall (d : point2 -> Z), sum (fun e => d (fst e) - d (snd e)) E = 0.
Proof.
  intros H d.
  set (sw := fun e : point2 * point2 => (snd e, fst e)).
  assert (P : Permutation E (map sw E)).
  { apply (Permutation_count_occ e2_eq_dec). intros [a b]. rewrite H.
    change (a, b) with (sw (b, a)). rewrite (count_occ_map sw e2_eq_dec e2_eq_dec). 2:{
      intros [u v] [w x]. unfold sw. cbn. congruence. } reflexivity. }
  assert (S : forall (f : point2 * point2 -> Z) l m, Permutation l m -> sum f l = sum f m).
  { clear. intros f l m P. induction P; cbn [sum] in *; lia. }
  assert (E1 : sum (fun e => d (fst e)) E = sum (fun e => d (snd e)) E).
  { rewrite (S _ _ _ P). clear. induction E as [|e E IH]; cbn [map sum]; [reflexivity|].
     rewrite IH. reflexivity. }
  rewrite (sum_plus _ (fun e => d (fst e)) (fun e => - d (snd e))) by (intros; lia).
  rewrite E1. rewrite (sum_ext (fun e => - d (snd e)) (fun e => (-1) * d (snd e))) by (intros; lia).
  rewrite sum_scale. lia.
Qed.

(** *** the mesh of a layer *)
Section Mesh.
Variable normal : point3 -> point3 -> point3 -> option point3.
Variable zs : list (Z * Z * bool).
Variables zero one mone : Z.
Variable point : list point2.
Variables z0 z1 : Z.
Notation at_ i := (nth i point (0, 0)).

(** net use of the edge from a to b *)
Definition net3 (a b : point3) (ts : list tri3) : Z :=
  sum (fun e => ind e3_eq_dec e (a, b) - ind e3_eq_dec e (b, a)) (flat_map edges3 ts).
Lemma net3_app a b l m : net3 a b (l ++ m) = net3 a b l + net3 a b m.
Proof. unfold net3. rewrite flat_map_app, sum_app. reflexivity. Qed.

Lemma at_nth i q : nth_error point i = Some q -> at_ i = q.
Proof. intros H. apply nth_error_nth. exact H. Qed.

Variables (A B : point2) (za zb : Z).
(** net use by an edge in 2D; indicator of a vertical edge *)
Definition g2 (u v : point2) : Z := i2 u A * i2 v B - i2 u B * i2 v A.
Definition d2 (u : point2) : Z := i2 u A * i2 u B.
Definition hor (z : Z) : Z := iz z za * iz z zb.
Definition ver : Z := iz z0 za * iz z1 zb - iz z0 zb * iz z1 za.
Notation net := (net3 (A, za) (B, zb)).

Lemma net_one n a b c : net [mk_tri3 n a b c] =
  sum (fun e => ind e3_eq_dec e ((A, za), (B, zb)) - ind e3_eq_dec e ((B, zb), (A, za))) [(a, b); (b, c); (c, a)].
Proof. reflexivity. Qed.

Ltac crunch := rewrite ?net_one; cbn [sum]; rewrite !ind_e3; unfold g2, d2, hor, ver; ring.

Lemma top_net t ts : put_top zero one collect point z1 [] t = SOk ts ->
  net ts = - hor z1 * (g2 (at_ (p0 t)) (at_ (p1 t)) + g2 (at_ (p1 t)) (at_ (p2 t)) + g2 (at_ (p2 t)) (at_ (p0 t))).
Proof.
  unfold put_top. destruct (nth_error point (p1 t)) eqn:E1; [|discriminate].
  destruct (nth_error point (p0 t)) eqn:E0; [|discriminate]. destruct (nth_error point (p2 t)) eqn:E2; [|discriminate].
  intros [= <-]. rewrite (at_nth _ _ E0), (at_nth _ _ E1), (at_nth _ _ E2). unfold collect, app. crunch.
Qed.
Lemma bottom_net t ts : put_bottom zero mone collect point z0 [] t = SOk ts ->
  net ts = hor z0 * (g2 (at_ (p0 t)) (at_ (p1 t)) + g2 (at_ (p1 t)) (at_ (p2 t)) + g2 (at_ (p2 t)) (at_ (p0 t))).
Proof.
  unfold put_bottom. destruct (nth_error point (p0 t)) eqn:E0; [|discriminate].
  destruct (nth_error point (p1 t)) eqn:E1; [|discriminate]. destruct (nth_error point (p2 t)) eqn:E2; [|discriminate].
  intros [= <-]. rewrite (at_nth _ _ E0), (at_nth _ _ E1), (at_nth _ _ E2). unfold collect, app. crunch.
Qed.
Lemma edge_net i j ts : put_edge normal collect [] point z0 z1 i j = SOk ts ->
  net ts = (hor z1 - hor z0) * g2 (at_ i) (at_ j) + ver * (d2 (at_ i) - d2 (at_ j)).
Proof.
  unfold put_edge. destruct (nth_error point i) eqn:E0; [|discriminate].
  destruct (nth_error point j) eqn:E1; [|discriminate]. destruct (normal _ _ _); [|discriminate].
  intros [= <-]. rewrite (at_nth _ _ E0), (at_nth _ _ E1). unfold collect. cbn [app].
  match goal with |- net3 _ _ [?x; ?y] = _ => change [x; y] with ([x] ++ [y]) end. rewrite net3_app. crunch.
Qed.
Definition side1 (b : bool) (u v : point2) : Z :=
  if b then (hor z1 - hor z0) * g2 u v + ver * (d2 u - d2 v) else 0.
Lemma sides_net t ts : put_sides normal collect point z0 z1 [] t = SOk ts ->
  net ts = side1 (o01 t) (at_ (p0 t)) (at_ (p1 t)) + side1 (o12 t) (at_ (p1 t)) (at_ (p2 t)) + side1 (o20 t) (at_ (p2 t)) (at_ (p0 t)).
Proof.
  unfold put_sides, side1. intros H.
  apply sbind_ok in H as (t1 & H1 & H). apply sbind_ok in H as (t2 & H2 & H).
  assert (X : forall (b : bool) i j ts1 ts2, (if b then put_edge normal collect ts1 point z0 z1 i j else SOk ts1) = SOk ts2 ->
    net ts2 = net ts1 + (if b then (hor z1 - hor z0) * g2 (at_ i) (at_ j) + ver * (d2 (at_ i) - d2 (at_ j)) else 0)).
  { clear. intros b i j ts1 ts2. destruct b; [|intros [= <-]; ring].
    rewrite put_edge_app. intros H. apply sbind_ok in H as (us & U & [= <-]). rewrite net3_app, (edge_net _ _ _ U). reflexivity. }
  rewrite (X _ _ _ _ _ H), (X _ _ _ _ _ H2), (X _ _ _ _ _ H1). cbn [net3 flat_map sum]. unfold net3. cbn [flat_map sum]. ring.
Qed.

Lemma each_net (f : list tri3 -> tri -> sres (list tri3)) (v : tri -> Z) :
  (forall ts x, f ts x = let% us := f [] x in SOk (ts ++ us)) ->
  (forall t ts, f [] t = SOk ts -> net ts = v t) ->
  forall tris ts, each f [] tris = SOk ts -> net ts = sum v tris.
Proof.
  intros AP H. induction tris as [|t tris IH]; intros ts; cbn [each sum].
  - intros [= <-]. reflexivity.
  - intros E. apply sbind_ok in E as (u & U & E). rewrite (each_collect_app f AP) in E.
    apply sbind_ok in E as (w & W & [= <-]). rewrite net3_app, (H _ _ U), (IH _ W). reflexivity.
Qed.

Lemma mesh_net zi tris ts : nth_error zs zi = Some (z0, z1, false) -> inner_balanced point tris ->
  put_poly normal zs zero one mone collect [] zi point tris = SOk ts -> net ts = 0.
Proof.
  unfold put_poly. intros -> IB H. cbn [negb] in H.
  apply sbind_ok in H as (t1 & T & H). apply sbind_ok in H as (t2 & Bo & S).
  rewrite (each_collect_app _ (fun ts x => put_bottom_app zero mone point z0 ts x)) in Bo. apply sbind_ok in Bo as (b & Bo & [= <-]).
  rewrite (each_collect_app _ (fun ts x => put_sides_app normal point z0 z1 ts x)) in S. apply sbind_ok in S as (s & S & [= <-]).
  rewrite !net3_app.
  rewrite (each_net _ _ (fun ts x => put_top_app zero one point z1 ts x) top_net _ _ T).
  rewrite (each_net _ _ (fun ts x => put_bottom_app zero mone point z0 ts x) bottom_net _ _ Bo).
  rewrite (each_net _ _ (fun ts x => put_sides_app normal point z0 z1 ts x) sides_net _ _ S).
  assert (Q1 : sum (fun e => g2 (fst e) (snd e)) (flat_map (inner point) tris) = 0).
  { specialize (IB A B). apply (f_equal Z.of_nat) in IB. rewrite !count_sum in IB.
    rewrite (sum_ext _ (fun e => ind e2_eq_dec e (A, B) + (-1) * ind e2_eq_dec e (B, A))).
    2: { intros [u v] _. rewrite !ind_e2. unfold g2. cbn [fst snd]. ring. }
    rewrite (sum_plus _ (fun e => ind e2_eq_dec e (A, B)) (fun e => (-1) * ind e2_eq_dec e (B, A))) by reflexivity.
    rewrite sum_scale. lia. }
  pose proof (balanced_ends _ IB d2) as Q2.
  rewrite sum_flat_map in Q1, Q2.
  set (q1 := fun t => sum (fun e => g2 (fst e) (snd e)) (inner point t)) in *.
  set (q2 := fun t => sum (fun e => d2 (fst e) - d2 (snd e)) (inner point t)) in *.
  match goal with |- sum ?f _ + sum ?g _ + sum ?h _ = 0 =>
    assert (K : sum (fun t => f t + g t + h t) tris = (hor z0 - hor z1) * sum q1 tris - ver * sum q2 tris);
    [| rewrite (sum_plus (fun t => f t + g t + h t) (fun t => f t + g t) h) in K by reflexivity;
       rewrite (sum_plus (fun t => f t + g t) f g) in K by reflexivity; rewrite K, Q1, Q2; ring] end.
  rewrite <- Z.add_opp_r, <- Z.mul_opp_l, <- !sum_scale.
  apply sum_plus. intros t _. unfold q1, q2, inner, side1.
  destruct (o01 t), (o12 t), (o20 t); cbn [app sum fst snd]; ring.
Qed.
End Mesh.

Lemma mesh_balanced normal zs zero one mone zi z0 z1 point tris ts :
  nth_error zs zi = Some (z0, z1, false) -> inner_balanced point tris ->
  put_poly normal zs zero one mone collect [] zi point tris = SOk ts -> balanced3 ts.
Proof.
  intros Z IB H [A za] [B zb].
  pose proof (mesh_net normal zs zero one mone point z0 z1 A B za zb zi tris ts Z IB H) as N.
  unfold net3 in N.
  rewrite (sum_plus _ (fun e => ind e3_eq_dec e ((A, za), (B, zb))) (fun e => (-1) * ind e3_eq_dec e ((B, zb), (A, za)))) in N by (intros; unfold ind; destruct (e3_eq_dec _ _), (e3_eq_dec _ _); reflexivity).
  rewrite sum_scale, <- !count_sum in N. assert (K : forall x y : nat, Z.of_nat x + -1 * Z.of_nat y = 0 -> x = y) by (clear; lia). apply K. exact N.
Qed.

(** it is written unless a normal is not finite *)
Lemma mesh_written normal zs zero one mone zi z0 z1 flat point tris :
  nth_error zs zi = Some (z0, z1, flat) -> indices_ok point tris ->
  (forall a b c, normal a b c <> None) ->
  exists ts, put_poly normal zs zero one mone collect [] zi point tris = SOk ts.
Proof.
  unfold put_poly. intros -> IX NN.
  assert (EV : forall (f : list tri3 -> tri -> sres (list tri3)),
    (forall c t, In t tris -> exists c', f c t = SOk c') -> forall l, incl l tris -> forall c, exists c', each f c l = SOk c').
  { clear. intros f F. induction l as [|t l IH]; intros I c; cbn [each]; [eauto|].
    destruct (F c t) as (c' & ->). { apply I. left. reflexivity. } cbn [sbind]. apply IH. intros x X. apply I. right. exact X. }
  assert (NT : forall i, (i < length point)%nat -> exists q, nth_error point i = Some q).
  { intros i L. destruct (nth_error point i) eqn:E; [eauto|]. apply nth_error_None in E. lia. }
  assert (F1 : forall c t, In t tris -> exists c', put_top zero one collect point z1 c t = SOk c').
  { intros c t I. destruct (IX t I) as (I0 & I1 & I2). unfold put_top.
    destruct (NT _ I0) as (? & ->), (NT _ I1) as (? & ->), (NT _ I2) as (? & ->). eauto. }
  assert (F2 : forall c t, In t tris -> exists c', put_bottom zero mone collect point z0 c t = SOk c').
  { intros c t I. destruct (IX t I) as (I0 & I1 & I2). unfold put_bottom.
    destruct (NT _ I0) as (? & ->), (NT _ I1) as (? & ->), (NT _ I2) as (? & ->). eauto. }
  assert (F3 : forall (b : bool) c i j, (i < length point)%nat -> (j < length point)%nat ->
     exists c', (if b then put_edge normal collect c point z0 z1 i j else SOk c) = SOk c').
  { intros [|] c i j I J; [|eauto]. unfold put_edge. destruct (NT _ I) as (? & ->), (NT _ J) as (? & ->).
    destruct (normal _ _ _) eqn:N; [eauto|]. destruct (NN _ _ _ N). }
  assert (F4 : forall c t, In t tris -> exists c', put_sides normal collect point z0 z1 c t = SOk c').
  { intros c t I. destruct (IX t I) as (I0 & I1 & I2). unfold put_sides.
    destruct (F3 (o01 t) c _ _ I0 I1) as (c1 & ->). cbn [sbind].
    destruct (F3 (o12 t) c1 _ _ I1 I2) as (c2 & ->). cbn [sbind]. apply F3; assumption. }
  pose proof (EV _ F1 tris (incl_refl _)) as G1. pose proof (EV _ F2 tris (incl_refl _)) as G2. pose proof (EV _ F4 tris (incl_refl _)) as G4.
  destruct flat; cbn [negb sbind].
  - destruct (G2 []) as (c & ->). cbn [sbind]. eauto.
  - destruct (G1 []) as (c & ->). cbn [sbind]. destruct (G2 c) as (c' & ->). cbn [sbind]. apply G4.
Qed.
