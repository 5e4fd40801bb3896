(** The commands of a path draw its subpaths. *)
From Coq Require Import ZArith List Bool Lia.
From Verif Require Import Svgpath_model Svgpath_spec.
Import ListNotations.
Local Open Scope nat_scope.

Section P.
Variable D : Type.
Variables (dzero : D) (dadd dmir : D -> D -> D) (deq : D -> D -> bool).
Variable quad_in : pt D -> pt D -> pt D -> list (pt D).
Variable cub_in : pt D -> pt D -> pt D -> pt D -> list (pt D).

Notation st := (st D).
Notation cmd := (cmd D).
Notation pen := (pen D).

Definition exec (c : cmd) (q : st) : st :=
  match c with
  | Close _ => path_close D dzero q
  | Move _ rel p => path_move D dzero dadd rel p q
  | Line _ rel p => path_line D dzero dadd deq rel p q
  | Horiz _ rel x => path_horiz D dzero dadd deq rel x q
  | Vert _ rel y => path_vert D dzero dadd deq rel y q
  | Quad _ rel c p => path_quad D dadd quad_in rel c p q
  | SQuad _ rel p => path_squad D dadd dmir quad_in rel p q
  | Cub _ rel c1 c2 p => path_cub D dadd cub_in rel c1 c2 p q
  | SCub _ rel c p => path_scub D dadd dmir cub_in rel c p q
  end.
Definition run (cs : list cmd) (q : st) : st := fold_left (fun q c => exec c q) cs q.

Notation number_points := (number_points D).
Notation number_paths := (number_paths D).
Notation step := (step D dadd dmir deq quad_in cub_in).
Notation events := (events D dadd dmir deq quad_in cub_in).
Notation subpaths := (subpaths D).
Notation fine := (fine D dadd dmir deq quad_in cub_in).

Lemma number_points_app i j a b : number_points i j (a ++ b) = number_points i j a ++ number_points i (j + length a) b.
Proof.
  revert j. induction a as [|p a IH]; intros j; cbn; [now rewrite Nat.add_0_r|].
  rewrite IH. do 3 f_equal. lia.
Qed.
Lemma number_paths_app i a b : number_paths i (a ++ b) = number_paths i a ++ number_paths (i + length a) b.
Proof.
  revert i. induction a as [|p a IH]; intros i; cbn; [now rewrite Nat.add_0_r|].
  rewrite IH, <- app_assoc. do 3 f_equal. lia.
Qed.

(** what has been written: the finished subpaths and the current one *)
Record wrote (q : st) (done : list (list (pt D))) (l : list (pt D)) : Prop := {
  w_out : out D q = number_paths 0 done ++ number_points (length done) 0 l;
  w_path : path_idx D q = length done;
  w_point : point_idx D q = length l;
  w_poly : poly D q = match done, l with [], [] => false | _, _ => true end;
  w_bad : bad D q = false
}.

Lemma wrote_cur q done l p k c : wrote q done l -> wrote (path_cur D q p k c) done l.
Proof. intros [A B C E F]. constructor; assumption. Qed.

Lemma wrote_push q done l p : wrote q done l -> wrote (path_push D q p) done (l ++ [p]).
Proof.
  intros [A B C E F]. constructor; cbn.
  - rewrite A, number_points_app, app_assoc, C, B. reflexivity.
  - assumption.
  - rewrite C, app_length. cbn. lia.
  - destruct done, l; reflexivity.
  - rewrite F, E. destruct done, l; try reflexivity. rewrite C, B. reflexivity.
Qed.

Lemma wrote_pushes q done l ps : wrote q done l -> wrote (fold_left (path_push D) ps q) done (l ++ ps).
Proof.
  revert q l. induction ps as [|p ps IH]; intros q l W; cbn; [now rewrite app_nil_r|].
  replace (l ++ p :: ps) with ((l ++ [p]) ++ ps) by (rewrite <- app_assoc; reflexivity).
  apply IH, wrote_push, W.
Qed.

Lemma pushes_cur ps q : cur D (fold_left (path_push D) ps q) = cur D q /\ init D (fold_left (path_push D) ps q) = init D q.
Proof. revert q. induction ps as [|p ps IH]; intros q; cbn; [auto|]. rewrite !(proj1 (IH _)), !(proj2 (IH _)). auto. Qed.

Lemma wrote_close q done l : wrote q done l -> wrote (path_close D dzero q) (done ++ flush D l) [].
Proof.
  intros [A B C E F]. unfold path_close. cbn. rewrite E, C.
  destruct l as [|p l].
  - cbn. rewrite app_nil_r. destruct done; cbn; constructor; cbn; assumption.
  - replace (match done with [] => true | _ => true end) with true by (destruct done; reflexivity).
    cbn [negb length Nat.eqb]. constructor; cbn.
    + rewrite A, number_paths_app, app_nil_r. cbn. now rewrite app_nil_r.
    + rewrite B, app_length. cbn. lia.
    + reflexivity.
    + destruct done; reflexivity.
    + assumption.
Qed.

Lemma close_fields q : cur D (path_close D dzero q) = init D q /\ init D (path_close D dzero q) = init D q /\
  prev_cmd D (path_close D dzero q) = P0.
Proof.
  unfold path_close. cbn. destruct (negb (poly D q)); [auto|]. destruct (Nat.eqb (point_idx D q) 0); auto.
Qed.

(** the current subpath after its start was ensured *)
Definition ensure (a : pt D) (l : list (pt D)) : list (pt D) := match l with [] => [a] | _ => l end.

Lemma wrote_start q done l : wrote q done l -> wrote (path_start D q) done (ensure (cur D q) l).
Proof.
  intros W. pose proof (w_point _ _ _ W) as C. unfold path_start. rewrite C. destruct l as [|p l]; cbn [length Nat.eqb ensure]; [|exact W].
  apply (wrote_push _ _ []). destruct W as [A B C' E F]. constructor; first [assumption|reflexivity].
Qed.
Lemma start_fields q : cur D (path_start D q) = cur D q /\
  init D (path_start D q) = (if Nat.eqb (point_idx D q) 0 then cur D q else init D q).
Proof. unfold path_start. destruct (Nat.eqb (point_idx D q) 0); cbn; auto. Qed.

Definition ctl (q : st) (k : pen) : Prop :=
  match last D k with
  | NoC _ => prev_cmd D q = P0
  | QC _ p => prev_cmd D q = PQ /\ ctrl D q = p
  | CC _ p => prev_cmd D q = PC /\ ctrl D q = p
  end.

Record rel (q : st) (k : pen) (l : list (pt D)) : Prop := {
  r_cur : cur D q = at_ D k;
  r_at : l = [] -> at_ D k = start D k;
  r_init : moved D k = false -> init D q = start D k;
  r_moved : moved D k = true -> l = [];
  r_ctl : idle D k = false -> ctl q k
}.

Definition next (l : list (pt D)) (e : event D) : list (list (pt D)) * list (pt D) :=
  match e with
  | Break _ => (flush D l, [])
  | Nothing _ => ([], l)
  | Draw _ a ps => ([], match l with [] => a :: ps | _ => l ++ ps end)
  end.

Lemma draw_ok q k done l ps p kd c :
  wrote q done l -> rel q k l ->
  let q' := path_cur D (path_push D (fold_left (path_push D) ps (path_start D q)) p) p kd c in
  wrote q' done (match l with [] => at_ D k :: ps ++ [p] | _ => l ++ ps ++ [p] end) /\
  cur D q' = p /\ init D q' = start D k.
Proof.
  intros W R. cbn. split; [|split].
  - apply wrote_cur.
    refine (eq_ind _ (fun z => wrote _ done z) (wrote_push _ _ _ p (wrote_pushes _ _ _ ps (wrote_start _ _ _ W))) _ _).
    rewrite (r_cur _ _ _ R). rewrite <- app_assoc. destruct l; reflexivity.
  - reflexivity.
  - rewrite (proj2 (pushes_cur _ _)), (proj2 (start_fields _)), (w_point _ _ _ W).
    destruct l as [|x l]; cbn [length Nat.eqb].
    + rewrite (r_cur _ _ _ R). now apply (r_at _ _ _ R).
    + apply (r_init _ _ _ R). destruct (moved D k) eqn:M; [|reflexivity]. now apply (r_moved _ _ _ R) in M.
Qed.

Lemma snoc_nonnil (l ps : list (pt D)) a p : match l with [] => a :: ps ++ [p] | _ => l ++ ps ++ [p] end <> [].
Proof. destruct l; discriminate. Qed.

Definition keeps (q' : st) (k' : pen) done (l : list (pt D)) (e : event D) : Prop :=
  wrote q' (done ++ fst (next l e)) (snd (next l e)) /\ rel q' k' (snd (next l e)).

Lemma line_ok q k done l p : wrote q done l -> rel q k l ->
  keeps (path_line_abs D dzero deq q p) (snd (line_to D deq k p)) done l (fst (line_to D deq k p)).
Proof.
  intros W R. unfold path_line_abs, line_to, keeps. rewrite (r_cur _ _ _ R).
  destruct (deq (fst (at_ D k)) (fst p) && deq (snd (at_ D k)) (snd p)); cbn [fst snd next].
  - rewrite app_nil_r. split; [assumption|]. destruct R as [A B C E F]. constructor; cbn; auto. discriminate.
  - rewrite app_nil_r.
    destruct (draw_ok q k done l [] p P0 (dzero, dzero) W R) as (A & B & C). cbn [fold_left app] in A, B, C.
    split; [exact A|]. constructor; cbn; auto; try discriminate.
    all: try (intros Z; exfalso; destruct l; discriminate Z).
    all: intros _; unfold ctl; cbn; auto.
Qed.

Lemma quad_ok q k done l c p : wrote q done l -> rel q k l ->
  keeps (path_quad_abs D quad_in q c p) (snd (quad_to D quad_in k c p)) done l (fst (quad_to D quad_in k c p)).
Proof.
  intros W R. unfold path_quad_abs, quad_to, keeps. cbn [fst snd next]. rewrite app_nil_r.
  rewrite (proj1 (start_fields q)), (r_cur _ _ _ R).
  destruct (draw_ok q k done l (quad_in (at_ D k) c p) p PQ c W R) as (A & B & C).
  split; [exact A|]. constructor; cbn; auto; try discriminate.
  all: try (intros Z; exfalso; destruct l; discriminate Z).
  all: intros _; unfold ctl; cbn; auto.
Qed.

Lemma cub_ok q k done l c1 c2 p : wrote q done l -> rel q k l ->
  keeps (path_cub_abs D cub_in q c1 c2 p) (snd (cub_to D cub_in k c1 c2 p)) done l (fst (cub_to D cub_in k c1 c2 p)).
Proof.
  intros W R. unfold path_cub_abs, cub_to, keeps. cbn [fst snd next]. rewrite app_nil_r.
  rewrite (proj1 (start_fields q)), (r_cur _ _ _ R).
  destruct (draw_ok q k done l (cub_in (at_ D k) c1 c2 p) p PC c2 W R) as (A & B & C).
  split; [exact A|]. constructor; cbn; auto; try discriminate.
  all: try (intros Z; exfalso; destruct l; discriminate Z).
  all: intros _; unfold ctl; cbn; auto.
Qed.

Lemma exec_ok q k done l c : wrote q done l -> rel q k l ->
  (c = Close D -> moved D k = false) ->
  (idle D k = true -> match c with SQuad _ _ _ | SCub _ _ _ _ => False | _ => True end) ->
  keeps (exec c q) (snd (step k c)) done l (fst (step k c)).
Proof.
  intros W R M I. pose proof (r_cur _ _ _ R) as C.
  destruct c; cbn [exec].
  - unfold keeps. cbn. destruct (close_fields q) as (E1 & E2 & E3).
    split; [now apply wrote_close|]. specialize (M eq_refl).
    pose proof (r_init _ _ _ R M) as EI. constructor; cbn.
    + now rewrite E1.
    + reflexivity.
    + intros _. now rewrite E2.
    + discriminate.
    + intros _. exact E3.
  - unfold keeps, path_move. cbn. split; [apply wrote_cur; now apply wrote_close|].
    constructor; cbn; try reflexivity; try discriminate.
    unfold padd, absolute. rewrite C. reflexivity.
  - unfold path_line. rewrite C. exact (line_ok q k done l _ W R).
  - unfold path_horiz. rewrite C. exact (line_ok q k done l _ W R).
  - unfold path_vert. rewrite C. exact (line_ok q k done l _ W R).
  - unfold path_quad. rewrite C. exact (quad_ok q k done l _ _ W R).
  - destruct (idle D k) eqn:ID; [now elim I|]. pose proof (r_ctl _ _ _ R ID) as T. unfold ctl in T.
    unfold path_squad. rewrite C. unfold Svgpath_spec.step.
    destruct (last D k) as [|m|m] eqn:EL.
    + rewrite T. exact (quad_ok q k done l _ _ W R).
    + destruct T as [T1 T2]. rewrite T1, ?T2. exact (quad_ok q k done l _ _ W R).
    + destruct T as [T1 T2]. rewrite T1, ?T2. exact (quad_ok q k done l _ _ W R).
  - unfold path_cub. rewrite C. exact (cub_ok q k done l _ _ _ W R).
  - destruct (idle D k) eqn:ID; [now elim I|]. pose proof (r_ctl _ _ _ R ID) as T. unfold ctl in T.
    unfold path_scub. rewrite C. unfold Svgpath_spec.step.
    destruct (last D k) as [|m|m] eqn:EL.
    + rewrite T. exact (cub_ok q k done l _ _ _ W R).
    + destruct T as [T1 T2]. rewrite T1, ?T2. exact (cub_ok q k done l _ _ _ W R).
    + destruct T as [T1 T2]. rewrite T1, ?T2. exact (cub_ok q k done l _ _ _ W R).
Qed.

Lemma run_ok cs : forall q k done l, wrote q done l -> rel q k l -> fine k cs ->
  wrote (path_close D dzero (run cs q)) (done ++ subpaths l (events k cs)) [].
Proof.
  induction cs as [|c cs IH]; intros q k done l W R F; cbn [run fold_left events].
  - cbn. now apply wrote_close.
  - destruct F as (F1 & F2 & F3).
    destruct (exec_ok q k done l c W R F1 F2) as [W' R'].
    destruct (step k c) as [e k'] eqn:E. cbn [fst snd] in *.
    specialize (IH _ _ _ _ W' R' F3). unfold run in IH.
    destruct e; cbn [next fst snd subpaths] in IH |- *.
    + now rewrite app_assoc.
    + now rewrite app_nil_r in IH.
    + now rewrite app_nil_r in IH.
Qed.

Lemma wrote0 : wrote (st0 D dzero) [] [].
Proof. constructor; reflexivity. Qed.
Lemma rel0 : rel (st0 D dzero) (pen0 D dzero) [].
Proof. constructor; cbn; try reflexivity; discriminate. Qed.

Lemma fini_of q (ls : list (list (pt D))) : wrote (path_close D dzero q) ls [] ->
  path_fini D dzero q = match ls with [] => None | x :: z => Some (number_paths 0 (x :: z)) end.
Proof.
  intros [A B C E G]. unfold path_fini. rewrite G, E, A. destruct ls as [|x z]; [reflexivity|]. cbn. now rewrite app_nil_r.
Qed.

Lemma fini_run cs : fine (pen0 D dzero) cs ->
  path_fini D dzero (run cs (st0 D dzero)) =
  match drawing D dzero dadd dmir deq quad_in cub_in cs with
  | [] => None
  | ls => Some (number_paths 0 ls)
  end.
Proof. intros F. exact (fini_of _ _ (run_ok cs _ _ [] [] wrote0 rel0 F)). Qed.
End P.
