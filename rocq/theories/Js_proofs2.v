(** The surface of a layer is closed *)
From Coq Require Import ZArith List Bool Lia Permutation.
From Verif Require Import Js_model Js_spec Js_proofs.
Import ListNotations.
Open Scope nat_scope.

Notation pp := (point * point)%type.
Definition tri_all (pts : list point) (t : tri_t) : list pp := [(pt pts (p0 t), pt pts (p1 t)); (pt pts (p1 t), pt pts (p2 t)); (pt pts (p2 t), pt pts (p0 t))].
Definition outer (pts : list point) (t : tri_t) : list pp :=
  (if o01 t then [(pt pts (p0 t), pt pts (p1 t))] else []) ++ (if o12 t then [(pt pts (p1 t), pt pts (p2 t))] else []) ++ (if o20 t then [(pt pts (p2 t), pt pts (p0 t))] else []).
Definition at_z (z : bool) (e : pp) : (point * bool) * (point * bool) := ((fst e, z), (snd e, z)).
Definition wall (e : pp) : list ((point * bool) * (point * bool)) :=
  let '(a, b) := e in [((b, false), (a, true)); ((a, true), (b, true)); ((b, true), (b, false)); ((b, false), (a, false)); ((a, false), (a, true)); ((a, true), (b, false))].

Lemma perm_fm_app : forall A B (f g : A -> list B) l, Permutation (flat_map (fun x => f x ++ g x) l) (flat_map f l ++ flat_map g l).
Proof.
  induction l as [|x l IH]; cbn [flat_map]; [constructor|]. rewrite IH. rewrite <- !app_assoc. apply Permutation_app_head.
  rewrite !app_assoc. apply Permutation_app_tail. apply Permutation_app_comm.
Qed.
Lemma perm_fm : forall A B (f g : A -> list B) l, (forall x, In x l -> Permutation (f x) (g x)) -> Permutation (flat_map f l) (flat_map g l).
Proof.
  induction l as [|x l IH]; intros H; cbn [flat_map]; [constructor|]. apply Permutation_app; [apply H; left; reflexivity|]. apply IH. intros. apply H. right. assumption.
Qed.
Lemma fm_fm : forall A B C (f : A -> list B) (g : B -> list C) l, flat_map g (flat_map f l) = flat_map (fun x => flat_map g (f x)) l.
Proof. induction l as [|x l IH]; cbn [flat_map]; [reflexivity|]. rewrite flat_map_app, IH. reflexivity. Qed.
Lemma fm_map : forall A B C (f : A -> B) (g : B -> list C) l, flat_map g (map f l) = flat_map (fun x => g (f x)) l.
Proof. induction l as [|x l IH]; cbn [flat_map map]; [reflexivity|]. rewrite IH. reflexivity. Qed.
Lemma map_fm : forall A B C (f : A -> list B) (g : B -> C) l, map g (flat_map f l) = flat_map (fun x => map g (f x)) l.
Proof. induction l as [|x l IH]; cbn [flat_map map]; [reflexivity|]. rewrite map_app, IH. reflexivity. Qed.

(** Permutations of listed elements, and of listed parts *)
Ltac psolve := first [ apply perm_nil
  | apply (Permutation_cons_app []); cbn [app]; psolve
  | apply (Permutation_cons_app [_]); cbn [app]; psolve
  | apply (Permutation_cons_app [_; _]); cbn [app]; psolve
  | apply (Permutation_cons_app [_; _; _]); cbn [app]; psolve
  | apply (Permutation_cons_app [_; _; _; _]); cbn [app]; psolve
  | apply (Permutation_cons_app [_; _; _; _; _]); cbn [app]; psolve ].
Lemma edge_dec : forall a b : (point * bool) * (point * bool), {a = b} + {a <> b}.
Proof. repeat decide equality. Defined.
Ltac papp := apply (Permutation_count_occ edge_dec); intros ?x; rewrite !count_occ_app; lia.

Lemma sides_edges : forall pts zi t, flat_map tri_edges (tri_sides pts zi t) = flat_map wall (outer pts t).
Proof. intros. unfold tri_sides, outer. destruct (o01 t), (o12 t), (o20 t); reflexivity. Qed.
Lemma all_split : forall pts l, Permutation (flat_map (tri_all pts) l) (flat_map (outer pts) l ++ flat_map (inner pts) l).
Proof.
  intros. rewrite <- perm_fm_app. apply perm_fm. intros t _. unfold tri_all, outer, inner.
  destruct (o01 t), (o12 t), (o20 t); cbn [app]; try reflexivity.
  - apply perm_skip, perm_swap.
  - eapply perm_trans; [apply perm_swap|]. apply perm_skip, perm_swap.
  - apply perm_swap.
  - eapply perm_trans; [apply perm_skip, perm_swap|]. apply perm_swap.
Qed.
Lemma wall_split : forall l, Permutation (flat_map wall l)
  (map (at_z true) l ++ map (fun e => swap (at_z false e)) l
   ++ (map (fun e => ((snd e, false), (fst e, true))) l ++ map (fun e => swap ((snd e, false), (fst e, true))) l)
   ++ (map (fun p => ((p, false), (p, true))) (map fst l) ++ map (fun p => swap ((p, false), (p, true))) (map snd l))).
Proof.
  intros. rewrite !map_map. rewrite <- !flat_map_one. rewrite <- !perm_fm_app. apply perm_fm. intros [a b] _. cbn.
  psolve.
Qed.
Lemma tri_ends : forall pts l, Permutation (map fst (flat_map (tri_all pts) l)) (map snd (flat_map (tri_all pts) l)).
Proof. intros. rewrite !map_fm. apply perm_fm. intros t _. cbn. psolve. Qed.
Lemma outer_ends : forall g, flags_right g -> Permutation (map fst (flat_map (outer (fst g)) (snd g))) (map snd (flat_map (outer (fst g)) (snd g))).
Proof.
  intros g H. pose proof (tri_ends (fst g) (snd g)) as E. pose proof (all_split (fst g) (snd g)) as P.
  rewrite (Permutation_map fst P), (Permutation_map snd P), !map_app in E. unfold flags_right in H. apply (Permutation_map fst) in H.
  rewrite map_map in H. cbn [swap fst] in H. rewrite H in E. apply Permutation_app_inv_r in E. exact E.
Qed.
Lemma swap_swap : forall A (l : list (A * A)), map swap (map swap l) = l.
Proof. intros. rewrite map_map. rewrite <- (map_id l) at 2. apply map_ext. intros [a b]. reflexivity. Qed.
Lemma swap_at : forall z l, map (at_z z) (map swap l) = map swap (map (at_z z) l).
Proof. intros. rewrite !map_map. reflexivity. Qed.

Definition sym (l : list ((point * bool) * (point * bool))) : Prop := Permutation l (map swap l).
Lemma sym_app : forall a b, sym a -> sym b -> sym (a ++ b).
Proof. unfold sym. intros a b A B. rewrite map_app. apply Permutation_app; assumption. Qed.
Lemma sym_both : forall a, sym (a ++ map swap a).
Proof. unfold sym. intros a. rewrite map_app, swap_swap. apply Permutation_app_comm. Qed.
Lemma sym_perm : forall a b, Permutation a b -> sym a -> sym b.
Proof. unfold sym. intros a b P A. rewrite <- P. exact A. Qed.

Lemma closed_poly : forall zi r, diff_above r = None -> diff_below r = None -> flags_right (body r) -> closed (poly_tris true zi r).
Proof.
  intros zi r DA DB FR. unfold closed, poly_tris. rewrite DA, DB. set (g := body r) in *. clearbody g. clear r DA DB.
  change (sym (flat_map tri_edges
    (map (fun t => (vt Up (fst g) zi (p1 t) true, vt Up (fst g) zi (p0 t) true, vt Up (fst g) zi (p2 t) true)) (snd g)
     ++ map (fun t => (vt Down (fst g) zi (p0 t) false, vt Down (fst g) zi (p1 t) false, vt Down (fst g) zi (p2 t) false)) (snd g)
     ++ flat_map (tri_sides (fst g) zi) (snd g)))).
  rewrite !flat_map_app, !fm_map, fm_fm.
  set (E := flat_map (tri_all (fst g)) (snd g)). set (F := flat_map (outer (fst g)) (snd g)). set (I := flat_map (inner (fst g)) (snd g)).
  assert (T1 : Permutation (flat_map (fun t => tri_edges (vt Up (fst g) zi (p1 t) true, vt Up (fst g) zi (p0 t) true, vt Up (fst g) zi (p2 t) true)) (snd g)) (map swap (map (at_z true) E))).
  { unfold E. rewrite !map_fm. apply perm_fm. intros t _. cbn. psolve. }
  assert (T0 : flat_map (fun t => tri_edges (vt Down (fst g) zi (p0 t) false, vt Down (fst g) zi (p1 t) false, vt Down (fst g) zi (p2 t) false)) (snd g) = map (at_z false) E).
  { unfold E. rewrite !map_fm. reflexivity. }
  assert (TS : flat_map (fun t => flat_map tri_edges (tri_sides (fst g) zi t)) (snd g) = flat_map wall F).
  { unfold F. rewrite fm_fm. apply flat_map_ext. intros t. apply sides_edges. }
  rewrite T0, TS. eapply sym_perm.
  { symmetry. apply Permutation_app; [exact T1|]. apply Permutation_app_head. apply wall_split. }
  pose proof (all_split (fst g) (snd g)) as P. fold E F I in P.
  assert (FI : Permutation I (map swap I)) by exact FR.
  pose proof (outer_ends g FR) as OE. fold F in OE.
  clearbody E F I. clear T1 T0 TS.
  eapply sym_perm with (a := (map (at_z false) F ++ map swap (map (at_z false) F)) ++ (map (at_z true) F ++ map swap (map (at_z true) F))
    ++ (map (at_z false) I ++ map (at_z true) I)
    ++ (map (fun e => ((snd e, false), (fst e, true))) F ++ map swap (map (fun e => ((snd e, false), (fst e, true))) F))
    ++ (map (fun p => ((p, false), (p, true))) (map fst F) ++ map swap (map (fun p => ((p, false), (p, true))) (map fst F)))).
  - rewrite P at 1 2. rewrite !map_app.
    assert (XI : Permutation (map swap (map (at_z true) I)) (map (at_z true) I)) by (rewrite <- swap_at; rewrite <- FI; reflexivity).
    rewrite XI. clear XI.
    rewrite (map_map (at_z false) swap F).
    rewrite (map_map (fun e => ((snd e, false), (fst e, true))) swap F).
    assert (XF : Permutation (map swap (map (fun p : point => ((p, false), (p, true))) (map fst F))) (map (fun p : point => swap ((p, false), (p, true))) (map snd F))).
    { rewrite OE, map_map. reflexivity. }
    rewrite XF. clear XF OE P FI.
    repeat match goal with |- context[map ?f ?l] => let x := fresh "X" in set (x := map f l); clearbody x end.
    rewrite <- !app_assoc. papp.
  - apply sym_app; [apply sym_both|]. apply sym_app; [apply sym_both|]. apply sym_app; [|apply sym_app; apply sym_both].
    apply sym_app; unfold sym; rewrite <- swap_at; apply Permutation_map; exact FI.
Qed.
