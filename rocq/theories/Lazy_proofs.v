From Coq Require Import List NArith Arith Bool Lia.
From Verif Require Import Bitmap_model Bitmap_spec Bitmap_proofs Lazy_model Lazy_spec.
Import ListNotations.

Section Proofs.

Variables region sweep point : Type.
Variable region_in : region -> point -> bool.
Variable sweep_in : sweep -> point -> bool.
Variable region_void : region -> bool.
Variable run_sweep : list (item region sweep) -> (nat -> bool) -> sweep.
Variable sweep_empty : sweep -> bool.
Hypothesis run_ok : sweep_correct region sweep point region_in sweep_in run_sweep.
Hypothesis empty_ok : empty_correct sweep point sweep_in sweep_empty.
Hypothesis void_ok : void_correct region point region_in region_void.

Notation lazy := (lazy region sweep).
Notation csg := (csg region).
Notation item_in := (item_in region sweep point region_in sweep_in).
Notation csg_in := (csg_in region point region_in).
Notation flatten_eager := (flatten_eager region sweep run_sweep sweep_empty).
Notation flatten_lazy := (flatten_lazy region sweep run_sweep sweep_empty).
Notation flatten_rec := (flatten_rec region sweep region_void run_sweep sweep_empty).
Notation lazy0 := (lazy0 region sweep).

(** A point's value of a lazy structure *)
Definition ldata_mask (l : lazy) (p : point) : list bool :=
  map (fun i => item_in i p) (data _ _ l).

Definition lazy_in (l : lazy) (p : point) : bool :=
  bitmap_get (comb _ _ l) (mask_index (ldata_mask l p)).

(** [se]: skip_empty is on *)
Record inv (se : bool) (l : lazy) (f : point -> bool) : Prop := mk_inv {
  inv_wf : wf (comb _ _ l);
  inv_size : length (data _ _ l) <= max_lazy;
  inv_zero : bitmap_get (comb _ _ l) 0 = false;
  inv_in : forall p, lazy_in l p = f p;
  inv_one : se = true -> length (data _ _ l) = 1 -> bitmap_get (comb _ _ l) 1 = true;
}.

Lemma two_wf m : wf m -> wf (upd m 0 2%N).
Proof. intros W k. unfold upd. destruct (k =? 0); [lia|apply W]. Qed.

Lemma zero_wf : wf zero_mem.
Proof. intros k. cbv. reflexivity. Qed.

Lemma inv_lazy0 se : inv se lazy0 (fun _ => false).
Proof.
  constructor; cbn; try reflexivity; try lia.
  apply zero_wf.
Qed.

Lemma inv_ext se l f g : inv se l f -> (forall p, f p = g p) -> inv se l g.
Proof. intros [A B C D E] H. constructor; auto. intros p. now rewrite D. Qed.

Lemma inv_single se i m : wf m ->
  inv se (mk_lazy _ _ [i] (upd m 0 2%N)) (item_in i).
Proof.
  intros W. constructor; cbn [data comb length].
  - now apply two_wf.
  - cbv. lia.
  - now rewrite get_upd0 by lia.
  - intros p. unfold lazy_in, ldata_mask. cbn [data comb map].
    destruct (item_in i p); cbn [mask_index]; now rewrite get_upd0 by lia.
  - intros _ _. now rewrite get_upd0 by lia.
Qed.

(** all-false mask *)
Lemma mask_index_false n : mask_index (repeat false n) = 0.
Proof. induction n as [|n IH]; cbn [repeat mask_index]; [reflexivity|]. rewrite IH. reflexivity. Qed.

Lemma eager_inv se l m f : inv se l f ->
  inv se (flatten_eager l m) f /\ length (data _ _ (flatten_eager l m)) <= 1.
Proof.
  intros I.
  assert (GO : forall d, data _ _ l = d ->
    let r := (if sweep_empty (run_sweep d (bitmap_get (comb _ _ l)))
       then mk_lazy _ _ [] (comb _ _ l)
       else mk_lazy _ _ [ISweep _ _ (run_sweep d (bitmap_get (comb _ _ l)))] (upd (comb _ _ l) 0 2%N)) in
    inv se r f /\ length (data _ _ r) <= 1).
  { intros d <-. cbv zeta.
    assert (S : forall p, sweep_in (run_sweep (data _ _ l) (bitmap_get (comb _ _ l))) p = f p).
    { intros p. rewrite run_ok. apply (inv_in _ _ _ I p). }
    destruct (sweep_empty _) eqn:E.
    - split; [|cbn; lia]. constructor; cbn [data comb length].
      + apply I.
      + lia.
      + apply I.
      + intros p. unfold lazy_in, ldata_mask. cbn. rewrite <- S.
        rewrite (empty_ok _ E). apply I.
      + discriminate.
    - split; [|cbn; lia]. eapply inv_ext; [apply inv_single, I|]. intros p. cbn. apply S. }
  unfold flatten_eager. specialize (GO _ eq_refl). cbv zeta in GO.
  destruct (data region sweep l) as [|i [|j d]] eqn:D.
  - split; [exact I|]. rewrite D. cbn. lia.
  - destruct i; [destruct m| |]; try exact GO; (split; [exact I|rewrite D; cbn; lia]).
  - destruct i; exact GO.
Qed.

Lemma append_inv se a b op f g :
  inv se a f -> inv se b g ->
  lsize _ _ a + lsize _ _ b <= max_lazy ->
  (se = true -> 0 < lsize _ _ a /\ 0 < lsize _ _ b) ->
  exists l, lazy_append region sweep a b op = Some l /\ inv se l (fun p => op_bool op (f p) (g p)).
Proof.
  intros A B L NE. unfold lazy_append.
  destruct (Nat.leb_spec (lsize _ _ a + lsize _ _ b) max_lazy); [|lia]. cbn [negb].
  destruct (combine_tables (comb _ _ a) (comb _ _ b) (lsize _ _ a) (lsize _ _ b) op)
    as (rc & bc & -> & -> & W & G); [apply A|apply B|exact L|].
  eexists. split; [reflexivity|].
  constructor; cbn [data comb].
  - exact W.
  - rewrite app_length. exact L.
  - specialize (G (repeat false (lsize _ _ a)) (repeat false (lsize _ _ b))).
    rewrite !repeat_length, <- repeat_app, !mask_index_false in G.
    rewrite G by reflexivity.
    rewrite (inv_zero _ _ _ A), (inv_zero _ _ _ B). destruct op; reflexivity.
  - intros p. unfold lazy_in, ldata_mask. cbn [data comb]. rewrite map_app.
    rewrite G by apply map_length.
    f_equal; [apply (inv_in _ _ _ A p)|apply (inv_in _ _ _ B p)].
  - intros E. rewrite app_length. destruct (NE E). unfold lsize in *. lia.
Qed.

Lemma size0_false se l f : inv se l f -> lsize _ _ l = 0 -> forall p, f p = false.
Proof.
  intros I Z p. rewrite <- (inv_in _ _ _ I p). unfold lazy_in, ldata_mask.
  unfold lsize in Z. destruct (data _ _ l); [|discriminate]. cbn. apply I.
Qed.

Lemma loop_inv n opt : n <= 3 -> 2 <= max_simultaneous opt -> forall a b op f g,
  inv (skip_empty opt) a f -> inv (skip_empty opt) b g ->
  (n = 2 -> lsize _ _ a <= 1 \/ lsize _ _ b <= 1) ->
  (n = 1 -> lsize _ _ a <= 1 /\ lsize _ _ b <= 1) ->
  0 < n ->
  exists l, lazy_loop region sweep run_sweep sweep_empty n opt a b op = Some l /\
            inv (skip_empty opt) l (fun p => op_bool op (f p) (g p)).
Proof.
  intros N3 M2. induction n as [|n IH]; intros a b op f g A B H2 H1 P; [lia|].
  cbn [lazy_loop].
  destruct (skip_empty opt && (lsize _ _ b =? 0)) eqn:E1.
  { apply andb_true_iff in E1 as [SE Z]. apply Nat.eqb_eq in Z.
    pose proof (size0_false _ _ _ B Z) as BF.
    destruct op; eexists; (split; [reflexivity|]).
    - eapply inv_ext; [apply inv_lazy0|]. intros p. cbn. rewrite BF. now rewrite andb_false_r.
    - eapply inv_ext; [exact A|]. intros p. cbn. rewrite BF. now destruct (f p).
    - eapply inv_ext; [exact A|]. intros p. cbn. rewrite BF. now destruct (f p).
    - eapply inv_ext; [exact A|]. intros p. cbn. rewrite BF. now destruct (f p). }
  destruct (skip_empty opt && (lsize _ _ a =? 0)) eqn:E2.
  { apply andb_true_iff in E2 as [SE Z]. apply Nat.eqb_eq in Z.
    pose proof (size0_false _ _ _ A Z) as AF.
    destruct op; eexists; (split; [reflexivity|]).
    - eapply inv_ext; [exact A|]. intros p. cbn. now rewrite AF.
    - eapply inv_ext; [exact B|]. intros p. cbn. rewrite AF. now destruct (g p).
    - eapply inv_ext; [exact A|]. intros p. cbn. now rewrite AF.
    - eapply inv_ext; [exact B|]. intros p. cbn. now rewrite AF. }
  destruct (Nat.leb_spec (lsize _ _ a + lsize _ _ b) (Nat.min (max_simultaneous opt) max_lazy)) as [L|L].
  { apply append_inv; [exact A|exact B|lia|].
    intros SE. rewrite SE in *. cbn in E1, E2. apply Nat.eqb_neq in E1, E2. lia. }
  assert (M : 2 <= Nat.min (max_simultaneous opt) max_lazy) by (unfold max_lazy; lia).
  assert (N1 : n <> 0) by (intros ->; destruct (H1 eq_refl); lia).
  destruct (Nat.ltb_spec (3 - S n) 2); [|lia]. cbn [negb].
  assert (SZ : forall l, lsize region sweep l = length (data _ _ l)) by reflexivity.
  destruct (Nat.ltb_spec (lsize _ _ b) (lsize _ _ a)).
  - destruct (eager_inv _ _ MODE_VLINE2 _ A) as [A' S'].
    destruct (Nat.leb_spec (lsize _ _ (flatten_eager a MODE_VLINE2)) 1); [|rewrite SZ in *; lia].
    apply IH; [lia|exact A'|exact B|auto| |lia].
    intros ->. destruct (H2 eq_refl); lia.
  - destruct (eager_inv _ _ MODE_VLINE2 _ B) as [B' S'].
    destruct (Nat.leb_spec (lsize _ _ (flatten_eager b MODE_VLINE2)) 1); [|rewrite SZ in *; lia].
    apply IH; [lia|exact A|exact B'|auto| |lia].
    intros ->. destruct (H2 eq_refl); lia.
Qed.

Lemma flatten_lazy_inv opt a b op f g : 2 <= max_simultaneous opt ->
  inv (skip_empty opt) a f -> inv (skip_empty opt) b g ->
  exists l, flatten_lazy opt a b op = Some l /\
            inv (skip_empty opt) l (fun p => op_bool op (f p) (g p)).
Proof.
  intros M A B. unfold Lazy_model.flatten_lazy.
  destruct (Nat.leb_spec 2 (max_simultaneous opt)); [|lia]. cbn [negb].
  apply loop_inv; auto; lia.
Qed.

(** a list of operands *)
Definition opt_inv (opt : csg_opt) (l : option lazy) (f : point -> bool) : Prop :=
  exists x, l = Some x /\ inv (skip_empty opt) x f.

Lemma fold_lazy_inv opt op (M : 2 <= max_simultaneous opt) xs fs :
  Forall2 (opt_inv opt) xs fs -> forall o f,
  inv (skip_empty opt) o f ->
  opt_inv opt (fold_lazy _ _ run_sweep sweep_empty opt op o xs)
    (fun p => fold_left (op_bool op) (map (fun f => f p) fs) (f p)).
Proof.
  induction 1 as [|x f' xs fs (x0 & -> & X) _ IH]; intros o f O; cbn [fold_lazy map fold_left].
  - exists o. split; [reflexivity|exact O].
  - destruct (flatten_lazy_inv opt o x0 op f f' M O X) as (o' & -> & O').
    apply (IH o' _ O').
Qed.

Definition fold1 (op : bool_op) (bs : list bool) : bool :=
  match bs with [] => false | b :: bs' => fold_left (op_bool op) bs' b end.

Lemma fold_lazy1_inv opt op (M : 2 <= max_simultaneous opt) xs fs :
  Forall2 (opt_inv opt) xs fs ->
  opt_inv opt (fold_lazy1 _ _ run_sweep sweep_empty opt op xs)
    (fun p => fold1 op (map (fun f => f p) fs)).
Proof.
  intros H. destruct H as [|x f xs fs (x0 & -> & X) H]; cbn [fold_lazy1 fold1 map].
  - eexists. split; [reflexivity|]. apply inv_lazy0.
  - now apply fold_lazy_inv.
Qed.

Lemma fold1_add bs : fold1 OP_ADD bs = existsb (fun x => x) bs.
Proof.
  destruct bs as [|b bs]; [reflexivity|]. cbn [fold1 existsb].
  revert b. induction bs as [|c bs IH]; intros b; cbn [fold_left existsb].
  - now rewrite orb_false_r.
  - rewrite IH. cbn. now rewrite orb_assoc.
Qed.

Lemma fold1_xor bs : fold1 OP_XOR bs = fold_right xorb false bs.
Proof.
  destruct bs as [|b bs]; [reflexivity|]. cbn [fold1 fold_right].
  revert b. induction bs as [|c bs IH]; intros b; cbn [fold_left fold_right].
  - now destruct b.
  - rewrite IH. cbn. now rewrite xorb_assoc.
Qed.

Lemma fold1_cut b bs : fold1 OP_CUT (b :: bs) = forallb (fun x => x) (b :: bs).
Proof.
  cbn [fold1 forallb]. revert b. induction bs as [|c bs IH]; intros b; cbn [fold_left forallb].
  - now rewrite andb_true_r.
  - rewrite IH. cbn. now rewrite andb_assoc.
Qed.

Lemma existsb_map {A} (f : A -> bool) l : existsb (fun x => x) (map f l) = existsb f l.
Proof. induction l as [|a l IH]; cbn; [reflexivity|]. now rewrite IH. Qed.

Lemma forallb_map {A} (f : A -> bool) l : forallb (fun x => x) (map f l) = forallb f l.
Proof. induction l as [|a l IH]; cbn; [reflexivity|]. now rewrite IH. Qed.

(** induction principle for the nested tree type *)
Section Ind.
Variable P : csg -> Prop.
Definition Pl (l : list csg) := Forall P l.
Definition Po (l : nat * option (list csg)) : Prop := match snd l with None => True | Some r => Pl r end.
Hypothesis Hv : forall r, P (CVline2 _ r).
Hypothesis Hp : forall r, P (CPoly _ r).
Hypothesis Hs : forall i ls, Forall Po ls ->
                             P (CStack _ i ls).
Hypothesis Ha : forall l, Pl l -> P (CAdd _ l).
Hypothesis Hx : forall l, Forall Pl l -> P (CXor _ l).
Hypothesis Hb : forall l m, Pl l -> Pl m -> P (CSub _ l m).
Hypothesis Hc : forall l, Forall Pl l -> P (CCut _ l).

Fixpoint csg_ind' (a : csg) : P a :=
  let fix go (l : list csg) : Pl l :=
    match l with
    | [] => Forall_nil _
    | x :: l' => Forall_cons _ (csg_ind' x) (go l')
    end in
  let fix gos (l : list (list csg)) : Forall Pl l :=
    match l with
    | [] => Forall_nil _
    | x :: l' => Forall_cons _ (go x) (gos l')
    end in
  match a with
  | CVline2 _ r => Hv r
  | CPoly _ r => Hp r
  | CStack _ i ls =>
      Hs i ls ((fix gol (l : list (nat * option (list csg))) :
        Forall Po l :=
        match l with
        | [] => Forall_nil _
        | x :: l' =>
            @Forall_cons _ Po x l'
              (match x as x0 return Po x0 with
               | (_, None) => I
               | (_, Some r) => go r
               end) (gol l')
        end) ls)
  | CAdd _ l => Ha l (go l)
  | CXor _ l => Hx l (gos l)
  | CSub _ l m => Hb l m (go l) (go m)
  | CCut _ l => Hc l (gos l)
  end.
End Ind.

Lemma Forall2_map_map {A B C} (f : A -> B) (g : A -> C) (R : B -> C -> Prop) l :
  Forall (fun a => R (f a) (g a)) l -> Forall2 R (map f l) (map g l).
Proof. induction 1; cbn; constructor; auto. Qed.

Lemma opt_inv_ext opt l f g : opt_inv opt l f -> (forall p, f p = g p) -> opt_inv opt l g.
Proof. intros (x & E & I) H. exists x. split; [exact E|]. eapply inv_ext; eauto. Qed.

Lemma leaf_inv opt r i : (forall p, item_in i p = region_in r p) ->
  opt_inv opt (Some (flatten_lazy_leaf region sweep region_void r i)) (region_in r).
Proof.
  intros E. unfold flatten_lazy_leaf. destruct (region_void r) eqn:V.
  - eexists. split; [reflexivity|]. eapply inv_ext; [apply inv_lazy0|].
    intros p. symmetry. now apply void_ok.
  - eexists. split; [reflexivity|]. eapply inv_ext; [apply inv_single, zero_wf|exact E].
Qed.

Theorem flatten_rec_inv opt zi (M : 2 <= max_simultaneous opt) a :
  csg_ok region zi a = true ->
  opt_inv opt (flatten_rec opt zi a) (fun p => csg_in zi p a).
Proof.
  set (Pr := fun a => csg_ok region zi a = true -> opt_inv opt (flatten_rec opt zi a) (fun p => csg_in zi p a)).
  assert (ADD : forall l, Pl Pr l -> forallb (csg_ok region zi) l = true ->
    opt_inv opt (fold_lazy1 _ _ run_sweep sweep_empty opt OP_ADD (map (flatten_rec opt zi) l))
                (fun p => existsb (csg_in zi p) l)).
  { intros l F OK.
    eapply opt_inv_ext; [apply fold_lazy1_inv with (fs := map (fun a p => csg_in zi p a) l); [exact M|]|].
    - apply Forall2_map_map. rewrite forallb_forall in OK.
      unfold Pl in F. rewrite Forall_forall in *. intros x Hx. apply F; auto.
    - intros p. cbv beta. rewrite fold1_add, map_map, existsb_map. reflexivity. }
  assert (ADDS : forall op ls, Forall (Pl Pr) ls -> forallb (forallb (csg_ok region zi)) ls = true ->
    opt_inv opt (fold_lazy1 _ _ run_sweep sweep_empty opt op
                   (map (fun l => fold_lazy1 _ _ run_sweep sweep_empty opt OP_ADD (map (flatten_rec opt zi) l)) ls))
                (fun p => fold1 op (map (existsb (csg_in zi p)) ls))).
  { intros op ls F OK.
    eapply opt_inv_ext; [apply fold_lazy1_inv with (fs := map (fun l p => existsb (csg_in zi p) l) ls); [exact M|]|].
    - apply Forall2_map_map. rewrite forallb_forall in OK.
      rewrite Forall_forall in *. intros x Hx. apply ADD; auto.
    - intros p. cbv beta. rewrite map_map. reflexivity. }
  change (Pr a). induction a as [r|r|i ls F|l F|l F|l m F1 F2|l F] using csg_ind'; intros OK.
  - apply leaf_inv. reflexivity.
  - apply leaf_inv. reflexivity.
  - cbn [Lazy_model.flatten_rec Lazy_spec.csg_in csg_ok] in *.
    destruct (Nat.leb_spec i zi) as [L|L]; cbn [negb].
    2:{ eexists. split; [reflexivity|]. eapply inv_ext; [apply inv_lazy0|].
        intros p. cbv beta.  clear OK. now destruct (nth_error _ _). }
    rewrite nth_error_map in *.
    destruct (nth_error ls (zi - i)) as [[lzi o]|] eqn:N; cbn [option_map] in *.
    2:{ eexists. split; [reflexivity|]. eapply inv_ext; [apply inv_lazy0|].
        intros p. cbv beta. rewrite nth_error_map, N. reflexivity. }
    assert (EQ : forall p, match nth_error (map (fun l : nat * option (list csg) =>
                match l with
                | (_, None) => false
                | (lzi, Some root) => (lzi =? zi) && existsb (csg_in zi p) root
                end) ls) (zi - i) with Some b => true && b | None => false end =
            match o with None => false | Some root => (lzi =? zi) && existsb (csg_in zi p) root end).
    { intros p. rewrite nth_error_map, N. cbn. now destruct o. }
    destruct o as [root|].
    + apply andb_true_iff in OK as [OK1 OK2].
      destruct (Nat.eqb_spec zi lzi) as [->|NE]; cbn [negb].
      * eapply opt_inv_ext; [apply ADD; [|exact OK2]|].
        -- apply nth_error_In in N. rewrite Forall_forall in F. apply (F _ N).
        -- intros p. rewrite EQ, Nat.eqb_refl. reflexivity.
      * destruct (Nat.eqb_spec lzi 0).
        2:{ destruct (Nat.eqb_spec lzi zi); [congruence|discriminate]. }
        eexists. split; [reflexivity|]. eapply inv_ext; [apply inv_lazy0|].
        intros p. cbv beta. rewrite EQ. destruct (Nat.eqb_spec lzi zi); [congruence|reflexivity].
    + assert (X : (if negb (zi =? lzi) then if lzi =? 0 then Some lazy0 else None else Some lazy0) = Some lazy0).
      { destruct (Nat.eqb_spec zi lzi) as [|NE]; [reflexivity|]. cbn [negb].
        destruct (Nat.eqb_spec lzi 0); [reflexivity|].
        destruct (Nat.eqb_spec lzi zi); [congruence|discriminate]. }
      rewrite X. eexists. split; [reflexivity|]. eapply inv_ext; [apply inv_lazy0|].
      intros p. cbv beta. now rewrite EQ.
  - apply ADD; assumption.
  - eapply opt_inv_ext; [apply ADDS; assumption|]. intros p. cbv beta. now rewrite fold1_xor.
  - cbn [csg_ok] in OK. apply andb_true_iff in OK as [OK1 OK2].
    cbn [Lazy_model.flatten_rec Lazy_spec.csg_in].
    destruct (ADD l F1 OK1) as (x & -> & X). destruct (ADD m F2 OK2) as (y & -> & Y).
    destruct (flatten_lazy_inv opt x y OP_SUB _ _ M X Y) as (z & E & Z).
    exists z. split; [exact E|exact Z].
  - eapply opt_inv_ext; [apply ADDS; assumption|]. intros p. cbv beta.
    destruct l as [|x l]; [reflexivity|].
    cbn [map]. rewrite fold1_cut. cbn [Lazy_spec.csg_in forallb]. now rewrite forallb_map.
Qed.

Lemma flatten_result_ok opt m l f :
  m <> MODE_VLINE2 -> skip_empty opt = true -> opt_inv opt l f ->
  exists r, flatten_result _ _ run_sweep sweep_empty m l = Some r /\
            forall p, result_in sweep point sweep_in r p = f p.
Proof.
  intros NM SE (x & -> & X). unfold flatten_result. rewrite SE in X.
  destruct (eager_inv _ _ m _ X) as [Y S].
  set (y := flatten_eager x m) in *.
  destruct (data _ _ y) as [|i [|j d]] eqn:D.
  - exists None. split; [reflexivity|]. intros p. symmetry. eapply size0_false; [exact Y|].
    unfold lsize. now rewrite D.
  - assert (exists s, i = ISweep _ _ s) as [s ->].
    { unfold y, Lazy_model.flatten_eager in D.
      destruct (data _ _ x) as [|i0 [|j0 d0]] eqn:Dx.
      - rewrite Dx in D. discriminate.
      - destruct i0.
        + destruct m; [congruence| |];
          (destruct (sweep_empty _); cbn in D; [discriminate|injection D as <-; eauto]).
        + destruct (sweep_empty _); cbn in D; [discriminate|injection D as <-; eauto].
        + rewrite Dx in D. injection D as <-. eauto.
      - destruct i0; (destruct (sweep_empty _); cbn in D; [discriminate|injection D as <-; eauto]). }
    exists (Some s). split; [reflexivity|]. intros p. cbn.
    rewrite <- (inv_in _ _ _ Y p). unfold lazy_in, ldata_mask. rewrite D. cbn [map mask_index].
    change (item_in (ISweep _ _ s) p) with (sweep_in s p).
    pose proof (inv_one _ _ _ Y eq_refl ltac:(now rewrite D)) as O1.
    pose proof (inv_zero _ _ _ Y) as O0.
    destruct (sweep_in s p); symmetry; [exact O1|exact O0].
  - cbn in S. lia.
Qed.

Lemma flatten_layer_ok opt zi a :
  2 <= max_simultaneous opt -> skip_empty opt = true -> csg_ok region zi a = true ->
  exists r, flatten_layer _ _ region_void run_sweep sweep_empty opt zi a = Some r /\
            forall p, result_in sweep point sweep_in r p = csg_in zi p a.
Proof.
  intros M SE OK. apply flatten_result_ok with opt; [discriminate|exact SE|].
  now apply flatten_rec_inv.
Qed.

Lemma csg2_flatten_ok opt root m :
  m <> MODE_VLINE2 ->
  2 <= max_simultaneous opt -> skip_empty opt = true -> forallb (csg_ok region 0) root = true ->
  exists r, csg2_flatten _ _ region_void run_sweep sweep_empty opt root m = Some r /\
            forall p, result_in sweep point sweep_in r p = existsb (csg_in 0 p) root.
Proof.
  intros NM M SE OK.
  destruct root as [|x xs].
  { exists None. split; reflexivity. }
  assert (E : csg2_flatten _ _ region_void run_sweep sweep_empty opt (x :: xs) m =
    flatten_result _ _ run_sweep sweep_empty m
      (flatten_rec opt 0 (CAdd _ (x :: xs)))).
  { unfold csg2_flatten. destruct m; [congruence|reflexivity|reflexivity]. }
  rewrite E. apply flatten_result_ok with opt; [exact NM|exact SE|].
  apply (flatten_rec_inv opt 0 M (CAdd _ (x :: xs))). exact OK.
Qed.

(** any setting: the lazy structure built, before the last materialisation *)
Lemma lazy_structure_ok opt zi a :
  2 <= max_simultaneous opt -> csg_ok region zi a = true ->
  exists l, flatten_rec opt zi a = Some l /\
    length (data _ _ l) <= max_lazy /\
    forall p, bitmap_get (comb _ _ l) (mask_index (map (fun i => item_in i p) (data _ _ l)))
              = csg_in zi p a.
Proof.
  intros M OK. destruct (flatten_rec_inv opt zi M a OK) as (l & E & I).
  exists l. split; [exact E|]. split; [apply I|]. intros p. apply I.
Qed.

End Proofs.
