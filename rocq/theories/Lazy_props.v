(** C08: lazy 2D boolean evaluation has the semantics of the CSG tree. *)
From Coq Require Import List NArith Arith Bool Lia.
From Verif Require Import Bitmap_model Bitmap_spec Lazy_model Lazy_spec Lazy_proofs.
Import ListNotations.

(** With empty-polygon skipping switched on (the default), flattening a layer fails no assertion and
    its result is the CSG tree's point set, for each limit of simultaneously processed
    polygons. *)
Theorem C08_flatten_layer_skip_empty :
  forall (region sweep point : Type) region_in sweep_in region_void run_sweep sweep_empty,
  sweep_correct region sweep point region_in sweep_in run_sweep ->
  empty_correct sweep point sweep_in sweep_empty ->
  void_correct region point region_in region_void ->
  forall opt zi a,
  2 <= max_simultaneous opt -> skip_empty opt = true -> csg_ok region zi a = true ->
  exists r, flatten_layer region sweep region_void run_sweep sweep_empty opt zi a = Some r /\
            forall p, result_in sweep point sweep_in r p = csg_in region point region_in zi p a.
Proof. exact flatten_layer_ok. Qed.

(** The same for the entry point used for 2D objects inside of 3D trees. *)
Theorem C08_csg2_flatten_skip_empty :
  forall (region sweep point : Type) region_in sweep_in region_void run_sweep sweep_empty,
  sweep_correct region sweep point region_in sweep_in run_sweep ->
  empty_correct sweep point sweep_in sweep_empty ->
  void_correct region point region_in region_void ->
  forall opt root m,
  m <> MODE_VLINE2 ->
  2 <= max_simultaneous opt -> skip_empty opt = true -> forallb (csg_ok region 0) root = true ->
  exists r, csg2_flatten region sweep region_void run_sweep sweep_empty opt root m = Some r /\
            forall p, result_in sweep point sweep_in r p = existsb (csg_in region point region_in 0 p) root.
Proof. exact csg2_flatten_ok. Qed.

(** With any optimisation setting: the set of polygons and the table collected, before the last
    materialisation, denote the tree, and no assertion fails until there. *)
Theorem C08_lazy_structure_partial :
  forall (region sweep point : Type) region_in sweep_in region_void run_sweep sweep_empty,
  sweep_correct region sweep point region_in sweep_in run_sweep ->
  empty_correct sweep point sweep_in sweep_empty ->
  void_correct region point region_in region_void ->
  forall opt zi a,
  2 <= max_simultaneous opt -> csg_ok region zi a = true ->
  exists l, flatten_rec region sweep region_void run_sweep sweep_empty opt zi a = Some l /\
    length (data _ _ l) <= max_lazy /\
    forall p, bitmap_get (comb _ _ l)
                (mask_index (map (fun i => item_in region sweep point region_in sweep_in i p) (data _ _ l)))
              = csg_in region point region_in zi p a.
Proof. exact lazy_structure_ok. Qed.

(** *** A concrete plane with four points *)
Definition pt := (bool * bool)%type.
Definition reg := pt -> bool.
Definition reg_empty (s : reg) : bool :=
  negb (s (false, false) || s (false, true) || s (true, false) || s (true, true)).
Definition reg_in (s : reg) (p : pt) : bool := s p.
Definition reg_run (items : list (item reg reg)) (t : nat -> bool) : reg :=
  fun p => t (mask_index (map (fun i => item_in reg reg pt reg_in reg_in i p) items)).

Lemma reg_run_ok : sweep_correct reg reg pt reg_in reg_in reg_run.
Proof. intros items t p. reflexivity. Qed.

Lemma reg_empty_ok : empty_correct reg pt reg_in reg_empty.
Proof.
  intros s E [a b]. unfold reg_empty, reg_in in *.
  destruct (s (false, false)) eqn:?, (s (false, true)) eqn:?, (s (true, false)) eqn:?,
           (s (true, true)) eqn:?; try discriminate.
  destruct a, b; assumption.
Qed.

Definition only (a b : bool) : reg := fun p => Bool.eqb (fst p) a && Bool.eqb (snd p) b.

(** (p0 CUT p1) SUB (p2 ADD p3), where p0 and p1 do not overlap *)
Definition bad_tree : csg reg :=
  CSub reg [CCut reg [[CPoly reg (only false false)]; [CPoly reg (only false true)]]]
           [CPoly reg (only true false); CPoly reg (only true true)].

(** With skipping switched off, the statement is false: the difference above is empty, but the result
    is the subtracted part.  (A result materialised to one polygon is returned without looking at
    its table, csg2-bool.c 89-92.) *)
Theorem C08_no_skip_empty_refuted :
  ~ (forall (region sweep point : Type) region_in sweep_in region_void run_sweep sweep_empty,
     sweep_correct region sweep point region_in sweep_in run_sweep ->
     empty_correct sweep point sweep_in sweep_empty ->
     void_correct region point region_in region_void ->
     forall opt zi a,
     2 <= max_simultaneous opt -> csg_ok region zi a = true ->
     exists r, flatten_layer region sweep region_void run_sweep sweep_empty opt zi a = Some r /\
               forall p, result_in sweep point sweep_in r p = csg_in region point region_in zi p a).
Proof.
  intros H.
  destruct (H reg reg pt reg_in reg_in reg_empty reg_run reg_empty
              reg_run_ok reg_empty_ok reg_empty_ok (mk_opt 2 false) 0 bad_tree)
    as (r & E & P); [cbn; lia|reflexivity|].
  vm_compute in E. injection E as <-. specialize (P (true, false)). vm_compute in P. discriminate.
Qed.

(** a stack of two layers; layer 8 is ((a ADD b) XOR (b ADD c)) SUB (a CUT (a ADD d)) ADD d *)
Definition good_tree : csg reg :=
  CStack reg 7
    [ (7, None);
      (8, Some [ CSub reg [CXor reg [[CVline2 reg (only true true); CVline2 reg (only true false)];
                                     [CVline2 reg (only true false); CPoly reg (only false true)]]]
                          [CCut reg [[CVline2 reg (only true true)];
                                     [CVline2 reg (only true true); CVline2 reg (only false false)]]];
                 CVline2 reg (only false false) ]) ].

Example C08_nontrivial :
  sweep_correct reg reg pt reg_in reg_in reg_run /\
  empty_correct reg pt reg_in reg_empty /\
  csg_ok reg 8 good_tree = true /\
  (forall n, In n [2; 3; 4; 10; 100] ->
    match flatten_layer reg reg reg_empty reg_run reg_empty (mk_opt n true) 8 good_tree with
    | Some (Some s) => map (result_in reg pt reg_in (Some s))
                           [(false,false); (false,true); (true,false); (true,true)]
                       = [true; true; false; false]
    | _ => False
    end).
Proof.
  split; [exact reg_run_ok|]. split; [exact reg_empty_ok|]. split; [reflexivity|].
  intros n Hn. cbn [In] in Hn.
  repeat (destruct Hn as [<-|Hn]; [vm_compute; reflexivity|]). destruct Hn.
Qed.

Print Assumptions C08_flatten_layer_skip_empty.
Print Assumptions C08_csg2_flatten_skip_empty.
Print Assumptions C08_lazy_structure_partial.
Print Assumptions C08_no_skip_empty_refuted.
