(** C61: the path data of SVG files. *)
From Coq Require Import ZArith QArith List Bool Lia ZifyBool String Ascii.
From Verif Require Import Svgpath_model Svgpath_spec Svgpath_proofs Svgpath_proofs2 Svgpath_proofs3.
Import ListNotations.
Local Open Scope Z_scope.

(** Exactly the texts of the grammar are read to their end: no arcs, and numbers without a sign
    in the exponent. *)
Theorem C61_accepted_partial : forall (D : Type) (dzero : D) (dadd dmir : D -> D -> D) (deq : D -> D -> bool)
    (quad_in : point D -> point D -> point D -> list (point D))
    (cub_in : point D -> point D -> point D -> point D -> list (point D))
    (strtod : byte_text -> D * nat) (val : byte_text -> D) (t : byte_text),
  strtod_reads D val strtod ->
  (exists q r, parse_path D dzero dadd dmir deq quad_in cub_in strtod t = Done D q r) <->
  (exists cs, path_text D val false cs t).
Proof.
  intros D dzero dadd dmir deq quad_in cub_in strtod val t ST. split.
  - intros (q & r & H). destruct (path_sound D dzero dadd dmir deq quad_in cub_in strtod val ST _ _ _ _ _ H) as (_ & cs & P & _). eauto.
  - intros (cs & P). eexists. eexists. apply (path_complete D dzero dadd dmir deq quad_in cub_in strtod val ST cs t P). lia.
Qed.

(** The points of such a text are those of the subpaths that it draws, in order, each with the number
    of its subpath and its number in there; without any subpath, an assertion fails. *)
Theorem C61_points_partial : forall (D : Type) (dzero : D) (dadd dmir : D -> D -> D) (deq : D -> D -> bool)
    (quad_in : point D -> point D -> point D -> list (point D))
    (cub_in : point D -> point D -> point D -> point D -> list (point D))
    (strtod : byte_text -> D * nat) (val : byte_text -> D) (t : byte_text) (cs : list (cmd D)),
  strtod_reads D val strtod ->
  path_text D val false cs t ->
  fine D dadd dmir deq quad_in cub_in (pen0 D dzero) cs ->
  from_path D dzero dadd dmir deq quad_in cub_in strtod t =
  Some match drawing D dzero dadd dmir deq quad_in cub_in cs with
       | [] => None
       | ls => Some (number_paths D 0 ls)
       end.
Proof.
  intros D dzero dadd dmir deq quad_in cub_in strtod val t cs ST P F. unfold from_path, parse_path.
  rewrite (path_complete D dzero dadd dmir deq quad_in cub_in strtod val ST cs t P) by lia.
  rewrite (fini_run D dzero dadd dmir deq quad_in cub_in cs F). reflexivity.
Qed.

(** Reading ends for every text. *)
Theorem C61_terminates : forall (D : Type) (dzero : D) (dadd dmir : D -> D -> D) (deq : D -> D -> bool)
    (quad_in : point D -> point D -> point D -> list (point D))
    (cub_in : point D -> point D -> point D -> point D -> list (point D))
    (strtod : byte_text -> D * nat) (t : byte_text),
  parse_path D dzero dadd dmir deq quad_in cub_in strtod t <> NoFuel D.
Proof. intros. apply path_fuel. lia. Qed.

(** * A concrete instance: exact rational numbers *)
Fixpoint qmant (dot : bool) (m sc : Z) (t : byte_text) : Z * Z * byte_text :=
  match t with
  | [] => (m, sc, [])
  | c :: r => if (48 <=? c) && (c <=? 57) then qmant dot (10 * m + (c - 48)) (if dot then sc - 1 else sc) r
              else if c =? 46 then qmant true m sc r else (m, sc, t)
  end.
Definition sgn (w : byte_text) (n : Z) : Z := if hd 0 w =? 45 then - n else n.
Definition qval (w : byte_text) : Q :=
  let '(m, sc, r) := qmant false 0 0 (skip_sign w) in
  let e := match r with [] => 0 | _ :: r => sgn r (fst (fst (qmant false 0 0 (skip_sign r)))) end in
  Qred (inject_Z (sgn w m) * Qpower (inject_Z 10) (sc + e)).

(** the text behind the longest number, and strtod *)
Definition scan (t : byte_text) : byte_text :=
  let s := snd (mant false false (skip_sign t)) in
  if (hd 0 s =? 101) || (hd 0 s =? 69) then
    let '(h, t') := exp_digits false (skip_sign (tl s)) in if h then t' else s
  else s.
Definition qstrtod (t : byte_text) : Q * nat :=
  let n := (List.length t - List.length (scan t))%nat in (qval (firstn n t), n).

Lemma scan_ok w t : num true w -> ends w t -> scan (w ++ t) = t.
Proof.
  intros (sg & m & e & S & M & E & ->) EN. unfold scan.
  assert (SK : skip_sign ((sg ++ m ++ e) ++ t) = m ++ e ++ t).
  { rewrite <- !app_assoc. destruct (mant_start m M) as (c & r & -> & C).
    destruct S as [ -> | [ -> | -> ]]; try reflexivity. cbn.
    replace ((c =? 45) || (c =? 43)) with false by (unfold digit in C; lia). reflexivity. }
  rewrite SK. clear SK.
  assert (MS : forall x, mantissa m -> In x m -> digit x \/ x = 46).
  { intros x [ds F N|a b FA FB N] I.
    - unfold digits in F. rewrite Forall_forall in F. auto.
    - unfold digits in FA, FB. rewrite Forall_forall in FA, FB. apply in_app_or in I as [I|[I|I]]; auto. }
  destruct E as [|c s ds C SG F N].
  - cbn [app]. rewrite app_nil_r in EN. rewrite mant_ok; [|assumption|].
    + cbn [snd]. destruct t as [|c t]; [reflexivity|]. destruct EN as (_ & _ & N1 & N2 & _). cbn [hd].
      replace ((c =? 101) || (c =? 69)) with false by lia. reflexivity.
    + destruct t as [|c t]; [exact I|]. destruct EN as (N1 & N2 & _). split; [assumption|]. intros ->.
      specialize (N2 eq_refl). rewrite !in_app_iff in N2.
      assert (H101 : ~ (In 101 m \/ In 69 m)) by (intros [H|H]; apply MS in H; unfold digit in H; try assumption; lia).
      assert (HS : ~ (In 46 sg \/ In 101 sg \/ In 69 sg)).
      { destruct S as [ -> | [ -> | -> ]]; cbn; lia. }
      tauto.
  - cbn [app]. rewrite mant_ok; [|assumption|unfold digit; split; lia].
    cbn [snd hd tl]. replace ((c =? 101) || (c =? 69)) with true by lia.
    assert (SK : skip_sign ((s ++ ds) ++ t) = ds ++ t).
    { rewrite <- app_assoc. destruct F as [|x ds X F]; [congruence|].
      destruct SG as [ -> | [_ [ -> | -> ]]]; try reflexivity. cbn.
      replace ((x =? 45) || (x =? 43)) with false by (unfold digit in X; lia). reflexivity. }
    rewrite SK, exp_ok; [|assumption|].
    + rewrite len_nz by assumption. reflexivity.
    + destruct t as [|x t]; cbn; [unfold digit; lia|]. apply EN.
Qed.

Lemma qstrtod_reads : strtod_reads Q qval qstrtod.
Proof.
  intros w r N E. unfold qstrtod. rewrite (scan_ok w r N E).
  replace (List.length (w ++ r) - List.length r)%nat with (List.length w) by (rewrite app_length; lia).
  rewrite firstn_app, firstn_all, Nat.sub_diag. cbn. now rewrite app_nil_r.
Qed.

Definition qadd (a b : Q) : Q := Qred (a + b).
Definition qmir (c k : Q) : Q := Qred (c + c - k).
(** one inner point: the one at t = 1/2 *)
Definition qmid (l : list (Q * Q)) (k : Q) : Q * Q :=
  (Qred (fold_right (fun p s => (fst p + s)%Q) 0%Q l / k), Qred (fold_right (fun p s => (snd p + s)%Q) 0%Q l / k)).
Definition qquad (a b c : Q * Q) : list (Q * Q) := [qmid [a; b; b; c] (inject_Z 4)].
Definition qcub (a b c d : Q * Q) : list (Q * Q) := [qmid [a; b; b; b; c; c; c; d] (inject_Z 8)].
Definition qfrom := from_path Q 0%Q qadd qmir Qeq_bool qquad qcub qstrtod.
Definition qdrawing := drawing Q 0%Q qadd qmir Qeq_bool qquad qcub.
Definition qfine := fine Q qadd qmir Qeq_bool qquad qcub (pen0 Q 0%Q).

Definition txt (s : string) : byte_text := map (fun c => Z.of_nat (nat_of_ascii c)) (list_ascii_of_string s).
Definition q (n : Z) : Q := inject_Z n.

(** tactics for the grammar *)
Ltac list_sp := first [left; repeat (constructor; [unfold space; lia|]); constructor].
Ltac is_sp := repeat (constructor; [unfold space; lia|]); constructor.

Definition ex_text : byte_text := txt "M1 2l3,4 .5-6e0z q2 4 4 0t2 0 Z".
Definition ex_cmds : list (cmd Q) :=
  [Move Q false (q 1, q 2); Line Q true (q 3, q 4); Line Q true (1 # 2, q (-6))%Q; Close Q;
   Quad Q true (q 2, q 4) (q 4, q 0); SQuad Q true (q 2, q 0); Close Q].

Lemma num_intro s m e : (s = [] \/ s = [43] \/ s = [45]) -> mantissa m -> expo false e -> num false (s ++ m ++ e).
Proof. intros. exists s, m, e. auto. Qed.

Ltac dg := repeat (constructor; [unfold digit; lia|]); constructor.

(** a number as prefix *)
Lemma nums_one (b : bool) vs sp w t r v : v = qval w -> sep b sp -> num false w -> ends w t -> nums Q qval false true vs t r ->
  nums Q qval false b (v :: vs) (sp ++ w ++ t) r.
Proof. intros ->. apply nums_cons. Qed.

Ltac nint sg ds := apply (num_intro sg ds []); [auto|apply m_int; [dg|discriminate]|constructor].

Lemma ex_is_path : path_text Q qval false ex_cmds ex_text.
Proof.
  change ex_cmds with ([Move Q false (q 1, q 2)] ++ [Line Q true (q 3, q 4); Line Q true (1 # 2, q (-6))%Q] ++
    Close Q :: [Quad Q true (q 2, q 4) (q 4, q 0)] ++ [SQuad Q true (q 2, q 0)] ++ [Close Q]).
  unfold ex_text.
  apply (pt_group Q qval false [] 77 [q 1; q 2] (txt "1 2l3,4 .5-6e0z q2 4 4 0t2 0 Z") (txt "l3,4 .5-6e0z q2 4 4 0t2 0 Z")); [constructor| |reflexivity|].
  { apply (nums_one false _ [] [49] (txt " 2l3,4 .5-6e0z q2 4 4 0t2 0 Z")); [reflexivity|list_sp|nint (@nil Z) [49]|cbn; unfold digit; lia|].
    apply (nums_one true _ [32] [50] (txt "l3,4 .5-6e0z q2 4 4 0t2 0 Z")); [reflexivity|list_sp|nint (@nil Z) [50]|cbn; unfold digit; lia|]. constructor. }
  apply (pt_group Q qval false [] 108 [q 3; q 4; (1 # 2)%Q; q (-6)] (txt "3,4 .5-6e0z q2 4 4 0t2 0 Z") (txt "z q2 4 4 0t2 0 Z")); [constructor| |reflexivity|].
  { apply (nums_one false _ [] [51] (txt ",4 .5-6e0z q2 4 4 0t2 0 Z")); [reflexivity|list_sp|nint (@nil Z) [51]|cbn; unfold digit; lia|].
    apply (nums_one true _ [44] [52] (txt " .5-6e0z q2 4 4 0t2 0 Z")); [reflexivity| |nint (@nil Z) [52]|cbn; unfold digit; lia|].
    { right. split; [reflexivity|]. exists [], []. repeat split; constructor. }
    apply (nums_one true _ [32] [46; 53] (txt "-6e0z q2 4 4 0t2 0 Z")); [reflexivity|list_sp| |cbn; unfold digit; lia|].
    { apply (num_intro [] [46; 53] []); [auto|apply (m_dot [] [53]); [constructor|dg|discriminate]|constructor]. }
    apply (nums_one true _ [] [45; 54; 101; 48] (txt "z q2 4 4 0t2 0 Z")); [reflexivity|list_sp| |cbn; unfold digit; lia|constructor].
    apply (num_intro [45] [54] [101; 48]); [auto|apply m_int; [dg|discriminate]|].
    apply (e_some false 101 [] [48]); [auto|auto|dg|discriminate]. }
  apply (pt_close Q qval false [] 122 (txt " q2 4 4 0t2 0 Z")); [constructor|auto|].
  apply (pt_group Q qval false [32] 113 [q 2; q 4; q 4; q 0] (txt "2 4 4 0t2 0 Z") (txt "t2 0 Z")); [is_sp| |reflexivity|].
  { apply (nums_one false _ [] [50] (txt " 4 4 0t2 0 Z")); [reflexivity|list_sp|nint (@nil Z) [50]|cbn; unfold digit; lia|].
    apply (nums_one true _ [32] [52] (txt " 4 0t2 0 Z")); [reflexivity|list_sp|nint (@nil Z) [52]|cbn; unfold digit; lia|].
    apply (nums_one true _ [32] [52] (txt " 0t2 0 Z")); [reflexivity|list_sp|nint (@nil Z) [52]|cbn; unfold digit; lia|].
    apply (nums_one true _ [32] [48] (txt "t2 0 Z")); [reflexivity|list_sp|nint (@nil Z) [48]|cbn; unfold digit; lia|]. constructor. }
  apply (pt_group Q qval false [] 116 [q 2; q 0] (txt "2 0 Z") (txt " Z")); [constructor| |reflexivity|].
  { apply (nums_one false _ [] [50] (txt " 0 Z")); [reflexivity|list_sp|nint (@nil Z) [50]|cbn; unfold digit; lia|].
    apply (nums_one true _ [32] [48] (txt " Z")); [reflexivity|list_sp|nint (@nil Z) [48]|cbn; unfold digit; lia|]. constructor. }
  apply (pt_close Q qval false [32] 90 []); [is_sp|auto|]. constructor. constructor.
Qed.

Example C61_example :
  path_text Q qval false ex_cmds ex_text /\ qfine ex_cmds /\
  qdrawing ex_cmds =
    [[(q 1, q 2); (q 4, q 6); (9 # 2, q 0)]%Q;
     [(q 1, q 2); (q 3, q 4); (q 5, q 2); (13 # 2, q 0); (q 7, q 2)]]%Q /\
  qfrom ex_text = Some (Some (number_paths Q 0 (qdrawing ex_cmds))).
Proof.
  split; [exact ex_is_path|]. split; [|split; vm_compute; reflexivity].
  cbn. repeat split; try discriminate; intros; exact I.
Qed.

(** A sign in the exponent is not understood, although the code means to: 1e-1 is a number, but it ends
    the path. *)
Theorem C61_signed_exponent_refuted :
  ~ (forall (t : byte_text) (cs : list (cmd Q)), path_text Q qval true cs t ->
       exists q r, parse_path Q 0%Q qadd qmir Qeq_bool qquad qcub qstrtod t = Done Q q r).
Proof.
  intros H. destruct (H (txt "h1e-1") [Horiz Q true (1 # 10)%Q]) as (s & r & E); [|vm_compute in E; discriminate E].
  apply (pt_group Q qval true [] 104 [(1 # 10)%Q] (txt "1e-1") [] [Horiz Q true (1 # 10)%Q] []); [constructor| |reflexivity|constructor; constructor].
  assert (V : (1 # 10)%Q = qval (txt "1e-1")) by reflexivity. rewrite V.
  apply (nums_cons Q qval true false [] [] (txt "1e-1") [] []); [list_sp| |exact I|constructor].
  exists [], [49], [101; 45; 49]. split; [auto|]. split; [apply m_int; [dg|discriminate]|]. split; [|reflexivity].
  apply (e_some true 101 [45] [49]); [auto|auto|dg|discriminate].
Qed.

(** Closing a subpath that has no line yet goes to the start of the one before. *)
Theorem C61_close_after_move_refuted :
  ~ (forall (t : byte_text) (cs : list (cmd Q)), path_text Q qval false cs t ->
       qfrom t = Some match qdrawing cs with [] => None | ls => Some (number_paths Q 0 ls) end).
Proof.
  intros H.
  assert (P : path_text Q qval false [Move Q false (q 5, q 5); Close Q; Horiz Q true (q 1)] (txt "M5 5zh1")).
  { apply (pt_group Q qval false [] 77 [q 5; q 5] (txt "5 5zh1") (txt "zh1") [Move Q false (q 5, q 5)]); [constructor| |reflexivity|].
    { apply (nums_one false _ [] [53] (txt " 5zh1")); [reflexivity|list_sp|nint (@nil Z) [53]|cbn; unfold digit; lia|].
      apply (nums_one true _ [32] [53] (txt "zh1")); [reflexivity|list_sp|nint (@nil Z) [53]|cbn; unfold digit; lia|]. constructor. }
    apply (pt_close Q qval false [] 122 (txt "h1")); [constructor|auto|].
    apply (pt_group Q qval false [] 104 [q 1] [49] [] [Horiz Q true (q 1)] []); [constructor| |reflexivity|constructor; constructor].
    apply (nums_one false [] [] [49] []); [reflexivity|list_sp|nint (@nil Z) [49]|exact I|constructor]. }
  specialize (H _ _ P). vm_compute in H. discriminate H.
Qed.

(** A line that goes nowhere does not end a curve: the smooth curve behind it is bent like the one before. *)
Theorem C61_stale_control_refuted :
  ~ (forall (t : byte_text) (cs : list (cmd Q)), path_text Q qval false cs t ->
       (forall c, In c cs -> c <> Close Q) ->
       qfrom t = Some match qdrawing cs with [] => None | ls => Some (number_paths Q 0 ls) end).
Proof.
  intros H.
  assert (P : path_text Q qval false [Quad Q true (q 2, q 4) (q 4, q 0); Horiz Q true (q 0); SQuad Q true (q 2, q 0)] (txt "q2 4 4 0h0t2 0")).
  { apply (pt_group Q qval false [] 113 [q 2; q 4; q 4; q 0] (txt "2 4 4 0h0t2 0") (txt "h0t2 0") [Quad Q true (q 2, q 4) (q 4, q 0)]); [constructor| |reflexivity|].
    { apply (nums_one false _ [] [50] (txt " 4 4 0h0t2 0")); [reflexivity|list_sp|nint (@nil Z) [50]|cbn; unfold digit; lia|].
      apply (nums_one true _ [32] [52] (txt " 4 0h0t2 0")); [reflexivity|list_sp|nint (@nil Z) [52]|cbn; unfold digit; lia|].
      apply (nums_one true _ [32] [52] (txt " 0h0t2 0")); [reflexivity|list_sp|nint (@nil Z) [52]|cbn; unfold digit; lia|].
      apply (nums_one true _ [32] [48] (txt "h0t2 0")); [reflexivity|list_sp|nint (@nil Z) [48]|cbn; unfold digit; lia|]. constructor. }
    apply (pt_group Q qval false [] 104 [q 0] (txt "0t2 0") (txt "t2 0") [Horiz Q true (q 0)]); [constructor| |reflexivity|].
    { apply (nums_one false [] [] [48] (txt "t2 0")); [reflexivity|list_sp|nint (@nil Z) [48]|cbn; unfold digit; lia|constructor]. }
    apply (pt_group Q qval false [] 116 [q 2; q 0] (txt "2 0") [] [SQuad Q true (q 2, q 0)] []); [constructor| |reflexivity|constructor; constructor].
    apply (nums_one false _ [] [50] (txt " 0")); [reflexivity|list_sp|nint (@nil Z) [50]|cbn; unfold digit; lia|].
    apply (nums_one true _ [32] [48] []); [reflexivity|list_sp|nint (@nil Z) [48]|exact I|]. constructor. }
  assert (N : forall c, In c [Quad Q true (q 2, q 4) (q 4, q 0); Horiz Q true (q 0); SQuad Q true (q 2, q 0)] -> c <> Close Q).
  { intros c [<-|[<-|[<-|[]]]]; discriminate. }
  specialize (H _ _ P N). vm_compute in H. discriminate H.
Qed.

(** Path data that draws nothing makes an assertion fail; even the empty text, which is valid. *)
Theorem C61_nothing_drawn_refuted :
  ~ (forall (t : byte_text) (cs : list (cmd Q)), path_text Q qval false cs t -> qfrom t <> Some None).
Proof. intros H. apply (H [] []); [constructor; constructor|]. vm_compute. reflexivity. Qed.

Print Assumptions C61_accepted_partial.
Print Assumptions C61_points_partial.
Print Assumptions C61_terminates.
Print Assumptions C61_signed_exponent_refuted.
Print Assumptions C61_close_after_move_refuted.
Print Assumptions C61_stale_control_refuted.
Print Assumptions C61_nothing_drawn_refuted.
