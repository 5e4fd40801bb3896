(** Files that the program writes. *)
From Coq Require Import ZArith Bool String List Lia ZifyBool.
From Verif Require Import Stl_model Stl_spec Stl_proofs Stl_proofs2 Stltext_model Stltext_spec Stltext_proofs Stltext_proofs2
  Stltext_proofs3 Stltext_proofs4 Stltext_proofs5.
Import ListNotations.
Local Open Scope Z_scope.

Section Write.
Variable normal : point3 -> point3 -> point3 -> option point3.
Variable zs : list (Z * Z * bool).
Variables zero one mone : Z.
Variable fmt : Z -> list Z.
Notation triangles root := (put_csg2 normal zs zero one mone collect [] 0 root).

Definition vtext_of (p : point3) : vtext := let '(x, y, z) := p in mk_vtext (fmt x) (fmt y) (fmt z).
Definition facet_of (t : tri3) : facet := mk_facet (vtext_of (t_n t)) (vtext_of (t_a t)) (vtext_of (t_b t)) (vtext_of (t_c t)).

(** a triangle without the last line break *)
Definition vec_txt (p : point3) : list Z := let '(x, y, z) := p in fmt x ++ [32] ++ fmt y ++ [32] ++ fmt z.
Definition tri_txt (t : tri3) : list Z :=
  chars "  facet normal " ++ vec_txt (t_n t) ++ nl ++ chars "    outer loop" ++ nl ++
  chars "      vertex " ++ vec_txt (t_a t) ++ nl ++ chars "      vertex " ++ vec_txt (t_b t) ++ nl ++
  chars "      vertex " ++ vec_txt (t_c t) ++ nl ++ chars "    endloop" ++ nl ++ chars "  endfacet".
Lemma put_text_eq c t : put_text fmt c t = c ++ tri_txt t ++ nl.
Proof.
  unfold put_text, tri_txt, put_vec3, vec_txt. destruct (t_n t) as [[? ?] ?], (t_a t) as [[? ?] ?], (t_b t) as [[? ?] ?], (t_c t) as [[? ?] ?].
  rewrite <- !app_assoc. reflexivity.
Qed.
Lemma fold_put ts : forall c, fold_left (put_text fmt) ts c = c ++ flat_map (fun t => tri_txt t ++ nl) ts.
Proof.
  induction ts as [|t ts IH]; intros c; cbn [fold_left flat_map]; [rewrite app_nil_r; reflexivity|].
  rewrite IH, put_text_eq, <- app_assoc. reflexivity.
Qed.
Lemma write_text_eq root : write_text normal zs zero one mone fmt root =
  let% ts := triangles root in
  SOk ((chars "solid model" ++ nl ++ flat_map (fun t => tri_txt t ++ nl) ts) ++ chars "endsolid model" ++ nl).
Proof.
  unfold write_text. destruct (put_csg2_homs normal zs zero one mone (put_text fmt) root 0) as [H _]. unfold hom in H. cbn beta in H. rewrite H.
  destruct (triangles root) as [ts| | |]; cbn [sbind]; try reflexivity. rewrite fold_put, <- !app_assoc. reflexivity.
Qed.

Lemma word1 (w : list Z) (ws : list (list Z)) (b s r : list Z) : words ws s r -> blank b -> b <> [] -> words (w :: ws) (b ++ w ++ s) r.
Proof. intros. constructor; assumption. Qed.
Lemma vec_words p ws b s r : words ws s r -> blank b -> b <> [] -> words (vwords (vtext_of p) ++ ws) (b ++ vec_txt p ++ s) r.
Proof.
  intros W B N. destruct p as [[x y] z]. unfold vec_txt, vtext_of, vwords. cbn [vx vy vz].
  change ([fmt x; fmt y; fmt z] ++ ws) with (fmt x :: fmt y :: fmt z :: ws). rewrite <- !app_assoc.
  apply word1; [|exact B|exact N]. apply (word1 (fmt y) _ [32]); [|repeat constructor|discriminate].
  apply (word1 (fmt z) _ [32]); [exact W|repeat constructor|discriminate].
Qed.
Lemma tri_words t ws s r : words ws s r -> words (facet_words (facet_of t) ++ ws) (nl ++ tri_txt t ++ s) r.
Proof.
  intros W. unfold facet_words, tri_txt, facet_of. cbn [f_n f_a f_b f_c]. rewrite <- !app_assoc.
  apply (word1 (chars "facet") _ (10 :: 32 :: [32])); [|repeat constructor|discriminate].
  apply (word1 (chars "normal") _ [32]); [|repeat constructor|discriminate].
  apply (vec_words (t_n t) _ [32]); [|repeat constructor|discriminate].
  apply (word1 (chars "outer") _ (nl ++ [32; 32; 32; 32])); [|repeat constructor|discriminate].
  apply (word1 (chars "loop") _ [32]); [|repeat constructor|discriminate].
  apply (word1 (chars "vertex") _ (nl ++ [32; 32; 32; 32; 32; 32])); [|repeat constructor|discriminate].
  apply (vec_words (t_a t) _ [32]); [|repeat constructor|discriminate].
  apply (word1 (chars "vertex") _ (nl ++ [32; 32; 32; 32; 32; 32])); [|repeat constructor|discriminate].
  apply (vec_words (t_b t) _ [32]); [|repeat constructor|discriminate].
  apply (word1 (chars "vertex") _ (nl ++ [32; 32; 32; 32; 32; 32])); [|repeat constructor|discriminate].
  apply (vec_words (t_c t) _ [32]); [|repeat constructor|discriminate].
  apply (word1 (chars "endloop") _ (nl ++ [32; 32; 32; 32])); [|repeat constructor|discriminate].
  apply (word1 (chars "endfacet") _ (nl ++ [32; 32])); [|repeat constructor|discriminate]. exact W.
Qed.
Lemma body_ok ts r : words (body_words (map facet_of ts)) (nl ++ flat_map (fun t => tri_txt t ++ nl) ts ++ chars "endsolid" ++ r) r.
Proof.
  induction ts as [|t ts IH]; cbn [flat_map map]; unfold body_words in *.
  - apply (word1 (chars "endsolid") [] nl r); [constructor|repeat constructor|discriminate].
  - cbn [flat_map]. rewrite <- !app_assoc in *. apply tri_words, IH.
Qed.

Lemma text_roundtrip f64 strtod find same root ts : (forall x, loose_number (fmt x)) -> finds same find -> triangles root = SOk ts ->
  exists f faces, write_text normal zs zero one mone fmt root = SOk f /\
    stl_parse f64 find (parse_text strtod find) f = SOk faces /\
    Forall2 (fun face t => face_of same (map3 (fun x => strtod (unplus (fmt x))) (t_a t)) (map3 (fun x => strtod (unplus (fmt x))) (t_b t))
      (map3 (fun x => strtod (unplus (fmt x))) (t_c t)) face) faces ts.
Proof.
  intros NUM FIND T. set (f := (chars "solid model" ++ nl ++ flat_map (fun t => tri_txt t ++ nl) ts) ++ chars "endsolid model" ++ nl).
  assert (VN : forall p, vnumbers loose_number (vtext_of p)) by (intros [[x y] z]; split; [apply NUM|split; apply NUM]).
  destruct (text_complete f strtod same find FIND 32 (chars "model") (nl ++ flat_map (fun t => tri_txt t ++ nl) ts ++ chars "endsolid" ++ chars " model" ++ nl)
    (map facet_of ts) (chars " model" ++ nl)) as (faces & E & FF).
  - unfold f. rewrite <- !app_assoc. reflexivity.
  - reflexivity.
  - repeat (constructor; [split; discriminate|]). constructor.
  - eexists. reflexivity.
  - apply Forall_map. apply Forall_forall. intros t _. repeat split; apply VN.
  - apply body_ok.
  - right. exists [32], 109, (chars "odel"), nl. split; [reflexivity|]. split; [repeat constructor|]. split; [constructor; [split; discriminate|constructor]|].
    split; [discriminate|]. split; [reflexivity|]. split; [reflexivity|]. split; [repeat (constructor; [split; discriminate|]); constructor|].
    split; [repeat constructor|right; eexists; reflexivity].
  - exists f, faces. rewrite write_text_eq, T. split; [reflexivity|]. split.
    + unfold stl_parse. replace (detect f) with Text; [exact E|]. symmetry. apply detect_text.
      eexists. unfold f. rewrite <- !app_assoc. exact eq_refl.
    + apply Forall2_map_r in FF. eapply Forall2_imp; [|exact FF]. intros face t _. unfold face_like, facet_of. cbn [f_a f_b f_c].
      destruct (t_a t) as [[? ?] ?], (t_b t) as [[? ?] ?], (t_c t) as [[? ?] ?]. intros H. exact H.
Qed.
End Write.
