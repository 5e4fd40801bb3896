(** The parser for text, and the grammar. *)
From Coq Require Import ZArith Bool String List Lia ZifyBool.
From Verif Require Import Stl_model Stl_spec Stl_proofs Stl_proofs2 Stltext_model Stltext_spec Stltext_proofs Stltext_proofs2 Stltext_proofs3.
Import ListNotations.
Local Open Scope Z_scope.

Lemma words_cons_inv w ws s r : words (w :: ws) s r ->
  exists b s', s = b ++ w ++ s' /\ blank b /\ b <> [] /\ words ws s' r.
Proof. intros H. inversion H; subst. eexists _, _. eauto. Qed.
Lemma words_nil_inv s r : words [] s r -> s = r.
Proof. intros H. inversion H; subst. reflexivity. Qed.
Lemma words_app a b s m r : words a s m -> words b m r -> words (a ++ b) s r.
Proof. induction 1 as [|w ws bl s0 r0 B N W IH]; intros H; [exact H|]. cbn [app]. constructor; auto. Qed.
Lemma words_app_inv a b s r : words (a ++ b) s r -> exists m, words a s m /\ words b m r.
Proof.
  revert s. induction a as [|w a IH]; intros s H; cbn [app] in H.
  - exists s. split; [constructor|exact H].
  - apply words_cons_inv in H as (bl & s' & -> & B & N & H). destruct (IH _ H) as (m & H1 & H2).
    exists m. split; [constructor; assumption|exact H2].
Qed.
Lemma words_stops w ws s r : words (w :: ws) s r -> stops s.
Proof.
  intros H. apply words_cons_inv in H as (b & s' & -> & B & N & _). destruct b as [|c b]; [contradiction|].
  cbn. inversion B; subst. assumption.
Qed.
Lemma stops_no_letter s : stops s -> no_letter s.
Proof. destruct s; cbn; [trivial|]. apply space_not_alpha. Qed.
Lemma words_length ws s r : words ws s r -> (length r + length ws <= length s)%nat.
Proof.
  induction 1 as [|w ws b s r B N H IH]; [cbn; lia|]. destruct b; [contradiction|]. rewrite !app_length. cbn [length]. lia.
Qed.

Lemma kw_vertex : In (K_VERTEX, chars "vertex") keywords. Proof. cbn. tauto. Qed.
Lemma kw_facet : In (K_FACET, chars "facet") keywords. Proof. cbn. tauto. Qed.
Lemma kw_normal : In (K_NORMAL, chars "normal") keywords. Proof. cbn. tauto. Qed.
Lemma kw_outer : In (K_OUTER, chars "outer") keywords. Proof. cbn. tauto. Qed.
Lemma kw_loop : In (K_LOOP, chars "loop") keywords. Proof. cbn. tauto. Qed.
Lemma kw_endloop : In (K_ENDLOOP, chars "endloop") keywords. Proof. cbn. tauto. Qed.
Lemma kw_endfacet : In (K_ENDFACET, chars "endfacet") keywords. Proof. cbn. tauto. Qed.
Lemma kw_endsolid : In (K_ENDSOLID, chars "endsolid") keywords. Proof. cbn. tauto. Qed.
Lemma kw_solid : In (K_SOLID, chars "solid") keywords. Proof. cbn. tauto. Qed.

Section Parse.
Variable f : list Z.
Notation size := (length f).
Notation at_ := (at_ f).
Variable strtod : list Z -> Z.
Variable same : point3 -> point3 -> Prop.
Variable find : list point3 -> point3 -> option nat.
Hypothesis FIND : finds same find.
Notation has := (has same).

(** the state of the parser when the token that comes next in s has been read *)
Definition st (p : text) (s : list Z) (g : bool) : Prop :=
  let '(t, w, s', g') := ptok s g in
  at_ (lx p) s' g' /\ typ p = t /\ (tstr p <= size)%nat /\ (t = T_FLOAT -> cstr (mem (lx p)) (tstr p) = Some w).
Definition kept (p p' : text) : Prop := tpts p' = tpts p /\ tfaces p' = tfaces p.

Lemma tok_st p s g : at_ (lx p) s g -> typ p <> T_ERROR -> (tstr p <= size)%nat ->
  exists p', tok_next size p = SOk p' /\ st p' s g /\ kept p p'.
Proof.
  intros H T S. destruct (tok_next_ok f p s g H T S) as (l & q & E & A & L & C). eexists. split; [exact E|].
  split; [|split; reflexivity]. unfold st. destruct (ptok s g) as [[[t w] s'] g']. cbn [fst snd lx typ tstr] in *. auto.
Qed.
Lemma st_cstr p s g : st p s g -> exists w, cstr (mem (lx p)) (tstr p) = Some w.
Proof.
  unfold st. destruct (ptok s g) as [[[t w] s'] g']. intros (A & _ & L & _). eapply cstr_some; eassumption.
Qed.

(** what [expect_err] does *)
Lemma expect_kw p s k w : st p s true -> In (k, w) keywords ->
  (exists p' s', expect_err size p k = SOk p' /\ words [w] s s' /\ no_letter s' /\ st p' s' true /\ kept p p') \/
  (expect_err size p k = SErr /\ typ p <> k).
Proof.
  intros H K. unfold expect_err. destruct (Z.eqb_spec (typ p) k) as [E|E].
  - left. unfold st in H. destruct (ptok s true) as [[[t x] s'] g'] eqn:P. destruct H as (A & T & L & _). subst t.
    rewrite E in P. destruct (ptok_kw_inv _ _ _ _ _ _ _ K P) as (-> & NL & b & -> & B & N). specialize (N eq_refl).
    destruct (tok_st p s' true A) as (p' & E' & ST & KP); [pose proof (kw_key _ _ K); unfold T_ERROR; lia|exact L|].
    exists p', s'. split; [exact E'|]. split; [constructor; [exact B|exact N|constructor]|]. auto.
  - right. destruct (st_cstr _ _ _ H) as (x & ->). auto.
Qed.
Lemma expect_kw_ok p s s' k w : st p s true -> In (k, w) keywords -> words [w] s s' -> no_letter s' ->
  exists p', expect_err size p k = SOk p' /\ st p' s' true /\ kept p p'.
Proof.
  intros H K W NL. apply words_cons_inv in W as (b & s1 & -> & B & N & W). apply words_nil_inv in W as ->.
  unfold st in H. rewrite (ptok_kw k w b s' true K B) in H by (intros; assumption). destruct H as (A & T & L & _).
  unfold expect_err. rewrite T, Z.eqb_refl. apply tok_st; [exact A|pose proof (kw_key _ _ K); rewrite T; unfold T_ERROR; lia|exact L].
Qed.
Lemma float_st p s : st p s true ->
  (exists p' s' w, parse_float size strtod p = SOk (strtod (unplus w), p') /\ words [w] s s' /\ loose_number w /\ st p' s' true /\ kept p p') \/
  parse_float size strtod p = SErr.
Proof.
  intros H. unfold parse_float. destruct (st_cstr _ _ _ H) as (y & Y). rewrite Y. unfold expect_err.
  destruct (Z.eqb_spec (typ p) T_FLOAT) as [E|E].
  - left. unfold st in H. destruct (ptok s true) as [[[t x] s'] g'] eqn:P. destruct H as (A & T & L & C). subst t.
    rewrite E in P. destruct (ptok_num_inv _ _ _ _ P) as (-> & b & w & -> & B & N & NUM & ->).
    destruct (tok_st p s' true A) as (p' & E' & ST & KP); [rewrite E; discriminate|exact L|].
    rewrite E'. cbn [sbind]. exists p', s', w. specialize (C E). rewrite Y in C. injection C as ->. split; [reflexivity|].
    split; [constructor; [exact B|exact N|constructor]|]. auto.
  - right. rewrite Y. reflexivity.
Qed.
Lemma float_ok_ p s s' w : st p s true -> words [w] s s' -> loose_number w -> stops s' ->
  exists p', parse_float size strtod p = SOk (strtod (unplus w), p') /\ st p' s' true /\ kept p p'.
Proof.
  intros H W NUM SP. apply words_cons_inv in W as (b & s1 & -> & B & N & W). apply words_nil_inv in W as ->.
  pose proof H as H0. unfold st in H. rewrite (ptok_num w b s' NUM B N SP) in H. destruct H as (A & T & L & C).
  unfold parse_float. rewrite (C eq_refl). unfold expect_err. rewrite T, Z.eqb_refl.
  destruct (tok_st p s' true A) as (p' & E' & ST & KP); [rewrite T; discriminate|exact L|].
  rewrite E'. cbn [sbind]. eauto.
Qed.

Lemma kept_trans p q r : kept p q -> kept q r -> kept p r.
Proof. intros [A B] [C D]. split; congruence. Qed.
Lemma kept_refl p : kept p p.
Proof. split; reflexivity. Qed.

Notation corner := (corner strtod).
Lemma vec3_st p s : st p s true ->
  (exists p' s' v, parse_vec3 size strtod p = SOk (corner v, p') /\ words (vwords v) s s' /\ vnumbers loose_number v /\ st p' s' true /\ kept p p') \/
  parse_vec3 size strtod p = SErr.
Proof.
  intros H. unfold parse_vec3. destruct (float_st _ _ H) as [(p1 & s1 & w1 & -> & W1 & N1 & H1 & K1)| ->]; [|right; reflexivity]. cbn [sbind].
  destruct (float_st _ _ H1) as [(p2 & s2 & w2 & -> & W2 & N2 & H2 & K2)| ->]; [|right; reflexivity]. cbn [sbind].
  destruct (float_st _ _ H2) as [(p3 & s3 & w3 & -> & W3 & N3 & H3 & K3)| ->]; [|right; reflexivity]. cbn [sbind].
  left. exists p3, s3, (mk_vtext w1 w2 w3). split; [reflexivity|]. split.
  - apply (words_app [w1] [w2; w3] s s1); [exact W1|]. apply (words_app [w2] [w3] s1 s2); assumption.
  - split; [split; [exact N1|split; assumption]|]. split; [exact H3|]. eapply kept_trans; [exact K1|]. eapply kept_trans; eassumption.
Qed.
Lemma vec3_ok p s s' v : st p s true -> words (vwords v) s s' -> vnumbers loose_number v -> stops s' ->
  exists p', parse_vec3 size strtod p = SOk (corner v, p') /\ st p' s' true /\ kept p p'.
Proof.
  intros H W (N1 & N2 & N3) SP. unfold vwords in W.
  change (words ([vx v] ++ [vy v] ++ [vz v]) s s') in W. apply words_app_inv in W as (s1 & W1 & W).
  pose proof (words_stops _ _ _ _ W) as S1. apply words_app_inv in W as (s2 & W2 & W3). pose proof (words_stops _ _ _ _ W3) as S2.
  unfold parse_vec3. destruct (float_ok_ _ _ _ _ H W1 N1 S1) as (p1 & -> & H1 & K1). cbn [sbind].
  destruct (float_ok_ _ _ _ _ H1 W2 N2 S2) as (p2 & -> & H2 & K2). cbn [sbind].
  destruct (float_ok_ _ _ _ _ H2 W3 N3 SP) as (p3 & -> & H3 & K3). cbn [sbind]. exists p3. split; [reflexivity|]. split; [exact H3|].
  eapply kept_trans; [exact K1|]. eapply kept_trans; eassumption.
Qed.

(** points are only added *)
Definition grown (p p' : text) (i : nat) (v : point3) : Prop :=
  tfaces p' = tfaces p /\ exists more, tpts p' = tpts p ++ more /\ has (tpts p') i v.
Lemma vertex_insert p s v : st p s true -> exists p' i,
  match find (tpts p) v with
  | Some i => SOk (i, p)
  | None => SOk (length (tpts p), mk_text (lx p) (typ p) (tstr p) (tpts p ++ [v]) (tfaces p))
  end = SOk (i, p') /\ st p' s true /\ grown p p' i v.
Proof.
  intros H. destruct (find (tpts p) v) as [i|] eqn:E.
  - exists p, i. split; [reflexivity|]. split; [exact H|]. split; [reflexivity|]. exists []. rewrite app_nil_r.
    split; [reflexivity|]. exact (proj2 FIND _ _ _ E).
  - eexists _, _. split; [reflexivity|]. split; [exact H|]. split; [reflexivity|]. exists [v]. split; [reflexivity|].
    cbn [tpts]. exists v. split; [|apply FIND]. rewrite nth_error_app2, Nat.sub_diag by lia. reflexivity.
Qed.
Lemma grown_kept p q r i v : kept p q -> grown q r i v -> grown p r i v.
Proof. intros [A B] (C & m & D & E). split; [congruence|]. exists m. split; [congruence|exact E]. Qed.

Lemma vertex_st p s : st p s true ->
  (exists p' s' v i, parse_vertex size strtod find p = SOk (i, p') /\ words ([chars "vertex"] ++ vwords v) s s' /\
     vnumbers loose_number v /\ st p' s' true /\ grown p p' i (corner v)) \/
  parse_vertex size strtod find p = SErr.
Proof.
  intros H. unfold parse_vertex.
  destruct (expect_kw _ _ _ _ H kw_vertex) as [(p1 & s1 & -> & W1 & _ & H1 & K1)|[-> _]]; [|right; reflexivity]. cbn [sbind].
  destruct (vec3_st _ _ H1) as [(p2 & s2 & v & -> & W2 & N2 & H2 & K2)| ->]; [|right; reflexivity]. cbn [sbind].
  destruct (vertex_insert p2 s2 (corner v) H2) as (p3 & i & E & H3 & G). left. exists p3, s2, v, i. split; [exact E|].
  split; [eapply words_app; eassumption|]. split; [exact N2|]. split; [exact H3|].
  eapply grown_kept; [eapply kept_trans; eassumption|exact G].
Qed.
Lemma vertex_ok p s s' v : st p s true -> words ([chars "vertex"] ++ vwords v) s s' -> vnumbers loose_number v -> stops s' ->
  exists p' i, parse_vertex size strtod find p = SOk (i, p') /\ st p' s' true /\ grown p p' i (corner v).
Proof.
  intros H W N SP. apply words_app_inv in W as (s1 & W1 & W2). unfold parse_vertex.
  destruct (expect_kw_ok _ _ _ _ _ H kw_vertex W1 (stops_no_letter _ (words_stops _ _ _ _ W2))) as (p1 & -> & H1 & K1). cbn [sbind].
  destruct (vec3_ok _ _ _ _ H1 W2 N SP) as (p2 & -> & H2 & K2). cbn [sbind].
  destruct (vertex_insert p2 s' (corner v) H2) as (p3 & i & E & H3 & G). exists p3, i. split; [exact E|]. split; [exact H3|].
  eapply grown_kept; [eapply kept_trans; eassumption|exact G].
Qed.

(** a face that has been added *)
Definition face_for (points : list point3) (l : list nat) (fc : facet) : Prop :=
  exists a b c, l = [c; b; a] /\ has points a (corner (f_a fc)) /\ has points b (corner (f_b fc)) /\ has points c (corner (f_c fc)).
Definition added (p p' : text) (fs : list facet) : Prop :=
  exists more ls, tpts p' = tpts p ++ more /\ tfaces p' = tfaces p ++ ls /\ Forall2 (face_for (tpts p')) ls fs.

Lemma add_face p0 p p1 p2 p3 p4 fc a b c (l : lex) : kept p0 p -> grown p p1 a (corner (f_a fc)) -> grown p1 p2 b (corner (f_b fc)) ->
  grown p2 p3 c (corner (f_c fc)) -> kept p3 p4 ->
  added p0 (mk_text (lx p4) (typ p4) (tstr p4) (tpts p4) (tfaces p4 ++ [[c; b; a]])) [fc].
Proof.
  intros [K1 K2] (A1 & m1 & A2 & A3) (B1 & m2 & B2 & B3) (C1 & m3 & C2 & C3) [L1 L2].
  exists (m1 ++ m2 ++ m3), [[c; b; a]]. cbn [tpts tfaces]. split; [rewrite L1, C2, B2, A2, K1, !app_assoc; reflexivity|].
  split; [congruence|]. constructor; [|constructor]. exists a, b, c. split; [reflexivity|]. rewrite L1. split; [|split].
  - rewrite C2, B2. apply has_app, has_app, A3.
  - rewrite C2. apply has_app, B3.
  - exact C3.
Qed.

Lemma facet_st p s : st p s true ->
  (exists p' s' fc, parse_facet size strtod find p = SOk p' /\ words (facet_words fc) s s' /\ no_letter s' /\ facet_numbers loose_number fc /\
     st p' s' true /\ added p p' [fc]) \/
  parse_facet size strtod find p = SErr.
Proof.
  intros H. unfold parse_facet.
  destruct (expect_kw _ _ _ _ H kw_facet) as [(p1 & s1 & -> & W1 & _ & H1 & K1)|[-> _]]; [|right; reflexivity]. cbn [sbind].
  destruct (expect_kw _ _ _ _ H1 kw_normal) as [(p2 & s2 & -> & W2 & _ & H2 & K2)|[-> _]]; [|right; reflexivity]. cbn [sbind].
  destruct (vec3_st _ _ H2) as [(p3 & s3 & vn & -> & W3 & N3 & H3 & K3)| ->]; [|right; reflexivity]. cbn [sbind].
  destruct (expect_kw _ _ _ _ H3 kw_outer) as [(p4 & s4 & -> & W4 & _ & H4 & K4)|[-> _]]; [|right; reflexivity]. cbn [sbind].
  destruct (expect_kw _ _ _ _ H4 kw_loop) as [(p5 & s5 & -> & W5 & _ & H5 & K5)|[-> _]]; [|right; reflexivity]. cbn [sbind].
  destruct (vertex_st _ _ H5) as [(p6 & s6 & va & ia & -> & W6 & N6 & H6 & G6)| ->]; [|right; reflexivity]. cbn [sbind].
  destruct (vertex_st _ _ H6) as [(p7 & s7 & vb & ib & -> & W7 & N7 & H7 & G7)| ->]; [|right; reflexivity]. cbn [sbind].
  destruct (vertex_st _ _ H7) as [(p8 & s8 & vc & ic & -> & W8 & N8 & H8 & G8)| ->]; [|right; reflexivity]. cbn [sbind].
  destruct (expect_kw _ _ _ _ H8 kw_endloop) as [(p9 & s9 & -> & W9 & _ & H9 & K9)|[-> _]]; [|right; reflexivity]. cbn [sbind].
  destruct (expect_kw _ _ _ _ H9 kw_endfacet) as [(p10 & s10 & -> & W10 & NL & H10 & K10)|[-> _]]; [|right; reflexivity]. cbn [sbind].
  left. eexists _, s10, (mk_facet vn va vb vc). split; [reflexivity|]. split; [|split; [exact NL|split; [|split]]].
  - unfold facet_words. cbn [f_n f_a f_b f_c].
    change [chars "facet"; chars "normal"] with ([chars "facet"] ++ [chars "normal"]).
    change [chars "outer"; chars "loop"] with ([chars "outer"] ++ [chars "loop"]).
    change [chars "endloop"; chars "endfacet"] with ([chars "endloop"] ++ [chars "endfacet"]).
    rewrite <- !(app_assoc [_] [_]). rewrite (app_assoc [chars "vertex"] (vwords va)), (app_assoc [chars "vertex"] (vwords vb)), (app_assoc [chars "vertex"] (vwords vc)).
    repeat (eapply words_app; [eassumption|]). assumption.
  - split; [exact N3|]. split; [exact N6|]. split; assumption.
  - exact H10.
  - eapply (add_face p p5 p6 p7 p8 p10 (mk_facet vn va vb vc)); cbn [f_a f_b f_c]; try eassumption; [exact (lx p10)| |].
    + eapply kept_trans; [exact K1|]. eapply kept_trans; [exact K2|]. eapply kept_trans; [exact K3|]. eapply kept_trans; eassumption.
    + eapply kept_trans; eassumption.
Qed.

Lemma facet_complete p s s' fc : st p s true -> words (facet_words fc) s s' -> facet_numbers loose_number fc -> no_letter s' ->
  exists p', parse_facet size strtod find p = SOk p' /\ st p' s' true /\ added p p' [fc].
Proof.
  intros H W (Nn & Na & Nb & Nc) NL. unfold facet_words in W. 
  change [chars "facet"; chars "normal"] with ([chars "facet"] ++ [chars "normal"]) in W.
  change [chars "outer"; chars "loop"] with ([chars "outer"] ++ [chars "loop"]) in W.
  change [chars "endloop"; chars "endfacet"] with ([chars "endloop"] ++ [chars "endfacet"]) in W.
  rewrite <- !(app_assoc [_] [_]) in W.
  rewrite (app_assoc [chars "vertex"] (vwords (f_a fc))), (app_assoc [chars "vertex"] (vwords (f_b fc))), (app_assoc [chars "vertex"] (vwords (f_c fc))) in W.
  apply words_app_inv in W as (s1 & W1 & W). pose proof (words_stops _ _ _ _ W) as S1.
  apply words_app_inv in W as (s2 & W2 & W). pose proof (words_stops _ _ _ _ W) as S2.
  apply words_app_inv in W as (s3 & W3 & W). pose proof (words_stops _ _ _ _ W) as S3.
  apply words_app_inv in W as (s4 & W4 & W). pose proof (words_stops _ _ _ _ W) as S4.
  apply words_app_inv in W as (s5 & W5 & W).
  apply words_app_inv in W as (s6 & W6 & W). pose proof (words_stops _ _ _ _ W) as S6.
  apply words_app_inv in W as (s7 & W7 & W). pose proof (words_stops _ _ _ _ W) as S7.
  apply words_app_inv in W as (s8 & W8 & W). pose proof (words_stops _ _ _ _ W) as S8.
  apply words_app_inv in W as (s9 & W9 & W10). pose proof (words_stops _ _ _ _ W10) as S9.
  assert (S5 : stops s5) by (eapply words_stops; exact W6).
  unfold parse_facet.
  destruct (expect_kw_ok _ _ _ _ _ H kw_facet W1 (stops_no_letter _ S1)) as (p1 & -> & H1 & K1). cbn [sbind].
  destruct (expect_kw_ok _ _ _ _ _ H1 kw_normal W2 (stops_no_letter _ S2)) as (p2 & -> & H2 & K2). cbn [sbind].
  destruct (vec3_ok _ _ _ _ H2 W3 Nn S3) as (p3 & -> & H3 & K3). cbn [sbind].
  destruct (expect_kw_ok _ _ _ _ _ H3 kw_outer W4 (stops_no_letter _ S4)) as (p4 & -> & H4 & K4). cbn [sbind].
  destruct (expect_kw_ok _ _ _ _ _ H4 kw_loop W5 (stops_no_letter _ S5)) as (p5 & -> & H5 & K5). cbn [sbind].
  destruct (vertex_ok _ _ _ _ H5 W6 Na S6) as (p6 & ia & -> & H6 & G6). cbn [sbind].
  destruct (vertex_ok _ _ _ _ H6 W7 Nb S7) as (p7 & ib & -> & H7 & G7). cbn [sbind].
  destruct (vertex_ok _ _ _ _ H7 W8 Nc S8) as (p8 & ic & -> & H8 & G8). cbn [sbind].
  destruct (expect_kw_ok _ _ _ _ _ H8 kw_endloop W9 (stops_no_letter _ S9)) as (p9 & -> & H9 & K9). cbn [sbind].
  destruct (expect_kw_ok _ _ _ _ _ H9 kw_endfacet W10 NL) as (p10 & -> & H10 & K10). cbn [sbind].
  eexists. split; [reflexivity|]. split; [exact H10|].
  eapply (add_face p p5 p6 p7 p8 p10 fc); try eassumption; [exact (lx p10)| |].
  - eapply kept_trans; [exact K1|]. eapply kept_trans; [exact K2|]. eapply kept_trans; [exact K3|]. eapply kept_trans; eassumption.
  - eapply kept_trans; eassumption.
Qed.

Lemma face_for_app points more l fc : face_for points l fc -> face_for (points ++ more) l fc.
Proof. intros (a & b & c & -> & A & B & C). exists a, b, c. split; [reflexivity|]. split; [|split]; apply has_app; assumption. Qed.
Lemma added_trans p q r fs gs : added p q fs -> added q r gs -> added p r (fs ++ gs).
Proof.
  intros (m1 & l1 & A1 & B1 & C1) (m2 & l2 & A2 & B2 & C2). exists (m1 ++ m2), (l1 ++ l2).
  split; [rewrite A2, A1, app_assoc; reflexivity|]. split; [rewrite B2, B1, app_assoc; reflexivity|].
  apply Forall2_app; [|exact C2]. rewrite A2. eapply Forall2_imp; [|exact C1]. intros; apply face_for_app; assumption.
Qed.
Lemma added_refl p : added p p [].
Proof. exists [], []. rewrite !app_nil_r. repeat split. constructor. Qed.

Lemma facets_st : forall fuel p s, st p s true -> (length s < fuel)%nat ->
  (exists p' s' fs, parse_facets size strtod find fuel p = SOk p' /\ words (flat_map facet_words fs) s s' /\
     Forall (facet_numbers loose_number) fs /\ st p' s' true /\ added p p' fs) \/
  parse_facets size strtod find fuel p = SErr.
Proof.
  induction fuel as [|fuel IH]; intros p s H L; [lia|]. cbn [parse_facets]. destruct (Z.eqb_spec (typ p) K_FACET) as [E|E].
  - destruct (facet_st _ _ H) as [(p1 & s1 & fc & -> & W1 & NL & N1 & H1 & A1)| ->]; [|right; reflexivity]. cbn [sbind].
    destruct (IH p1 s1 H1) as [(p2 & s2 & fs & -> & W2 & N2 & H2 & A2)| ->].
    + pose proof (words_length _ _ _ W1) as Q. cbn [facet_words length app vwords] in Q. lia.
    + left. exists p2, s2, (fc :: fs). split; [reflexivity|]. cbn [flat_map]. split; [eapply words_app; eassumption|].
      split; [constructor; assumption|]. split; [exact H2|]. exact (added_trans _ _ _ [fc] fs A1 A2).
    + right. reflexivity.
  - left. exists p, s, []. split; [reflexivity|]. split; [constructor|]. split; [constructor|]. split; [exact H|apply added_refl].
Qed.

Lemma facets_complete : forall fs fuel p s s', st p s true -> (length s < fuel)%nat -> words (flat_map facet_words fs) s s' ->
  Forall (facet_numbers loose_number) fs -> stops s' -> (forall t w s2 g2, ptok s' true = (t, w, s2, g2) -> t <> K_FACET) ->
  exists p', parse_facets size strtod find fuel p = SOk p' /\ st p' s' true /\ added p p' fs.
Proof.
  induction fs as [|fc fs IH]; intros fuel p s s' H L W N SP NF; (destruct fuel as [|fuel]; [lia|]); cbn [parse_facets flat_map] in *.
  - apply words_nil_inv in W as <-. replace (typ p =? K_FACET) with false.
    + exists p. split; [reflexivity|]. split; [exact H|apply added_refl].
    + unfold st in H. destruct (ptok s true) as [[[t w] s2] g2]. destruct H as (_ & T & _). rewrite T.
      specialize (NF _ _ _ _ eq_refl). symmetry. apply Z.eqb_neq. exact NF.
  - inversion N as [|? ? N1 N2]; subst. apply words_app_inv in W as (s1 & W1 & W2).
    assert (S1 : stops s1).
    { destruct fs as [|fc' fs]; cbn [flat_map] in W2; [apply words_nil_inv in W2 as ->; exact SP|]. eapply words_stops, W2. }
    destruct (facet_complete _ _ _ _ H W1 N1 (stops_no_letter _ S1)) as (p1 & E1 & H1 & A1).
    assert (T : typ p = K_FACET).
    { revert E1. unfold parse_facet, expect_err. destruct (Z.eqb_spec (typ p) K_FACET); [trivial|].
      destruct (cstr _ _); discriminate. }
    rewrite T, Z.eqb_refl, E1. cbn [sbind].
    destruct (IH fuel p1 s1 s' H1) as (p2 & -> & H2 & A2); try assumption.
    + pose proof (words_length _ _ _ W1) as Q. cbn [facet_words length app vwords] in Q. lia.
    + exists p2. split; [reflexivity|]. split; [exact H2|]. exact (added_trans _ _ _ [fc] fs A1 A2).
Qed.
End Parse.
