(** Whole files. *)
From Coq Require Import ZArith Bool String List Lia ZifyBool.
From Verif Require Import Stl_model Stl_spec Stl_proofs Stl_proofs2 Stltext_model Stltext_spec Stltext_proofs Stltext_proofs2 Stltext_proofs3 Stltext_proofs4.
Import ListNotations.
Local Open Scope Z_scope.

Lemma solid_chars : solid = chars "solid". Proof. reflexivity. Qed.

Lemma ptok_newline s : ptok (10 :: s) true = ptok (10 :: s) false.
Proof. reflexivity. Qed.

Lemma line_stop s : dropw in_line s = [] \/ (exists s', dropw in_line s = 0 :: s') \/ exists s', dropw in_line s = 10 :: s'.
Proof.
  pose proof (dropw_hd in_line s) as H. destruct (dropw in_line s) as [|c r]; [auto|]. unfold in_line in H.
  destruct (Z.eqb_spec c 10) as [->|]; [eauto|]. destruct (Z.eqb_spec c 0) as [->|]; [eauto|discriminate].
Qed.
Lemma one_line_in l : one_line l <-> Forall (fun c => in_line c = true) l.
Proof. split; apply Forall_impl; intros c; unfold in_line; lia. Qed.

Lemma blank_ptok s g : blank s -> ptok s g = (T_EOF, [], [], false).
Proof. intros H. unfold ptok. replace (dropw is_space s) with (@nil Z); [reflexivity|]. rewrite <- (app_nil_r s), dropw_app by exact H. reflexivity. Qed.
Lemma blank_tl s : blank s -> blank (tl s).
Proof. intros H. destruct H; [constructor|assumption]. Qed.
Lemma blank_line s : blank s -> blank (dropw in_line s).
Proof.
  intros H. pose proof (takew_dropw in_line s) as E. unfold blank in *. rewrite <- E in H. apply Forall_app in H as [_ H]. exact H.
Qed.

Lemma prefix_line u : forall n s t : list Z, n ++ t = u ++ s -> Forall (fun c => c <> 10) u -> (t = [] \/ exists t', t = 10 :: t') ->
  exists q, s = q ++ t /\ n = u ++ q.
Proof.
  induction u as [|c u IH]; intros n s t E U T.
  - exists n. split; [symmetry; exact E|reflexivity].
  - inversion U as [|? ? U1 U2]; subst. destruct n as [|d n].
    + cbn in E. destruct T as [->|(t' & ->)]; [discriminate E|]. injection E as E _. congruence.
    + cbn in E. injection E as -> E. destruct (IH n s t E U2 T) as (q & -> & ->). exists q. split; reflexivity.
Qed.

(** the first token of a name *)
Lemma ptok_name b c name t : blank b -> b <> [] -> c < 128 -> is_space c = false -> c <> 0 -> exists ty w s g u,
  ptok (b ++ (c :: name) ++ t) true = (ty, w, s, g) /\ ty <> T_ERROR /\ (c :: name) ++ t = u ++ s /\ Forall (fun c => c <> 10) u.
Proof.
  intros B NB C1 C2 C0. unfold ptok. rewrite dropw_app by exact B. rewrite (blank_starts b _ B NB). cbn [negb andb].
  cbn [app dropw]. rewrite C2. set (s1 := c :: name ++ t).
  destruct (num_start c) eqn:NS.
  - destruct (num_rest_inv s1) as (sg & d & fr & e & E & SG & D & F & X).
    eexists _, _, _, _, _. split; [reflexivity|]. split; [discriminate|]. split; [exact E|].
    assert (DD : forall d, digits d -> Forall (fun c => c <> 10) d) by (intros d0; apply Forall_impl; intros x; unfold is_digit; lia).
    assert (SS : forall d, sign d -> Forall (fun c => c <> 10) d).
    { intros x [->|[->| ->]]; [constructor|constructor; [discriminate|constructor]|constructor; [discriminate|constructor]]. }
    apply Forall_app. split; [auto|]. apply Forall_app. split; [auto|]. apply Forall_app. split.
    + destruct F as [->|(d' & -> & F)]; [constructor|]. constructor; [discriminate|auto].
    + destruct X as [->|(x & s' & d' & -> & X & S' & D')]; [constructor|]. constructor; [lia|]. apply Forall_app. auto.
  - destruct (is_alpha c) eqn:AL.
    + eexists _, _, _, _, (takew is_alpha s1). split; [reflexivity|]. split.
      * intros E. apply sieve_inv in E as [E|E]; [discriminate E|]. apply kw_key in E. unfold T_ERROR in E. lia.
      * split; [symmetry; apply takew_dropw|]. eapply Forall_impl; [|apply takew_all]. intros x. unfold is_alpha. lia.
    + destruct (Z.ltb_spec c 128) as [_|]; [|lia]. cbn [negb]. eexists _, _, _, _, [c]. split; [reflexivity|].
      split; [unfold T_ERROR; lia|]. split; [reflexivity|]. constructor; [|constructor]. intros ->. discriminate C2.
Qed.

Section File.
Variable f : list Z.
Notation size := (length f).
Variable strtod : list Z -> Z.
Variable same : point3 -> point3 -> Prop.
Variable find : list point3 -> point3 -> option nat.
Hypothesis FIND : finds same find.
Notation corner := (corner strtod).
Notation st := (st f).

Definition start : text := mk_text (mk_lex (f ++ [0]) 0 (nth 0 (f ++ [0]) 0)) T_EOF 0 [] [].
Lemma start_at : at_ f (lx start) f false.
Proof.
  constructor; cbn [start lx mem lpos cur]; try reflexivity; try lia.
  - destruct f; reflexivity.
  - rewrite app_length. cbn. lia.
  - destruct f; reflexivity.
Qed.

Definition face_like (face : list point3) (fc : facet) : Prop :=
  face_of same (corner (f_a fc)) (corner (f_b fc)) (corner (f_c fc)) face.
Lemma make_faces_text points : forall ls fs, Forall2 (face_for strtod same points) ls fs ->
  exists r, make_faces points ls = SOk r /\ Forall2 face_like r fs.
Proof.
  intros ls fs F. induction F as [|l fc ls fs H F IH].
  - exists []. split; [reflexivity|constructor].
  - destruct IH as (r & R & FR). destruct H as (a & b & c & -> & (qa & A & SA) & (qb & B & SB) & (qc & C & SC)).
    cbn [make_faces lookup]. rewrite A, B, C. cbn [sbind]. rewrite R. cbn [sbind]. eexists. split; [reflexivity|].
    constructor; [|exact FR]. exists qa, qb, qc. auto.
Qed.

(** the end of the file *)
Lemma end_ok p s : st p s true -> exists p', (let% p := tok_next_line size p in tok_next size p) = SOk p' /\ kept p p' /\
  (file_end s -> typ p' = T_EOF).
Proof.
  intros H. destruct (Z.eq_dec (typ p) T_ERROR) as [E|E].
  - exists p. unfold tok_next_line. rewrite E, Z.eqb_refl. cbn [sbind]. unfold tok_next. rewrite E, Z.eqb_refl.
    split; [reflexivity|]. split; [apply kept_refl|]. intros FE. exfalso.
    unfold Stltext_proofs4.st in H. destruct FE as [B|(b & c & n & t & -> & B & _ & NB & C1 & C2 & NL & _)].
    + rewrite (blank_ptok _ _ B) in H. destruct H as (_ & T & _). rewrite T in E. discriminate E.
    + inversion NL as [|? ? [_ C0] _]; subst. destruct (ptok_name b c n t B NB C1 C2 C0) as (ty & w & s & g & u & P & TY & _).
      rewrite P in H. destruct H as (_ & T & _). congruence.
  - unfold Stltext_proofs4.st in H. destruct (ptok s true) as [[[t0 w0] s0] g0] eqn:P. destruct H as (A & T & L & _).
    destruct (tok_next_line_ok f p s0 g0 A E) as (l1 & q1 & -> & A1 & L1). cbn [sbind].
    destruct (tok_st f (mk_text l1 T_STRING q1 (tpts p) (tfaces p)) _ _ A1) as (p2 & E2 & H2 & K2); [discriminate|exact L1|].
    exists p2. split; [exact E2|]. split; [exact K2|]. intros FE.
    assert (B : blank (dropw in_line (tl s0))).
    { destruct FE as [B|(b & c & n & t & -> & B & _ & NB & C1 & C2 & NL & BT & TT)].
      - rewrite (blank_ptok _ _ B) in P. injection P as <- <- <- <-. constructor.
      - inversion NL as [|? ? [_ C0] NL']; subst. destruct (ptok_name b c n t B NB C1 C2 C0) as (ty & w & s & g & u & P' & TY & EU & U).
        rewrite P' in P. injection P as -> -> -> ->.
        destruct (prefix_line u (c :: n) s0 t EU U TT) as (q & -> & EQ).
        destruct q as [|x q]; cbn [app tl]; [apply blank_line, blank_tl, BT|].
        assert (Q : one_line q). { rewrite EQ in NL. apply Forall_app in NL as [_ NL]. inversion NL; assumption. }
        rewrite dropw_app by (apply one_line_in, Q). apply blank_line, BT. }
    unfold Stltext_proofs4.st in H2. rewrite (blank_ptok _ _ B) in H2. apply H2.
Qed.

(** behind the first line *)
Definition rest_of (p : text) : sres text :=
  let% p := parse_facets size strtod find (many size) p in
  let% p := expect_err size p K_ENDSOLID in
  let% p := tok_next_line size p in
  tok_next size p.
Lemma rest_st p s : st p s true -> (length s < many size)%nat ->
  (exists p' fs r, rest_of p = SOk p' /\ words (body_words fs) s r /\ no_letter r /\ Forall (facet_numbers loose_number) fs /\
     added strtod same p p' fs) \/ rest_of p = SErr.
Proof.
  intros H L. unfold rest_of.
  destruct (facets_st f strtod same find FIND (many size) p s H L) as [(p1 & s1 & fs & -> & W1 & N1 & H1 & A1)| ->]; [|right; reflexivity].
  cbn [sbind].
  destruct (expect_kw f _ _ _ _ H1 kw_endsolid) as [(p2 & s2 & -> & W2 & NL & H2 & K2)|[-> _]]; [|right; reflexivity]. cbn [sbind].
  destruct (end_ok p2 s2 H2) as (p3 & E3 & K3 & _). left. exists p3, fs, s2. split; [exact E3|].
  split; [eapply words_app; eassumption|]. split; [exact NL|]. split; [exact N1|].
  destruct (kept_trans _ _ _ K2 K3) as [Q1 Q2]. destruct A1 as (m & ls & B1 & B2 & B3). exists m, ls. rewrite Q1, Q2. auto.
Qed.
Lemma rest_complete p s fs r : st p s true -> (length s < many size)%nat -> words (body_words fs) s r ->
  Forall (facet_numbers loose_number) fs -> file_end r -> exists p', rest_of p = SOk p' /\ added strtod same p p' fs /\ typ p' = T_EOF.
Proof.
  intros H L W N FE. apply words_app_inv in W as (m & W1 & W2). unfold rest_of.
  assert (NL : no_letter r).
  { destruct FE as [B|(b & c & n & t & -> & B & _ & NB & _)].
    - destruct r; [exact I|]. inversion B; subst. apply space_not_alpha. assumption.
    - destruct b as [|x b]; [contradiction|]. inversion B; subst. apply space_not_alpha. assumption. }
  destruct (facets_complete f strtod same find FIND fs (many size) p s m H L W1 N) as (p1 & -> & H1 & A1).
  - eapply words_stops, W2.
  - intros t w s2 g2 P. apply words_cons_inv in W2 as (b & s' & -> & B & NB & W2). apply words_nil_inv in W2 as ->.
    rewrite (ptok_kw _ _ b r true kw_endsolid B (fun _ => NB) NL) in P. injection P as <- _ _ _. discriminate.
  - cbn [sbind]. destruct (expect_kw_ok f _ _ _ _ _ H1 kw_endsolid W2 NL) as (p2 & -> & H2 & K2). cbn [sbind].
    destruct (end_ok p2 r H2) as (p3 & E3 & K3 & T3). exists p3. split; [exact E3|]. split; [|exact (T3 FE)].
    destruct (kept_trans _ _ _ K2 K3) as [Q1 Q2]. destruct A1 as (mm & ls & B1 & B2 & B3). exists mm, ls. rewrite Q1, Q2. auto.
Qed.

(** the first line *)
Lemma solid_line r p : f = chars "solid" ++ r -> no_letter r -> st p f false -> exists p' , 
  (let% p := tok_next_line size p in tok_next size p) = SOk p' /\ kept p p' /\ st p' (dropw in_line (tl r)) false.
Proof.
  intros E NL H. unfold Stltext_proofs4.st in H. 
  assert (PE : ptok f false = (K_SOLID, chars "solid", r, true)).
  { rewrite E. apply (ptok_kw _ _ [] r false kw_solid); [constructor|discriminate|exact NL]. }
  rewrite PE in H.
  destruct H as (A & T & L & _).
  destruct (tok_next_line_ok f p r true A) as (l1 & q1 & -> & A1 & L1); [rewrite T; discriminate|]. cbn [sbind].
  destruct (tok_st f (mk_text l1 T_STRING q1 (tpts p) (tfaces p)) _ _ A1) as (p2 & E2 & H2 & K2); [discriminate|exact L1|].
  exists p2. auto.
Qed.

Lemma parse_text_eq : parse_text strtod find f =
  let% p := tok_next size start in
  let% p := parse_solid size strtod find p in
  let% r := make_faces (tpts p) (tfaces p) in
  if typ p =? T_EOF then SOk r else SErr.
Proof. reflexivity. Qed.
Lemma parse_solid_eq p : typ p = K_SOLID -> parse_solid size strtod find p =
  let% p := (let% p := tok_next_line size p in tok_next size p) in rest_of p.
Proof.
  intros T. unfold parse_solid, rest_of. rewrite T. cbn [negb Z.eqb K_SOLID Pos.eqb].
  destruct (tok_next_line size p) as [q| | |]; cbn [sbind]; reflexivity.
Qed.

Lemma text_sound : starts_with_solid f ->
  parse_text strtod find f = SErr \/
  exists faces fs, parse_text strtod find f = SOk faces /\ accepted_form f fs /\ Forall2 face_like faces fs.
Proof.
  intros (r & E). rewrite solid_chars in E. rewrite parse_text_eq.
  destruct (tok_st f start f false start_at) as (p1 & -> & H1 & K1); [discriminate|cbn; lia|]. cbn [sbind].
  destruct (Z.eq_dec (typ p1) K_SOLID) as [T|T].
  2:{ left. unfold parse_solid. destruct (Z.eqb_spec (typ p1) K_SOLID); [contradiction|]. reflexivity. }
  assert (NL : no_letter r).
  { unfold Stltext_proofs4.st in H1. destruct (ptok f false) as [[[t w] s'] g'] eqn:P. destruct H1 as (_ & T' & _). rewrite T in T'. subst t.
    destruct (ptok_kw_inv _ _ _ _ _ _ _ kw_solid P) as (_ & NL & b & E' & B & _).
    destruct b as [|x b]; [|exfalso; rewrite E in E'; injection E' as E' _; inversion B; subst; discriminate].
    cbn [app] in E'. rewrite E in E'. injection E' as ->. exact NL. }
  rewrite (parse_solid_eq p1 T). destruct (solid_line r p1 E NL H1) as (p2 & -> & K2 & H2). cbn [sbind].
  assert (LE : (length (dropw in_line (tl r)) < many size)%nat).
  { pose proof (takew_dropw in_line (tl r)) as Q. apply (f_equal (@length Z)) in Q. rewrite app_length in Q.
    rewrite E, app_length. unfold many. destruct r; cbn in *; lia. }
  assert (BAD : typ p2 = T_EOF -> rest_of p2 = SErr).
  { intros T2. unfold rest_of, many. cbn [parse_facets]. rewrite T2. cbn [Z.eqb T_EOF K_FACET sbind]. unfold expect_err. rewrite T2. cbn [Z.eqb T_EOF K_ENDSOLID].
    destruct (st_cstr f _ _ _ H2) as (w & ->). reflexivity. }
  destruct (line_stop (tl r)) as [D|[(s' & D)|(s' & D)]].
  - rewrite D in H2. left. rewrite BAD; [reflexivity|]. unfold Stltext_proofs4.st in H2. cbn in H2. apply H2.
  - rewrite D in H2. left. rewrite BAD; [reflexivity|]. unfold Stltext_proofs4.st in H2. cbn in H2. apply H2.
  - rewrite D in H2. assert (H3 : st p2 (10 :: s') true) by (unfold Stltext_proofs4.st in *; rewrite ptok_newline; exact H2).
    rewrite D in LE. destruct (rest_st p2 _ H3 LE) as [(p3 & fs & r' & -> & W & NL' & N & (m & ls & A1 & A2 & A3))| ->]; [|left; reflexivity].
    cbn [sbind]. destruct (make_faces_text _ _ _ A3) as (faces & MF & FF).
    destruct (kept_trans _ _ _ K1 K2) as [Q1 Q2]. rewrite Q2 in A2. cbn in A2. rewrite A2, MF. cbn [sbind].
    destruct (typ p3 =? T_EOF); [|left; reflexivity]. right. exists faces, fs. split; [reflexivity|]. split; [|exact FF].
    destruct r as [|c r]; [discriminate D|]. cbn [tl] in D.
    exists c, (takew in_line r), (10 :: s'), r'. split.
    + rewrite E. cbn [app]. rewrite <- D, takew_dropw. reflexivity.
    + split; [exact NL|]. split; [apply one_line_in, takew_all|]. split; [eauto|]. auto.
Qed.

Lemma text_complete c first body fs r : f = chars "solid" ++ (c :: first) ++ body -> is_alpha c = false -> one_line first ->
  (exists body', body = 10 :: body') -> Forall (facet_numbers loose_number) fs -> words (body_words fs) body r -> file_end r ->
  exists faces, parse_text strtod find f = SOk faces /\ Forall2 face_like faces fs.
Proof.
  intros E C OL (body' & EB) N W FE. rewrite parse_text_eq.
  destruct (tok_st f start f false start_at) as (p1 & -> & H1 & K1); [discriminate|cbn; lia|]. cbn [sbind].
  assert (T : typ p1 = K_SOLID).
  { unfold Stltext_proofs4.st in H1. 
    assert (PE : ptok f false = (K_SOLID, chars "solid", (c :: first) ++ body, true)).
    { rewrite E. apply (ptok_kw _ _ [] _ false kw_solid); [constructor|discriminate|exact C]. }
    rewrite PE in H1. apply H1. }
  rewrite (parse_solid_eq p1 T). destruct (solid_line _ p1 E C H1) as (p2 & -> & K2 & H2). cbn [sbind].
  cbn [app tl] in H2. rewrite dropw_app in H2 by (apply one_line_in, OL). rewrite EB in H2. cbn [dropw in_line Z.eqb Pos.eqb negb andb] in H2.
  assert (H3 : st p2 body true) by (rewrite EB; unfold Stltext_proofs4.st in *; rewrite ptok_newline; exact H2).
  destruct (rest_complete p2 body fs r H3) as (p3 & -> & (m & ls & A1 & A2 & A3) & T3); try assumption.
  { unfold many. rewrite E, !app_length. cbn [length]. lia. }
  cbn [sbind]. destruct (make_faces_text _ _ _ A3) as (faces & MF & FF).
  destruct (kept_trans _ _ _ K1 K2) as [Q1 Q2]. rewrite Q2 in A2. cbn in A2. rewrite A2, MF. cbn [sbind]. rewrite T3. cbn. eauto.
Qed.
End File.

Lemma number_loose w : number w -> loose_number w.
Proof.
  intros (s & d & fr & e & -> & S & D & F & E & NE). exists s, d, fr, e. split; [reflexivity|]. split; [exact S|]. split; [exact D|].
  split; [exact F|]. split.
  - destruct E as [E|(x & s' & d' & E & X & S' & D' & _)]; [auto|]. right. exists x, s', d'. auto.
  - intros Z. apply app_eq_nil in Z as [_ Z]. apply app_eq_nil in Z as [-> ->]. destruct NE as [NE|(d' & NE & _)]; [congruence|discriminate NE].
Qed.
Lemma facet_loose fc : facet_numbers number fc -> facet_numbers loose_number fc.
Proof. intros (A & B & C & D). repeat split; apply number_loose; first [apply A|apply B|apply C|apply D]. Qed.
