(** Reading in place is the same as reading a copy: tokens. *)
From Coq Require Import ZArith Bool String List Lia ZifyBool.
From Verif Require Import Stl_model Stltext_model Stltext_spec Stltext_proofs.
Import ListNotations.
Local Open Scope Z_scope.

(** what follows a number, if s starts with one *)
Definition opt (P : Z -> bool) (k : list Z -> list Z) (s : list Z) : list Z :=
  match s with c :: r => if P c then k r else s | [] => [] end.
Definition is_sign (c : Z) : bool := (c =? 45) || (c =? 43).
Definition is_e (c : Z) : bool := (c =? 101) || (c =? 69).
Definition is_dot (c : Z) : bool := c =? 46.
Definition expo (s : list Z) : list Z := opt is_e (fun r => dropw is_digit (opt is_sign (fun r => r) r)) s.
Definition frac (s : list Z) : list Z := opt is_dot (dropw is_digit) s.
Definition num_rest (s : list Z) : list Z := expo (frac (dropw is_digit (opt is_sign (fun r => r) s))).
Definition num_start (c : Z) : bool := (c =? 43) || (c =? 45) || (c =? 46) || is_digit c.
Definition used (s r : list Z) : list Z := firstn (length s - length r) s.

(** a token of a copy of the file: type, text, what follows, and whether the byte there is overwritten *)
Definition ptok (s : list Z) (g : bool) : Z * list Z * list Z * bool :=
  let s1 := dropw is_space s in
  let g1 := g && negb (starts is_space s) in
  match s1 with
  | [] => (T_EOF, [], [], false)
  | c :: r =>
      if num_start c then
        if g1 then (T_ERROR, [], s1, g1) else (T_FLOAT, unplus (used s1 (num_rest s1)), num_rest s1, true)
      else if is_alpha c then
        if g1 then (T_ERROR, [], s1, g1)
        else (sieve_id (takew is_alpha s1) (length (takew is_alpha s1)), takew is_alpha s1, dropw is_alpha s1, true)
      else if negb (c <? 128) then (T_ERROR, [], s1, g1)
      else (c, [], r, false)
  end.

Section Tok.
Variable f : list Z.
Notation size := (length f).
Notation at_ := (at_ f).

(** moving over w, which has no NUL *)
Definition goes (l : lex) (s : list Z) (l' : lex) (s' : list Z) (w : list Z) : Prop :=
  s = w ++ s' /\ Forall (fun c => c <> 0) w /\ (exists g, at_ l' s' g) /\ mem l' = mem l /\ lpos l' = (lpos l + length w)%nat.
Lemma goes_trans l s l1 s1 w1 l2 s2 w2 : goes l s l1 s1 w1 -> goes l1 s1 l2 s2 w2 -> goes l s l2 s2 (w1 ++ w2).
Proof.
  intros (A1 & B1 & _ & D1 & E1) (A2 & B2 & C2 & D2 & E2). split; [rewrite A1, A2, app_assoc; reflexivity|].
  split; [apply Forall_app; auto|]. split; [exact C2|]. split; [congruence|]. rewrite app_length. lia.
Qed.
Lemma goes_refl l s g : at_ l s g -> goes l s l s [].
Proof. intros H. split; [reflexivity|]. split; [constructor|]. split; [eauto|]. split; [reflexivity|cbn; lia]. Qed.

Lemma next_goes l c s g : at_ l (c :: s) g -> c <> 0 -> exists l', lex_next size l = SOk l' /\ goes l (c :: s) l' s [c] /\ at_ l' s false.
Proof.
  intros H N. destruct (lex_next_ok f _ _ _ H) as (l' & -> & A & B & C). exists l'. split; [reflexivity|]. cbn in *.
  split; [|exact A]. split; [reflexivity|]. split; [auto|]. split; [eauto|]. split; [exact B|exact C].
Qed.
Lemma at_length l s g : at_ l s g -> (length s < S (S size))%nat.
Proof. intros H. rewrite (skipn_len f _ _ _ H). lia. Qed.
Lemma skip_goes P l s g : P 0 = false -> at_ l s g -> exists l', skip_while size P (many size) l = SOk l' /\
  goes l s l' (dropw P s) (takew P s) /\ at_ l' (dropw P s) (g && negb (starts P s)).
Proof.
  intros P0 H. destruct (skip_while_ok f P P0 (many size) l s g H) as (l' & -> & A & B & C); [exact (at_length _ _ _ H)|].
  exists l'. split; [reflexivity|]. split; [|exact A].
  split; [symmetry; apply takew_dropw|]. split.
  - eapply Forall_impl; [|apply takew_all]. cbn beta. intros c E ->. congruence.
  - split; [eauto|]. split; [exact B|exact C].
Qed.

(** an optional part: a character, and something more *)
Lemma opt_goes P (k : lex -> sres lex) (kr : list Z -> list Z) l s g : P 0 = false -> at_ l s g ->
  (forall l1 s1 g1, at_ l1 s1 g1 -> exists l2 w, k l1 = SOk l2 /\ goes l1 s1 l2 (kr s1) w) ->
  exists l' w, (if P (cur l) then sbind (lex_next size l) k else SOk l) = SOk l' /\ goes l s l' (opt P kr s) w.
Proof.
  intros P0 H K. rewrite (a_cur _ _ _ _ H). destruct s as [|c s]; cbn [nth opt].
  - rewrite P0. exists l, []. split; [reflexivity|]. eapply goes_refl, H.
  - destruct (P c) eqn:E.
    + destruct (next_goes _ _ _ _ H) as (l1 & -> & G1 & A1); [intros ->; congruence|]. cbn [sbind].
      destruct (K l1 s false A1) as (l2 & w & -> & G2). exists l2, ([c] ++ w). split; [reflexivity|].
      eapply goes_trans; eassumption.
    + exists l, []. split; [reflexivity|]. eapply goes_refl, H.
Qed.

Lemma frac_goes l s g : at_ l s g -> exists l' w,
  (if cur l =? 46 then let% l := lex_next size l in skip_while size is_digit (many size) l else SOk l) = SOk l' /\
  goes l s l' (frac s) w.
Proof.
  intros H. apply (opt_goes is_dot (skip_while size is_digit (many size)) (dropw is_digit) l s g eq_refl H).
  intros l1 s1 g1 H1. destruct (skip_goes is_digit l1 s1 g1 eq_refl H1) as (l2 & E & G & _). eauto.
Qed.
Lemma expo_goes l s g : at_ l s g -> exists l' w,
  (if (cur l =? 101) || (cur l =? 69) then
     let% l := lex_next size l in
     let% l := if (cur l =? 45) || (cur l =? 43) then lex_next size l else SOk l in
     skip_while size is_digit (many size) l
   else SOk l) = SOk l' /\ goes l s l' (expo s) w.
Proof.
  intros H.
  apply (opt_goes is_e (fun l => let% l := if (cur l =? 45) || (cur l =? 43) then lex_next size l else SOk l in
     skip_while size is_digit (many size) l) (fun r => dropw is_digit (opt is_sign (fun r => r) r)) l s g eq_refl H).
  intros l1 s1 g1 H1.
  destruct (opt_goes is_sign SOk (fun r => r) l1 s1 g1 eq_refl H1) as (l2 & w & E & G).
  { intros l3 s3 g3 H3. exists l3, []. split; [reflexivity|]. eapply goes_refl, H3. }
  replace (if (cur l1 =? 45) || (cur l1 =? 43) then lex_next size l1 else SOk l1) with (SOk (A := lex) l2).
  2:{ rewrite <- E. unfold is_sign. destruct ((cur l1 =? 45) || (cur l1 =? 43)); [|reflexivity]. destruct (lex_next size l1); reflexivity. }
  cbn [sbind]. pose proof G as (_ & _ & (g2 & H2) & _).
  destruct (skip_goes is_digit l2 _ g2 eq_refl H2) as (l3 & E3 & G3 & _). exists l3, (w ++ takew is_digit (opt is_sign (fun r => r) s1)).
  split; [exact E3|]. eapply goes_trans; eassumption.
Qed.

(** the part behind the sign *)
Lemma unsigned_goes l s g : at_ l s g -> exists l' w,
  (let% l := skip_while size is_digit (many size) l in
   let% l := if cur l =? 46 then (let% l := lex_next size l in skip_while size is_digit (many size) l) else SOk l in
   if (cur l =? 101) || (cur l =? 69) then
     let% l := lex_next size l in
     let% l := if (cur l =? 45) || (cur l =? 43) then lex_next size l else SOk l in
     skip_while size is_digit (many size) l
   else SOk l) = SOk l' /\ goes l s l' (expo (frac (dropw is_digit s))) w.
Proof.
  intros H. destruct (skip_goes is_digit l s g eq_refl H) as (l1 & -> & G1 & H1). cbn [sbind].
  destruct (frac_goes _ _ _ H1) as (l2 & w2 & -> & G2). cbn [sbind].
  pose proof G2 as (_ & _ & (g2 & H2) & _).
  destruct (expo_goes _ _ _ H2) as (l3 & w3 & -> & G3). eexists _, _. split; [reflexivity|].
  eapply goes_trans; [exact G1|]. eapply goes_trans; [exact G2|exact G3].
Qed.

Lemma used_goes l s l' s' w : goes l s l' s' w -> used s s' = w.
Proof.
  intros (-> & _). unfold used. rewrite app_length. replace (length w + length s' - length s')%nat with (length w) by lia.
  rewrite firstn_app, Nat.sub_diag, firstn_all, app_nil_r. reflexivity.
Qed.

(** the end of [lex_float] *)
Lemma float_end l s : at_ l s false -> exists l',
  (let% l := skip_while size is_digit (many size) l in
   let% l := if cur l =? 46 then (let% l := lex_next size l in skip_while size is_digit (many size) l) else SOk l in
   let% l := if (cur l =? 101) || (cur l =? 69) then
     let% l := lex_next size l in
     let% l := if (cur l =? 45) || (cur l =? 43) then lex_next size l else SOk l in
     skip_while size is_digit (many size) l
   else SOk l in
   zap l) = SOk l' /\ at_ l' (expo (frac (dropw is_digit s))) true /\
   cstr (mem l') (lpos l) = Some (used s (expo (frac (dropw is_digit s)))).
Proof.
  intros H. destruct (unsigned_goes _ _ _ H) as (l1 & w & E & G).
  pose proof G as (E1 & W & (g1 & H1) & M & Q).
  destruct (zap_ok f _ _ _ H1) as (l2 & Z2 & H2 & P2 & M2). exists l2. split.
  - revert E. destruct (skip_while size is_digit (many size) l) as [l3| | |]; cbn [sbind]; try discriminate.
    match goal with |- sbind ?x _ = SOk l1 -> _ => destruct x as [l4| | |] end; cbn [sbind]; try discriminate.
    intros ->. cbn [sbind]. exact Z2.
  - split; [exact H2|]. rewrite M2, (used_goes _ _ _ _ _ G). rewrite E1 in H. eapply cstr_token; eassumption.
Qed.

Lemma float_ok l c s : at_ l (c :: s) false -> num_start c = true -> exists l' st, lex_float size l = SOk (l', T_FLOAT, st) /\
  at_ l' (num_rest (c :: s)) true /\ (st <= size)%nat /\ cstr (mem l') st = Some (unplus (used (c :: s) (num_rest (c :: s)))).
Proof.
  intros H N. unfold lex_float. rewrite (deref_ok f _ _ _ H). cbn [sbind nth].
  assert (C0 : c <> 0) by (intros ->; discriminate N).
  destruct (Z.eqb_spec c 0) as [E|_]; [contradiction|]. rewrite (a_cur _ _ _ _ H). cbn [nth].
  set (K := fun l => let% l := skip_while size is_digit (many size) l in
   let% l := if cur l =? 46 then (let% l := lex_next size l in skip_while size is_digit (many size) l) else SOk l in
   let% l := if (cur l =? 101) || (cur l =? 69) then
     let% l := lex_next size l in
     let% l := if (cur l =? 45) || (cur l =? 43) then lex_next size l else SOk l in
     skip_while size is_digit (many size) l
   else SOk l in
   zap l).
  assert (KE : forall l1 (st : nat),
   (let% l := skip_while size is_digit (many size) l1 in
    let% l := if cur l =? 46 then (let% l := lex_next size l in skip_while size is_digit (many size) l) else SOk l in
    let% l := if (cur l =? 101) || (cur l =? 69) then
      let% l := lex_next size l in
      let% l := if (cur l =? 45) || (cur l =? 43) then lex_next size l else SOk l in
      skip_while size is_digit (many size) l
    else SOk l in
    let% l := zap l in
    SOk (l, T_FLOAT, st)) = let% l := K l1 in SOk (l, T_FLOAT, st)).
  { intros l1 st. unfold K.
    destruct (skip_while size is_digit (many size) l1) as [l3| | |]; cbn [sbind]; try reflexivity.
    match goal with |- sbind ?x _ = _ => destruct x as [l4| | |] end; cbn [sbind]; try reflexivity.
    match goal with |- sbind ?x _ = _ => destruct x as [l5| | |] end; cbn [sbind]; reflexivity. }
  assert (LE : forall l1 s1 g1, at_ l1 s1 g1 -> (lpos l1 <= size)%nat) by (intros l1 s1 g1 H1; exact (a_pos _ _ _ _ H1)).
  unfold num_rest. cbn [opt]. unfold is_sign.
  destruct (Z.eqb_spec c 43) as [->|N1].
  - destruct (next_goes _ _ _ _ H C0) as (l1 & -> & G1 & H1). cbn [sbind orb Z.eqb Pos.eqb].
    destruct (float_end l1 s H1) as (l2 & E2 & H2 & S2). rewrite KE. unfold K. rewrite E2. cbn [sbind].
    exists l2, (lpos l1). split; [reflexivity|]. split; [exact H2|]. split; [eapply LE, H1|]. rewrite S2. f_equal.
    destruct (unsigned_goes _ _ _ H1) as (l3 & w & _ & G3). rewrite (used_goes _ _ _ _ _ G3).
    rewrite (used_goes _ _ _ _ _ (goes_trans _ _ _ _ _ _ _ _ G1 G3)). reflexivity.
  - assert (UP : forall r, unplus (used (c :: s) r) = used (c :: s) r).
    { intros r. unfold used. destruct (length (c :: s) - length r)%nat as [|n]; [reflexivity|]. cbn [firstn unplus].
      destruct (Z.eqb_spec c 43); [contradiction|reflexivity]. }
    rewrite UP. destruct (Z.eqb_spec c 45) as [->|N2].
    + destruct (next_goes _ _ _ _ H C0) as (l1 & -> & G1 & H1). cbn [sbind orb].
      destruct (unsigned_goes _ _ _ H1) as (l3 & w & EW & G3).
      destruct (float_end l1 s H1) as (l2 & E2 & H2 & S2). rewrite KE. unfold K. rewrite E2. cbn [sbind].
      exists l2, (lpos l). split; [reflexivity|]. split; [exact H2|]. split; [eapply LE, H|].
      pose proof (goes_trans _ _ _ _ _ _ _ _ G1 G3) as G. rewrite (used_goes _ _ _ _ _ G).
      pose proof G as (EG & WG & (g3 & H3) & MG & PG).
      assert (ML : mem l2 = poke (mem l3) (lpos l3) 0).
      { revert E2 EW. clear. destruct (skip_while size is_digit (many size) l1) as [a| | |]; cbn [sbind]; try discriminate.
        match goal with |- sbind ?x _ = SOk l2 -> _ => destruct x as [b| | |] end; cbn [sbind]; try discriminate.
        intros E EQ. rewrite EQ in E. cbn [sbind] in E. revert E. unfold zap. destruct (Nat.ltb _ _); [|discriminate]. intros [= <-]. reflexivity. }
      rewrite ML. rewrite EG in H. eapply cstr_token; eassumption.
    + cbn [orb sbind]. destruct (float_end l (c :: s) H) as (l2 & E2 & H2 & S2). rewrite KE. unfold K. rewrite E2. cbn [sbind].
      exists l2, (lpos l). split; [reflexivity|]. split; [exact H2|]. split; [eapply LE, H|exact S2].
Qed.

Lemma id_ok l c s : at_ l (c :: s) false -> is_alpha c = true -> exists l' st, lex_id size l = SOk (l', T_ID, st) /\
  at_ l' (dropw is_alpha (c :: s)) true /\ (st <= size)%nat /\ cstr (mem l') st = Some (takew is_alpha (c :: s)) /\
  (lpos l' - st = length (takew is_alpha (c :: s)))%nat.
Proof.
  intros H N. unfold lex_id. rewrite (deref_ok f _ _ _ H). cbn [sbind nth].
  destruct (Z.eqb_spec c 0) as [->|C0]; [discriminate N|].
  destruct (skip_goes is_alpha l (c :: s) false eq_refl H) as (l1 & -> & G & H1). cbn [sbind].
  destruct (zap_ok f _ _ _ H1) as (l2 & -> & H2 & P2 & M2). cbn [sbind].
  exists l2, (lpos l). split; [reflexivity|]. split; [exact H2|]. split; [exact (a_pos _ _ _ _ H)|].
  pose proof G as (EG & WG & _ & MG & PG). split; [|rewrite P2, PG; lia].
  rewrite M2. rewrite EG in H. eapply cstr_token; eassumption.
Qed.

Lemma num_alpha c : num_start c = true -> is_alpha c = false.
Proof. unfold num_start, is_digit, is_alpha. lia. Qed.

Lemma tok_next_ok p s g : at_ (lx p) s g -> typ p <> T_ERROR -> (tstr p <= size)%nat ->
  exists l' st, tok_next size p = SOk (mk_text l' (fst (fst (fst (ptok s g)))) st (tpts p) (tfaces p)) /\
    at_ l' (snd (fst (ptok s g))) (snd (ptok s g)) /\ (st <= size)%nat /\
    (fst (fst (fst (ptok s g))) = T_FLOAT -> cstr (mem l') st = Some (snd (fst (fst (ptok s g))))).
Proof.
  intros H T ST. unfold tok_next. destruct (Z.eqb_spec (typ p) T_ERROR); [contradiction|].
  unfold tok_next_aux. destruct (skip_goes is_space (lx p) s g eq_refl H) as (l1 & -> & _ & H1). cbn [sbind].
  unfold ptok. set (s1 := dropw is_space s) in *. set (g1 := g && negb (starts is_space s)) in *.
  rewrite (a_cur _ _ _ _ H1). pose proof (a_pos _ _ _ _ H1) as LP. fold (num_start (nth 0 s1 0)).
  destruct s1 as [|c r]; cbn [nth].
  - cbn. destruct (lex_next_ok f _ _ _ H1) as (l2 & -> & H2 & _). cbn. exists l2, (lpos l1).
    split; [reflexivity|]. split; [exact H2|]. split; [exact LP|discriminate].
  - destruct (num_start c) eqn:NS.
    + destruct g1.
      * unfold lex_float. rewrite (deref_ok f _ _ _ H1). cbn. exists l1, (lpos l1).
        split; [reflexivity|]. split; [exact H1|]. split; [exact LP|discriminate].
      * destruct (float_ok l1 c r H1 NS) as (l2 & st & -> & H2 & L2 & S2). cbn [sbind fst snd].
        exists l2, st. split; [reflexivity|]. split; [exact H2|]. split; [exact L2|]. intros _. exact S2.
    + destruct (is_alpha c) eqn:AL.
      * destruct g1.
        -- unfold lex_id. rewrite (deref_ok f _ _ _ H1). cbn. exists l1, (lpos l1).
           split; [reflexivity|]. split; [exact H1|]. split; [exact LP|discriminate].
        -- destruct (id_ok l1 c r H1 AL) as (l2 & st & -> & H2 & L2 & S2 & Q2). cbn [sbind fst snd]. rewrite Z.eqb_refl, S2, Q2.
           cbn [sbind]. exists l2, st. split; [reflexivity|]. split; [exact H2|]. split; [exact L2|]. intros _. exact S2.
      * destruct (negb (c <? 128)) eqn:BIG.
        -- cbn. exists l1, (lpos l1). split; [reflexivity|]. split; [exact H1|]. split; [exact LP|discriminate].
        -- destruct (lex_next_ok f _ _ _ H1) as (l2 & -> & H2 & _). cbn [sbind fst snd tl] in *. exists l2, (lpos l1).
           destruct (Z.eqb_spec c T_ID) as [->|_]; [discriminate BIG|]. cbn [sbind].
           split; [reflexivity|]. split; [exact H2|]. split; [exact LP|]. intros ->. discriminate BIG.
Qed.

(** the rest of a line *)
Definition in_line (c : Z) : bool := negb (c =? 10) && negb (c =? 0).
Lemma to_line_end_ok : forall fuel l s, at_ l s false -> (length s < fuel)%nat ->
  exists l', to_line_end size fuel l = SOk l' /\ at_ l' (dropw in_line s) false.
Proof.
  induction fuel as [|fuel IH]; intros l s H L; [lia|]. cbn [to_line_end]. rewrite (deref_ok f _ _ _ H). cbn [sbind].
  destruct s as [|c s]; cbn [nth dropw].
  - exists l. split; [reflexivity|exact H].
  - fold (in_line c). destruct (in_line c).
    + destruct (lex_next_ok f _ _ _ H) as (l1 & -> & H1 & _). cbn [sbind tl] in *. apply IH; [exact H1|cbn in L; lia].
    + exists l. split; [reflexivity|exact H].
Qed.
Lemma tok_next_line_ok p s g : at_ (lx p) s g -> typ p <> T_ERROR ->
  exists l' st, tok_next_line size p = SOk (mk_text l' T_STRING st (tpts p) (tfaces p)) /\
    at_ l' (dropw in_line (tl s)) false /\ (st <= size)%nat.
Proof.
  intros H T. unfold tok_next_line. destruct (Z.eqb_spec (typ p) T_ERROR); [contradiction|].
  destruct (lex_next_ok f _ _ _ H) as (l1 & -> & H1 & _). cbn [sbind].
  destruct (to_line_end_ok (many size) l1 _ H1) as (l2 & -> & H2); [exact (at_length _ _ _ H1)|]. cbn [sbind].
  exists l2, (lpos l1). split; [reflexivity|]. split; [exact H2|]. exact (a_pos _ _ _ _ H1).
Qed.
End Tok.
