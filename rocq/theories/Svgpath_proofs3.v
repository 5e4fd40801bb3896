(** What is accepted is path data. *)
From Coq Require Import ZArith List Bool Lia ZifyBool.
From Verif Require Import Svgpath_model Svgpath_spec Svgpath_proofs Svgpath_proofs2.
Import ListNotations.
Local Open Scope Z_scope.

(** what a separator is *)
Lemma sep_false_inv t : exists a, spaces a /\ t = a ++ s_sep false t /\
  match s_sep false t with [] => True | c :: _ => ~ space c end.
Proof.
  induction t as [|c t (a & A & E & H)]; [exists []; repeat split; constructor|].
  cbn. destruct (is_space c) eqn:S.
  - exists (c :: a). split; [constructor; [now apply space_iff|assumption]|]. split; [cbn; congruence|assumption].
  - exists []. split; [constructor|]. split; [reflexivity|]. intros N. apply space_iff in N. congruence.
Qed.
Lemma sep_inv b t : exists a, sep b a /\ t = a ++ s_sep b t.
Proof.
  destruct b.
  2:{ destruct (sep_false_inv t) as (a & A & E & _). exists a. split; [now left|assumption]. }
  induction t as [|c t (a & A & E)]; [exists []; split; [left; constructor|reflexivity]|]. cbn.
  destruct (c =? 44) eqn:C; cbn.
  - apply Z.eqb_eq in C as ->. destruct (sep_false_inv t) as (a' & A' & E' & _). exists (44 :: a'). split; [|cbn; congruence].
    right. split; [reflexivity|]. exists [], a'. split; [constructor|]. auto.
  - destruct (is_space c) eqn:S.
    + exists (c :: a). split; [|cbn; congruence]. apply space_iff in S. destruct A as [A|(_ & x & y & X & Y & ->)].
      * left. constructor; assumption.
      * right. split; [reflexivity|]. exists (c :: x), y. split; [constructor; assumption|]. auto.
    + exists []. split; [left; constructor|reflexivity].
Qed.

Lemma mant_sound dot d t : exists m, t = m ++ snd (mant dot d t) /\
  (exists a b, digits a /\ digits b /\ (m = a \/ (dot = false /\ m = a ++ 46 :: b)) /\
     (fst (mant dot d t) = (d || negb (Nat.eqb (length (a ++ if list_eq_dec Z.eq_dec m a then [] else b)) 0)))) /\
  match snd (mant dot d t) with [] => True | c :: _ => ~ digit c /\ (c = 46 -> dot = true \/ In 46 m) end.
Proof.
  revert dot d. induction t as [|c t IH]; intros dot d; cbn.
  - exists []. split; [reflexivity|]. split; [|exact I]. exists [], []. cbn. rewrite orb_false_r. repeat split; try constructor. reflexivity.
  - destruct (is_digit c) eqn:C.
    + destruct (IH dot true) as (m & E & (a & b & A & B & M & F) & L). exists (c :: m). split; [cbn; congruence|]. split.
      * exists (c :: a), b. apply digit_iff in C. split; [constructor; assumption|]. split; [assumption|]. split.
        { destruct M as [->|[-> ->]]; [left; reflexivity|right; split; reflexivity]. }
        rewrite F. cbn. rewrite !orb_true_r. reflexivity.
      * destruct (snd (mant dot true t)); [exact I|]. cbn. tauto.
    + assert (ND : ~ digit c) by (intros H; apply digit_iff in H; congruence).
      destruct (negb dot && (c =? 46)) eqn:P.
      * assert (c = 46) as -> by lia. assert (dot = false) as -> by (destruct dot; [discriminate|reflexivity]).
        destruct (IH true d) as (m & E & (a & b & A & B & M & F) & L). exists (46 :: m). split; [cbn; congruence|]. split.
        -- destruct M as [->|[M _]]; [|discriminate M]. exists [], a. split; [constructor|]. split; [assumption|]. split; [right; auto|].
           rewrite F. destruct (list_eq_dec Z.eq_dec a a) as [_|N]; [|congruence]. rewrite app_nil_r.
           destruct (list_eq_dec Z.eq_dec (46 :: a) []) as [N|_]; [discriminate N|]. reflexivity.
        -- destruct (snd (mant true d t)); [exact I|]. split; [apply L|]. intros _. right. now left.
      * exists []. split; [reflexivity|]. split.
        -- exists [], []. cbn. rewrite orb_false_r. repeat split; try constructor; reflexivity.
        -- cbn. split; [assumption|]. intros ->. destruct dot; [now left|discriminate P].
Qed.

Lemma mant_inv t s : mant false false t = (true, s) -> exists m, mantissa m /\ t = m ++ s /\
  match s with [] => True | c :: _ => ~ digit c /\ (c = 46 -> In 46 m) end.
Proof.
  intros H. destruct (mant_sound false false t) as (m & E & (a & b & A & B & M & F) & L). rewrite H in E, F, L. cbn [fst snd] in *.
  exists m. split; [|split; [assumption|]].
  - cbn [orb] in F. destruct M as [->|[_ ->]].
    + constructor; [assumption|]. intros ->. cbn in F. discriminate F.
    + apply m_dot; try assumption. intros N. destruct (list_eq_dec Z.eq_dec (a ++ 46 :: b) a) as [N'|_].
      * apply (f_equal (@length Z)) in N'. rewrite app_length in N'. cbn in N'. lia.
      * rewrite N in F. discriminate F.
  - destruct s; [exact I|]. split; [apply L|]. intros Z. destruct (proj2 L Z); [discriminate|assumption].
Qed.

Lemma exp_inv h t r : exp_digits h t = (true, r) -> exists ds, digits ds /\ t = ds ++ r /\ (h = false -> ds <> []) /\ ~ digit (hd0 r).
Proof.
  revert h. induction t as [|c t IH]; intros h; cbn.
  - intros H. injection H as -> <-. exists []. split; [constructor|]. repeat split; [discriminate|]. cbn. unfold digit. lia.
  - destruct (is_digit c) eqn:C.
    + intros H. destruct (IH _ H) as (ds & A & B & _ & E). exists (c :: ds). apply digit_iff in C.
      split; [constructor; assumption|]. split; [cbn; congruence|]. split; [discriminate|assumption].
    + intros H. injection H as -> <-. exists []. split; [constructor|]. repeat split; [discriminate|]. cbn. rewrite <- digit_iff. congruence.
Qed.

(** the next character does not continue a number *)
Definition goodrest (r : text) : Prop := match r with [] => True | c :: _ => c <> 101 /\ c <> 69 /\ c <> 120 /\ c <> 88 end.

Lemma sign_inv t : exists s, (s = [] \/ s = [43] \/ s = [45]) /\ t = s ++ skip_sign t.
Proof.
  destruct t as [|c t]; [exists []; auto|]. cbn. destruct ((c =? 45) || (c =? 43)) eqn:E.
  - exists [c]. split; [|reflexivity]. assert (c = 45 \/ c = 43) as [-> | ->] by lia; auto.
  - exists []. auto.
Qed.

Lemma str_float_inv t r : str_float t = Some r -> goodrest r -> exists w, num false w /\ t = w ++ r /\ ends w r.
Proof.
  unfold str_float. destruct (sign_inv t) as (sg & S & ET).
  destruct (mant false false (skip_sign t)) as [d s] eqn:M. destruct d; cbn [negb]; [|discriminate].
  destruct (mant_inv _ _ M) as (m & MM & EM & L).
  assert (PLAIN : r = s -> goodrest r -> exists w, num false w /\ t = w ++ r /\ ends w r).
  { intros -> G. exists (sg ++ m). split; [|split].
    - exists sg, m, []. rewrite app_nil_r. repeat split; auto. constructor.
    - rewrite <- app_assoc, <- EM. exact ET.
    - destruct s as [|c s]; [exact I|]. cbn in G. cbn. split; [apply L|]. split; [|tauto].
      intros Z. left. apply in_or_app. right. now apply L. }
  destruct ((hd0 s =? 101) || (hd0 s =? 69)) eqn:E.
  - destruct s as [|c s]; [discriminate E|]. cbn [hd0 hd] in E.
    assert (SK : skip_sign (c :: s) = c :: s) by (cbn; replace ((c =? 45) || (c =? 43)) with false by lia; reflexivity).
    cbn [tl]. destruct (exp_digits false s) as [h t'] eqn:X. destruct h; intros H G.
    + injection H as <-. destruct (exp_inv _ _ _ X) as (ds & A & B & N & C). specialize (N eq_refl).
      exists (sg ++ m ++ c :: ds). split; [|split].
      * exists sg, m, (c :: [] ++ ds). repeat split; auto. constructor; auto. lia.
      * rewrite <- !app_assoc. cbn. rewrite <- B, <- EM. exact ET.
      * destruct t' as [|x t']; [exact I|]. cbn in C, G |- *. split; [assumption|]. split; [|tauto].
        intros _. right. rewrite !in_app_iff. assert (c = 101 \/ c = 69) as [-> | ->] by lia; cbn; auto 6.
    + rewrite SK in H. injection H as <-. cbn in G. lia.
  - intros H G. injection H as <-. now apply PLAIN.
Qed.

Section S.
Variable D : Type.
Variables (dzero : D) (dadd dmir : D -> D -> D) (deq : D -> D -> bool).
Variable quad_in : pt D -> pt D -> pt D -> list (pt D).
Variable cub_in : pt D -> pt D -> pt D -> pt D -> list (pt D).
Variable strtod : text -> D * nat.
Variable val : text -> D.
Hypothesis ST : strtod_reads D val strtod.

Notation s_double := (s_double D strtod).
Notation s_nums := (s_nums D strtod).
Notation loop := (loop D strtod).
Notation group := (group D strtod).
Notation command := (command D dzero dadd dmir deq quad_in cub_in strtod).
Notation str_path := (str_path D dzero dadd dmir deq quad_in cub_in strtod).
Notation nums := (nums D val).
Notation run := (run D dzero dadd dmir deq quad_in cub_in).
Notation exec := (exec D dzero dadd dmir deq quad_in cub_in).

Lemma double_sound b t v r : s_double b t = Some (v, r) -> goodrest r ->
  exists sp w, sep b sp /\ num false w /\ ends w r /\ v = val w /\ t = sp ++ w ++ r.
Proof.
  unfold Svgpath_model.s_double. destruct (sep_inv b t) as (sp & S & E).
  destruct (str_float (s_sep b t)) as [x|] eqn:F; [|discriminate].
  destruct (strtod (s_sep b t)) as [v' n] eqn:SD. destruct (Nat.eqb _ _) eqn:EN; [|discriminate].
  intros H G. injection H as <- <-. destruct (str_float_inv _ _ F G) as (w & N & EW & EE).
  exists sp, w. rewrite EW in SD. rewrite (ST w x (num_signed w N) EE) in SD. injection SD as <- _.
  repeat split; auto. now rewrite <- EW.
Qed.

Lemma double_good b t v r : s_double b t = Some (v, r) -> goodrest t.
Proof.
  unfold Svgpath_model.s_double. destruct (sep_inv b t) as (sp & S & E).
  destruct (str_float (s_sep b t)) as [x|] eqn:F; [|discriminate]. intros _.
  destruct sp as [|c sp].
  - cbn in E. rewrite E. clear E. generalize dependent (s_sep b t). intros u F.
    unfold str_float in F. destruct (sign_inv u) as (sg & SG & EU).
    destruct (mant false false (skip_sign u)) as [d s] eqn:M. destruct d; cbn [negb] in F; [|discriminate].
    destruct (mant_inv _ _ M) as (m & MM & EM & L). destruct (mant_start m MM) as (c & r' & -> & C).
    rewrite EU, EM. unfold digit in C. destruct SG as [ -> | [ -> | -> ]]; cbn; lia.
  - rewrite E. cbn. destruct S as [S|(_ & a & b' & A & B & ED)].
    + inversion S; subst. unfold space in *. lia.
    + destruct A as [|x0 a X A]; cbn in ED; injection ED as -> _; unfold space in *; lia.
Qed.

Lemma nums_good n b t vs r : s_nums n b t = Some (vs, r) -> goodrest r -> goodrest t.
Proof.
  destruct n as [|n]; cbn.
  - intros H. injection H as <- <-. auto.
  - destruct (s_double b t) as [[v t']|] eqn:E; [|discriminate]. intros _ _. exact (double_good _ _ _ _ E).
Qed.

Lemma nums_sound n b t vs r : s_nums n b t = Some (vs, r) -> goodrest r -> nums false b vs t r /\ length vs = n.
Proof.
  revert b t vs. induction n as [|n IH]; intros b t vs; cbn.
  - intros H. injection H as <- <-. intros _. split; [constructor|reflexivity].
  - destruct (s_double b t) as [[v t']|] eqn:E; [|discriminate].
    destruct (s_nums n true t') as [[vs' t'']|] eqn:E'; [|discriminate].
    intros H G. injection H as <- <-.
    destruct (IH _ _ _ E' G) as [A B].
    destruct (double_sound _ _ _ _ E (nums_good _ _ _ _ _ E' G)) as (sp & w & S & N & EE & -> & ->).
    split; [|cbn; congruence]. constructor; auto.
Qed.

Lemma good_sep t : goodrest (s_sep false t) -> goodrest t.
Proof.
  destruct (sep_false_inv t) as (a & A & E & _). intros G. rewrite E. destruct A as [|c a C A]; [exact G|].
  cbn. unfold space in C. lia.
Qed.

Lemma nums_strip b vs t r : vs <> [] -> nums false b vs (s_sep false t) r -> nums false b vs t r.
Proof.
  intros NE H. destruct (sep_false_inv t) as (a & A & E & _). set (u := s_sep false t) in *. clearbody u. subst t.
  destruct H as [c r|c vs' sp w t' r S N EE H']; [congruence|].
  rewrite app_assoc. constructor; auto.
  destruct S as [S|(-> & x & y & X & Y & ->)].
  - left. apply Forall_app. split; assumption.
  - right. split; [reflexivity|]. exists (a ++ x), y. split; [apply Forall_app; split; assumption|]. split; [assumption|]. now rewrite <- app_assoc.
Qed.

Lemma nums_concat b a c t t' r : nums false b a t t' -> nums false true c t' r -> a <> [] -> nums false b (a ++ c) t r.
Proof.
  induction 1 as [|b vs sp w t t' S N E H IH]; intros HC NE; [congruence|]. cbn. constructor; auto.
  destruct vs as [|x vs]; [inversion H; subst; assumption|]. apply IH; [assumption|discriminate].
Qed.

Lemma loop_sound n other : (0 < n)%nat -> forall fuel t q q' r, loop fuel n other t q = Done D q' r -> goodrest r ->
  goodrest t /\ exists chunks e, Forall (fun v : list D => length v = n) chunks /\ nums false true (concat chunks) t e /\
    r = s_sep false e /\ q' = fold_left (fun q v => other v q) chunks q.
Proof.
  intros N. induction fuel as [|fuel IH]; intros t q q' r; cbn; [discriminate|].
  destruct (looking t).
  - destruct (s_nums n true (s_sep false t)) as [[vs t']|] eqn:E; [|discriminate]. intros H G.
    destruct (IH _ _ _ _ H G) as (G' & chunks & e & F & NU & ER & EQ).
    destruct (nums_sound _ _ _ _ _ E G') as [A B].
    split; [apply good_sep, (nums_good _ _ _ _ _ E G')|].
    assert (NE : vs <> []) by (intros ->; cbn in B; lia).
    exists (vs :: chunks), e. split; [constructor; assumption|]. split; [|split; [assumption|exact EQ]].
    cbn. eapply nums_concat; [apply nums_strip; [assumption|exact A]|exact NU|assumption].
  - intros H G. injection H as <- <-. split; [now apply good_sep|].
    exists [], t. split; [constructor|]. split; [constructor|]. auto.
Qed.

Lemma group_sound n first other t q q' r : (0 < n)%nat -> group n first other t q = Done D q' r -> goodrest r ->
  exists v chunks e, Forall (fun v : list D => length v = n) (v :: chunks) /\ nums false false (concat (v :: chunks)) t e /\
    r = s_sep false e /\ q' = fold_left (fun q v => other v q) chunks (first v q).
Proof.
  intros N. unfold Svgpath_model.group. destruct (s_nums n false (s_sep false t)) as [[vs t']|] eqn:E; [|discriminate]. intros H G.
  destruct (loop_sound n other N _ _ _ _ _ H G) as (G' & chunks & e & F & NU & ER & EQ).
  destruct (nums_sound _ _ _ _ _ E G') as [A B].
  assert (NE : vs <> []) by (intros ->; cbn in B; lia).
  exists vs, chunks, e. split; [constructor; assumption|]. split; [|split; [assumption|exact EQ]].
  cbn. eapply nums_concat; [apply nums_strip; [assumption|exact A]|exact NU|assumption].
Qed.

(** chunks of numbers as arguments *)
Lemma chunks1 l : Forall (fun v : list D => length v = 1%nat) l -> exists xs, l = map (c1 D) xs.
Proof.
  induction 1 as [|v l L F (xs & ->)]; [now exists []|]. destruct v as [|x [|]]; try discriminate L. now exists (x :: xs).
Qed.
Lemma chunks2 l : Forall (fun v : list D => length v = 2%nat) l -> exists xs, l = map (c2 D) xs.
Proof.
  induction 1 as [|v l L F (xs & ->)]; [now exists []|]. destruct v as [|x [|y [|]]]; try discriminate L. now exists ((x, y) :: xs).
Qed.
Lemma chunks4 l : Forall (fun v : list D => length v = 4%nat) l -> exists xs, l = map (c4 D) xs.
Proof.
  induction 1 as [|v l L F (xs & ->)]; [now exists []|]. destruct v as [|a [|b [|c [|d [|]]]]]; try discriminate L.
  now exists ((a, b, (c, d)) :: xs).
Qed.
Lemma chunks6 l : Forall (fun v : list D => length v = 6%nat) l -> exists xs, l = map (c6 D) xs.
Proof.
  induction 1 as [|v l L F (xs & ->)]; [now exists []|]. destruct v as [|a [|b [|c [|d [|e [|f [|]]]]]]]; try discriminate L.
  now exists ((a, b, (c, d), (e, f)) :: xs).
Qed.
Lemma vals1 xs : concat (map (c1 D) xs) = xs.
Proof. induction xs as [|x xs IH]; cbn; [reflexivity|]. now rewrite IH. Qed.
Lemma pairs2 xs : pairs D (concat (map (c2 D) xs)) = Some xs.
Proof. induction xs as [|[x y] xs IH]; cbn; [reflexivity|]. now rewrite IH. Qed.
Lemma pairs4 xs : bnd (pairs D (concat (map (c4 D) xs))) (by2 D) = Some xs.
Proof.
  assert (H : pairs D (concat (map (c4 D) xs)) = Some (flat_map (fun x => [fst x; snd x]) xs)).
  { induction xs as [|[[x y] [z w]] xs IH]; cbn; [reflexivity|]. now rewrite IH. }
  rewrite H. cbn. clear H. induction xs as [|[p q] xs IH]; cbn; [reflexivity|]. now rewrite IH.
Qed.
Lemma pairs6 xs : bnd (pairs D (concat (map (c6 D) xs))) (by3 D) = Some xs.
Proof.
  assert (H : pairs D (concat (map (c6 D) xs)) = Some (flat_map (fun x => [fst (fst x); snd (fst x); snd x]) xs)).
  { induction xs as [|[[[x y] [z w]] [u v]] xs IH]; cbn; [reflexivity|]. now rewrite IH. }
  rewrite H. cbn. clear H. induction xs as [|[[p q] s] xs IH]; cbn; [reflexivity|]. now rewrite IH.
Qed.

Lemma fold_map_exec (A : Type) (ch : A -> list D) (f : A -> cmd D) other l : (forall a q, other (ch a) q = exec (f a) q) ->
  forall q, fold_left (fun q v => other v q) (map ch l) q = run (map f l) q.
Proof. intros O. induction l as [|a l IH]; intros q; cbn; [reflexivity|]. rewrite O. apply IH. Qed.

(** one letter with its numbers *)
Definition reads (c : Z) (t : text) (q q' : st D) (r : text) : Prop :=
  exists vs e cs, nums false false vs t e /\ r = s_sep false e /\ expand D c vs = Some cs /\ q' = run cs q.

Lemma reads_intro (A : Type) n (ch : A -> list D) (f g : A -> cmd D) first other c t q q' r :
  (0 < n)%nat ->
  (forall l, Forall (fun v : list D => length v = n) l -> exists xs, l = map ch xs) ->
  (forall a q, first (ch a) q = exec (g a) q) -> (forall a q, other (ch a) q = exec (f a) q) ->
  (forall x xs, expand D c (concat (map ch (x :: xs))) = Some (g x :: map f xs)) ->
  group n first other t q = Done D q' r -> goodrest r -> reads c t q q' r.
Proof.
  intros N CH G O EX H GR. destruct (group_sound n first other t q q' r N H GR) as (v & chunks & e & F & NU & ER & EQ).
  destruct (CH _ F) as (xs & EX'). destruct xs as [|x xs]; [discriminate EX'|]. cbn in EX'. injection EX' as -> ->.
  exists (concat (map ch (x :: xs))), e, (g x :: map f xs). split; [exact NU|]. split; [assumption|]. split; [apply EX|].
  rewrite EQ, G. rewrite (fold_map_exec A ch f other xs O). reflexivity.
Qed.

Lemma command_sound c t q q' r : command c t q = Done D q' r -> goodrest r ->
  ((c = 90 \/ c = 122) /\ q' = path_close D dzero q /\ r = t) \/ reads c t q q' r.
Proof.
  intros H G. unfold Svgpath_model.command in H.
  assert (E1 : forall (f : D -> cmd D) x xs, some f (Some (concat (map (c1 D) (x :: xs)))) = Some (f x :: map f xs)).
  { intros f x xs. rewrite vals1. reflexivity. }
  assert (E2 : forall (f : pt D -> cmd D) x xs, some f (pairs D (concat (map (c2 D) (x :: xs)))) = Some (f x :: map f xs)).
  { intros f x xs. rewrite pairs2. reflexivity. }
  assert (E4 : forall (f : pt D * pt D -> cmd D) x xs, some f (bnd (pairs D (concat (map (c4 D) (x :: xs)))) (by2 D)) = Some (f x :: map f xs)).
  { intros f x xs. rewrite pairs4. reflexivity. }
  assert (E6 : forall (f : pt D * pt D * pt D -> cmd D) x xs, some f (bnd (pairs D (concat (map (c6 D) (x :: xs)))) (by3 D)) = Some (f x :: map f xs)).
  { intros f x xs. rewrite pairs6. reflexivity. }
  assert (EM : forall rel x xs, match pairs D (concat (map (c2 D) (x :: xs))) with Some (p :: ps) => Some (Move D rel p :: map (Line D rel) ps) | _ => None end = Some (Move D rel x :: map (Line D rel) xs)).
  { intros rel x xs. rewrite pairs2. reflexivity. }
  destruct c as [|c|c]; try discriminate H.
  do 7 (destruct c as [c|c|]; try discriminate H;
    try (left; injection H as <- <-; split; [lia|split; reflexivity])).
  - right. apply (reads_intro _ 4 (c4 D) (fun x => SCub D true (fst x) (snd x)) (fun x => SCub D true (fst x) (snd x)) _ _ 115 t q q' r (Nat.lt_0_succ _) chunks4) in H; try assumption; [intros [[] []] ?; reflexivity|intros [[] []] ?; reflexivity|exact (E4 (fun x => SCub D true (fst x) (snd x)))].
  - right. apply (reads_intro _ 4 (c4 D) (fun x => SCub D false (fst x) (snd x)) (fun x => SCub D false (fst x) (snd x)) _ _ 83 t q q' r (Nat.lt_0_succ _) chunks4) in H; try assumption; [intros [[] []] ?; reflexivity|intros [[] []] ?; reflexivity|exact (E4 (fun x => SCub D false (fst x) (snd x)))].
  - right. apply (reads_intro _ 6 (c6 D) (fun x => Cub D true (fst (fst x)) (snd (fst x)) (snd x)) (fun x => Cub D true (fst (fst x)) (snd (fst x)) (snd x)) _ _ 99 t q q' r (Nat.lt_0_succ _) chunks6) in H; try assumption; [intros [[[] []] []] ?; reflexivity|intros [[[] []] []] ?; reflexivity|exact (E6 (fun x => Cub D true (fst (fst x)) (snd (fst x)) (snd x)))].
  - right. apply (reads_intro _ 6 (c6 D) (fun x => Cub D false (fst (fst x)) (snd (fst x)) (snd x)) (fun x => Cub D false (fst (fst x)) (snd (fst x)) (snd x)) _ _ 67 t q q' r (Nat.lt_0_succ _) chunks6) in H; try assumption; [intros [[[] []] []] ?; reflexivity|intros [[[] []] []] ?; reflexivity|exact (E6 (fun x => Cub D false (fst (fst x)) (snd (fst x)) (snd x)))].
  - right. apply (reads_intro _ 2 (c2 D) (Line D true) (Move D true) _ _ 109 t q q' r (Nat.lt_0_succ _) chunks2) in H; try assumption; [intros [] ?; reflexivity|intros [] ?; reflexivity|exact (EM true)].
  - right. apply (reads_intro _ 2 (c2 D) (Line D false) (Move D false) _ _ 77 t q q' r (Nat.lt_0_succ _) chunks2) in H; try assumption; [intros [] ?; reflexivity|intros [] ?; reflexivity|exact (EM false)].
  - right. apply (reads_intro _ 4 (c4 D) (fun x => Quad D true (fst x) (snd x)) (fun x => Quad D true (fst x) (snd x)) _ _ 113 t q q' r (Nat.lt_0_succ _) chunks4) in H; try assumption; [intros [[] []] ?; reflexivity|intros [[] []] ?; reflexivity|exact (E4 (fun x => Quad D true (fst x) (snd x)))].
  - right. apply (reads_intro _ 4 (c4 D) (fun x => Quad D false (fst x) (snd x)) (fun x => Quad D false (fst x) (snd x)) _ _ 81 t q q' r (Nat.lt_0_succ _) chunks4) in H; try assumption; [intros [[] []] ?; reflexivity|intros [[] []] ?; reflexivity|exact (E4 (fun x => Quad D false (fst x) (snd x)))].
  - right. apply (reads_intro _ 1 (c1 D) (Vert D true) (Vert D true) _ _ 118 t q q' r (Nat.lt_0_succ _) chunks1) in H; try assumption; [intros ? ?; reflexivity|intros ? ?; reflexivity|exact (E1 (Vert D true))].
  - right. apply (reads_intro _ 1 (c1 D) (Vert D false) (Vert D false) _ _ 86 t q q' r (Nat.lt_0_succ _) chunks1) in H; try assumption; [intros ? ?; reflexivity|intros ? ?; reflexivity|exact (E1 (Vert D false))].
  - right. apply (reads_intro _ 2 (c2 D) (Line D true) (Line D true) _ _ 108 t q q' r (Nat.lt_0_succ _) chunks2) in H; try assumption; [intros [] ?; reflexivity|intros [] ?; reflexivity|exact (E2 (Line D true))].
  - right. apply (reads_intro _ 2 (c2 D) (Line D false) (Line D false) _ _ 76 t q q' r (Nat.lt_0_succ _) chunks2) in H; try assumption; [intros [] ?; reflexivity|intros [] ?; reflexivity|exact (E2 (Line D false))].
  - right. apply (reads_intro _ 2 (c2 D) (SQuad D true) (SQuad D true) _ _ 116 t q q' r (Nat.lt_0_succ _) chunks2) in H; try assumption; [intros [] ?; reflexivity|intros [] ?; reflexivity|exact (E2 (SQuad D true))].
  - right. apply (reads_intro _ 2 (c2 D) (SQuad D false) (SQuad D false) _ _ 84 t q q' r (Nat.lt_0_succ _) chunks2) in H; try assumption; [intros [] ?; reflexivity|intros [] ?; reflexivity|exact (E2 (SQuad D false))].
  - right. apply (reads_intro _ 1 (c1 D) (Horiz D true) (Horiz D true) _ _ 104 t q q' r (Nat.lt_0_succ _) chunks1) in H; try assumption; [intros ? ?; reflexivity|intros ? ?; reflexivity|exact (E1 (Horiz D true))].
  - right. apply (reads_intro _ 1 (c1 D) (Horiz D false) (Horiz D false) _ _ 72 t q q' r (Nat.lt_0_succ _) chunks1) in H; try assumption; [intros ? ?; reflexivity|intros ? ?; reflexivity|exact (E1 (Horiz D false))].
Qed.

Lemma command_good c t q q' r : command c t q = Done D q' r -> c <> 101 /\ c <> 69 /\ c <> 120 /\ c <> 88.
Proof. intros H. repeat split; intros ->; discriminate H. Qed.

Lemma path_good fuel t q q' r : str_path fuel t q = Done D q' r -> goodrest t.
Proof.
  destruct fuel as [|fuel]; cbn; [discriminate|]. intros H. apply good_sep.
  destruct (s_sep false t) as [|c u]; [exact I|]. destruct (command c u q) eqn:E; try discriminate.
  exact (command_good _ _ _ _ _ E).
Qed.

Lemma path_strip s cs t : path_text D val s cs (s_sep false t) -> path_text D val s cs t.
Proof.
  intros H. destruct (sep_false_inv t) as (a & A & E & _). rewrite E. clear E.
  destruct H as [sp S|sp l u cs S L H|sp l vs u r cs1 cs2 S N EX H].
  - constructor. apply Forall_app. split; assumption.
  - rewrite app_assoc. constructor; auto. apply Forall_app. split; assumption.
  - rewrite app_assoc. eapply pt_group; eauto. apply Forall_app. split; assumption.
Qed.

Lemma path_sound fuel : forall t q q' r, str_path fuel t q = Done D q' r ->
  r = [] /\ exists cs, path_text D val false cs t /\ q' = run cs q.
Proof.
  induction fuel as [|fuel IH]; intros t q q' r; cbn; [discriminate|].
  destruct (sep_false_inv t) as (a & A & E & _). destruct (s_sep false t) as [|c u].
  - intros H. injection H as <- <-. split; [reflexivity|]. exists []. split; [|reflexivity].
    rewrite E, app_nil_r. now constructor.
  - destruct (command c u q) as [q1 t1| | |] eqn:C; try discriminate. intros H.
    pose proof (path_good _ _ _ _ _ H) as G. destruct (IH _ _ _ _ H) as (ER & cs & P & EQ). split; [assumption|].
    destruct (command_sound _ _ _ _ _ C G) as [(L & -> & ->)|(vs & e & cs1 & NU & -> & EX & ->)].
    + exists (Close D :: cs). split; [|exact EQ]. rewrite E. constructor; assumption.
    + exists (cs1 ++ cs). split; [|now rewrite run_app].
      rewrite E. eapply pt_group; eauto. now apply path_strip.
Qed.
End S.
