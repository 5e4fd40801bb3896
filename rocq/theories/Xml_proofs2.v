(** The parser and the copying parser run alike *)
From Coq Require Import ZArith Bool List Lia Arith ZifyBool.
From Verif Require Import Utf8_model Xml_model Xml_spec Xml_proofs.
Import ListNotations.
Local Open Scope Z_scope.

(** * Outcomes *)
Definition orel {A B} (Q : A -> B -> Prop) (x : xres A) (y : xres B) : Prop :=
  match x, y with Ok a, Ok b => Q a b | Err, Err | Null, Null | Hang, Hang | NoFuel, NoFuel => True | _, _ => False end.
Lemma orel_bind {A B A' B'} (Q : A -> B -> Prop) (Q' : A' -> B' -> Prop) x y f g :
  orel Q x y -> (forall a b, Q a b -> orel Q' (f a) (g b)) -> orel Q' (bind x f) (bind y g).
Proof. destruct x, y; cbn; try tauto. intros H F. apply F, H. Qed.
Lemma orel_weak {A B} (Q Q' : A -> B -> Prop) x y : orel Q x y -> (forall a b, Q a b -> Q' a b) -> orel Q' x y.
Proof. destruct x, y; cbn; auto. Qed.

(** * Memory *)
Lemma write_some m p c m' : write m p c = Some m' -> length m' = length m /\ nth_error m' p = Some c /\ forall i, i <> p -> nth_error m' i = nth_error m i.
Proof.
  revert p m'. induction m as [|x m IH]; intros [|p] m'; cbn; try discriminate.
  - intros H; inversion H; subst; cbn. repeat split. intros [|i] I; [lia|reflexivity].
  - destruct (write m p c) as [m1|] eqn:E; [|discriminate]. intros H; inversion H; subst. destruct (IH _ _ E) as (A & B & C). cbn. repeat split; auto.
    intros [|i] I; [reflexivity|]. apply C. lia.
Qed.
Lemma write_ok m p c : (p < length m)%nat -> exists m', write m p c = Some m'.
Proof. revert p. induction m as [|x m IH]; intros [|p]; cbn; intros L; try lia; eauto. destruct (IH p) as (m' & ->); [lia|eauto]. Qed.
Lemma writes_ok l : forall m p, (p + length l <= length m)%nat -> exists m', writes m p l = Some m'.
Proof.
  induction l as [|c l IH]; intros m p L; cbn; eauto. cbn in L. destruct (write_ok m p c) as (m1 & E); [lia|]. rewrite E. apply IH. apply write_some in E as (-> & _). lia.
Qed.
Lemma writes_some l : forall m p m', writes m p l = Some m' -> length m' = length m /\ (forall k, (k < length l)%nat -> nth_error m' (p + k) = nth_error l k) /\
  forall i, (i < p)%nat \/ (p + length l <= i)%nat -> nth_error m' i = nth_error m i.
Proof.
  induction l as [|c l IH]; intros m p m'; cbn. { intros H; inversion H; subst. repeat split; intros; lia || reflexivity. }
  destruct (write m p c) as [m1|] eqn:E; [|discriminate]. intros H. destruct (IH _ _ _ H) as (A & B & C). apply write_some in E as (D & F & G). split; [lia|]. split.
  - intros [|k] K; cbn. { rewrite Nat.add_0_r. rewrite C by lia. auto. } replace (p + S k)%nat with (S p + k)%nat by lia. apply B. lia.
  - intros i I. rewrite C by lia. apply G. lia.
Qed.
Lemma upto0_app s r : (forall b, In b s -> b <> 0) -> upto0 (s ++ 0 :: r) = s.
Proof. induction s as [|c s IH]; cbn; auto. intros H. replace (c =? 0) with false by (pose proof (H c (or_introl eq_refl)); lia). f_equal. apply IH. auto. Qed.
Lemma cstr_spec m p s : (forall k, (k < length s)%nat -> nth_error m (p + k) = nth_error s k) -> nth_error m (p + length s) = Some 0 -> (forall b, In b s -> b <> 0) -> cstr m p = s.
Proof.
  unfold cstr. intros A B C. assert (E : exists r, skipn p m = s ++ 0 :: r).
  { clear C. revert p A B. induction s as [|c s IH]; intros p A B.
    - cbn [length] in B. rewrite Nat.add_0_r in B. destruct (nth_error_split _ _ B) as (l1 & l2 & -> & L). exists l2. subst p. rewrite skipn_app, Nat.sub_diag, skipn_all. reflexivity.
    - specialize (A 0%nat) as A0. cbn in A0. rewrite Nat.add_0_r in A0. specialize (A0 ltac:(lia)). destruct (IH (S p)) as (r & Hr).
      + intros k K. replace (S p + k)%nat with (p + S k)%nat by lia. apply (A (S k)). cbn. lia.
      + rewrite <- B. f_equal. cbn. lia.
      + exists r. destruct (nth_error_split _ _ A0) as (l1 & l2 & -> & L). subst p. rewrite skipn_app, Nat.sub_diag, skipn_all. cbn. f_equal.
        rewrite skipn_app in Hr. replace (S (length l1) - length l1)%nat with 1%nat in Hr by lia. rewrite skipn_all2 in Hr by lia. exact Hr. }
  destruct E as (r & ->). apply upto0_app, C.
Qed.

(** * Trees *)
Definition optr (o : option nat) : list nat := match o with Some p => [p] | None => [] end.
Definition aptrs (a : attr) : list nat := optr (a_nsp a) ++ [a_name a] ++ optr (a_ns a) ++ optr (a_value a).
Fixpoint ptrs (n : node) : list nat :=
  match n with Elem nsp tag ns attrs child => optr nsp ++ [tag] ++ optr ns ++ flat_map aptrs attrs ++ flat_map ptrs child | Cdata t => [t] end.
Lemma optr_ext m m' o : (forall p, In p (optr o) -> cstr m p = cstr m' p) -> option_map (cstr m) o = option_map (cstr m') o.
Proof. destruct o; cbn; auto. intros H. f_equal. apply H. auto. Qed.
Lemma view_attr_ext m m' a : (forall p, In p (aptrs a) -> cstr m p = cstr m' p) -> view_attr m a = view_attr m' a.
Proof.
  intros H. unfold view_attr, aptrs in *. f_equal.
  - apply optr_ext. intros p I. apply H. apply in_or_app; auto.
  - apply H. apply in_or_app; right. apply in_or_app; left. now left.
  - apply optr_ext. intros p I. apply H. rewrite !in_app_iff. auto.
  - apply optr_ext. intros p I. apply H. rewrite !in_app_iff. auto.
Qed.
Lemma map_ext_flat {A B} (f g : A -> B) (h : A -> list nat) (P : nat -> Prop) l :
  (forall a, In a l -> (forall p, In p (h a) -> P p) -> f a = g a) -> (forall p, In p (flat_map h l) -> P p) -> map f l = map g l.
Proof. intros F H. apply map_ext_in. intros a I. apply F; auto. intros p J. apply H. apply in_flat_map. eauto. Qed.
Lemma view_ext m m' : forall n, (forall p, In p (ptrs n) -> cstr m p = cstr m' p) -> view m n = view m' n.
Proof.
  fix go 1. intros [nsp tag ns attrs child|t] H; cbn [view ptrs] in *.
  2: { f_equal. apply H. now left. }
  f_equal.
  - apply optr_ext. intros p I. apply H. rewrite !in_app_iff. auto.
  - apply H. rewrite !in_app_iff. cbn. auto.
  - apply optr_ext. intros p I. apply H. rewrite !in_app_iff. auto.
  - apply (map_ext_flat _ _ aptrs (fun p => cstr m p = cstr m' p)). { intros a _. apply view_attr_ext. } intros p I. apply H. rewrite !in_app_iff. auto.
  - assert (K : forall p, In p (flat_map ptrs child) -> cstr m p = cstr m' p). { intros p I. apply H. rewrite !in_app_iff. auto. }
    clear H. revert child K. fix gl 1. intros [|n l] K; cbn; [reflexivity|]. f_equal.
    + apply go. intros p I. apply K. cbn. apply in_or_app; auto.
    + apply gl. intros p I. apply K. cbn. apply in_or_app; auto.
Qed.

Section Sim.
Variables (m0 : list Z) (e : nat).
Hypothesis L0 : length m0 = S e.
Hypothesis E0 : nth_error m0 e = Some 0.
Hypothesis B0 : bytes m0.

Definition tagstart (c : Z) : bool := maybe_tag_begin c && is_tag_char c.
Definition at_char (c : Z) (l n : nat) : Prop :=
  (c = 0 /\ l = n /\ (n <= e)%nat /\ nth_error m0 l = Some 0) \/
  (c <> 0 /\ utf8_ok c = true /\ 0 < c /\ (n = l + clen c)%nat /\ (n <= e)%nat /\ forall k, (l <= k < n)%nat -> exists b, nth_error m0 k = Some b /\ b <> 0).
Definition fresh (st : state) : Prop := nth_error (mem st) (loc st) = nth_error m0 (loc st).
Record srel (st ps : state) : Prop := mk_srel {
  s_cur : cur st = cur ps; s_loc : loc st = loc ps; s_nxt : nxt st = nxt ps; s_mem : mem ps = m0; s_len : length (mem st) = S e;
  s_rest : forall i, (loc st < i)%nat -> nth_error (mem st) i = nth_error m0 i;
  s_here : fresh st \/ (nth_error (mem st) (loc st) = Some 0 /\ tagstart (cur st) = false);
  s_char : at_char (cur st) (loc st) (nxt st) }.
(** Positions before p->loc are frozen, and a NUL at p->loc *)
Record frame (st st' : state) : Prop := mk_frame {
  f_loc : (loc st <= loc st')%nat; f_below : forall i, (i < loc st)%nat -> nth_error (mem st') i = nth_error (mem st) i;
  f_nul : nth_error (mem st) (loc st) = Some 0 -> nth_error (mem st') (loc st) = Some 0 }.
Lemma frame_refl st : frame st st.
Proof. constructor; auto. Qed.
Lemma frame_mem st st' : mem st' = mem st -> (loc st <= loc st')%nat -> frame st st'.
Proof. intros M L. constructor; rewrite ?M; auto. Qed.
Lemma frame_trans a b c : frame a b -> frame b c -> frame a c.
Proof.
  intros [A1 A2 A3] [B1 B2 B3]. constructor; [lia| |].
  - intros i I. rewrite B2 by lia. auto.
  - intros N. specialize (A3 N). destruct (Nat.eq_dec (loc a) (loc b)) as [E|E]; [rewrite E in *; auto|]. rewrite B2 by lia. auto.
Qed.
(** A string *)
Record frz (st : state) (p : nat) (s : str) : Prop := mk_frz {
  z_end : (p + length s <= loc st)%nat; z_str : forall k, (k < length s)%nat -> nth_error (mem st) (p + k) = nth_error s k;
  z_nul : nth_error (mem st) (p + length s) = Some 0; z_ok : forall b, In b s -> b <> 0 }.
Lemma frz_cstr st p s : frz st p s -> cstr (mem st) p = s.
Proof. intros [A B C D]. now apply cstr_spec. Qed.
Lemma frz_frame st st' p s : frame st st' -> frz st p s -> frz st' p s.
Proof.
  intros [F1 F2 F3] [A B C D]. constructor; auto; [lia| |].
  - intros k K. rewrite F2 by lia. auto.
  - destruct (Nat.eq_dec (p + length s) (loc st)) as [E|E]; [rewrite E in *; auto|]. rewrite F2 by lia. auto.
Qed.
Definition ofrz (st : state) (o : option nat) (s : option str) : Prop := match o, s with Some p, Some s => frz st p s | None, None => True | _, _ => False end.
Lemma ofrz_frame st st' p s : frame st st' -> ofrz st p s -> ofrz st' p s.
Proof. destruct p, s; cbn; auto. apply frz_frame. Qed.
Definition frozen (st : state) (l : list nat) : Prop := forall p, In p l -> exists s, frz st p s.
Lemma frozen_frame st st' l : frame st st' -> frozen st l -> frozen st' l.
Proof. intros F H p I. destruct (H p I) as (s & Z). exists s. now apply (frz_frame st). Qed.
Lemma frozen_cstr st st' l p : frame st st' -> frozen st l -> In p l -> cstr (mem st) p = cstr (mem st') p.
Proof. intros F H I. destruct (H p I) as (s & Z). rewrite (frz_cstr _ _ _ Z). symmetry. apply frz_cstr. now apply (frz_frame st). Qed.

(** * Reading *)
Lemma rest_nxt st ps : srel st ps -> forall i, (nxt st <= i)%nat -> nth_error (mem st) i = nth_error m0 i.
Proof.
  intros [S1 S2 S3 S4 S5 S6 S7 S8] i I. destruct S8 as [(C & L & N & Z)|(C & U & P & L & N & _)].
  - destruct (Nat.eq_dec i (loc st)) as [->|]; [|apply S6; lia]. destruct S7 as [H|(H & _)]; [exact H|]. now rewrite H, Z.
  - apply S6. unfold clen in L. destruct (cur st <=? 127), (cur st <=? 2047), (cur st <=? 65535); lia.
Qed.
Lemma loc_nxt st ps : srel st ps -> (loc st <= nxt st <= e)%nat.
Proof. intros S. destruct (s_char _ _ S) as [(C & L & N & Z)|(C & U & P & L & N & _)]; lia. Qed.
Lemma lex_sim0 st ps : nxt st = nxt ps -> mem ps = m0 -> length (mem st) = S e -> (nxt st <= e)%nat -> (forall i, (nxt st <= i)%nat -> nth_error (mem st) i = nth_error m0 i) ->
  orel (fun st' ps' => srel st' ps' /\ fresh st' /\ mem st' = mem st /\ loc st' = nxt st) (lex_next e st) (lex_next e ps).
Proof.
  intros N M L NE R. unfold lex_next. rewrite (decode_ext (mem st) m0) by (cbn; exact R). rewrite M, <- N.
  pose proof (decode_file m0 e (nxt st) L0 E0 B0 NE) as D. destruct (decode m0 _) as [(c, i)| |]; try contradiction. destruct (error i) eqn:Ei; [exact I|]. cbn.
  assert (F : fresh (mk_state c (nxt st) (pos i) (mem st))) by (unfold fresh; cbn; apply R; lia).
  split; [|auto]. constructor; [reflexivity|reflexivity|reflexivity|reflexivity|exact L| |left; exact F|].
  - cbn. intros k K. apply R. lia.
  - cbn. destruct D as [(-> & Pi & Z)|(C & U & P & Q & Le & K)]; [left; repeat split; auto; lia|right; repeat split; auto].
Qed.
Lemma lex_sim st ps : srel st ps -> orel (fun st' ps' => srel st' ps' /\ fresh st' /\ mem st' = mem st /\ loc st' = nxt st) (lex_next e st) (lex_next e ps).
Proof. intros S. pose proof (loc_nxt _ _ S). apply lex_sim0; try apply S; [lia|]. eapply rest_nxt; eauto. Qed.
(** Functions that only read *)
Definition rd (st : state) (st' ps' : state) : Prop := srel st' ps' /\ mem st' = mem st /\ (loc st <= loc st')%nat /\ (fresh st -> fresh st').
Lemma rd_refl st ps : srel st ps -> rd st st ps.
Proof. intros S. repeat split; auto; apply S. Qed.
Lemma rd_lex st ps : srel st ps -> orel (rd st) (lex_next e st) (lex_next e ps).
Proof. intros S. pose proof (loc_nxt _ _ S). eapply orel_weak; [apply lex_sim, S|]. intros a b (A & B & C & D). repeat split; auto; try apply A. lia. Qed.
Lemma rd_trans a b c ps : mem b = mem a -> (loc a <= loc b)%nat -> (fresh a -> fresh b) -> rd b c ps -> rd a c ps.
Proof. intros M L F (A & B & C & D). split; [exact A|]. split; [congruence|]. split; [lia|auto]. Qed.
Lemma rd_frame a b ps : rd a b ps -> frame a b.
Proof. intros (A & B & C & D). now apply frame_mem. Qed.
Lemma same_sim a b a' b' : srel a b -> srel a' b' -> same a a' = same b b'.
Proof. intros A B. unfold same. now rewrite (s_cur _ _ A), (s_cur _ _ B), (s_loc _ _ A), (s_loc _ _ B), (s_nxt _ _ A), (s_nxt _ _ B). Qed.

Lemma skip_space_sim fuel : forall st ps, srel st ps -> orel (rd st) (skip_space e fuel st) (skip_space e fuel ps).
Proof.
  induction fuel as [|fuel IH]; intros st ps S; cbn; [exact I|]. rewrite <- (s_cur _ _ S). destruct (is_space (cur st)); [|apply rd_refl, S].
  eapply orel_bind; [apply rd_lex, S|]. intros a b (A & M & L & F). eapply orel_weak; [apply IH, A|]. intros. eapply rd_trans; eauto.
Qed.
Lemma expect_sim s : forall st ps, srel st ps -> orel (fun st' ps' => rd st st' ps' /\ (s <> [] -> fresh st')) (expect e s st) (expect e s ps).
Proof.
  induction s as [|c s IH]; intros st ps S; cbn. { split; [apply rd_refl, S|tauto]. }
  rewrite <- (s_cur _ _ S). destruct (negb _); [exact I|]. eapply orel_bind; [apply lex_sim, S|]. intros a b (A & F & M & L). pose proof (loc_nxt _ _ S).
  eapply orel_weak; [apply IH, A|]. intros a' b' (R & N). assert (rd st a' b') by (eapply rd_trans; [| | |exact R]; auto; lia). split; auto. intros _. apply R, F.
Qed.
Lemma expect_rd s st ps : srel st ps -> orel (rd st) (expect e s st) (expect e s ps).
Proof. intros S. eapply orel_weak; [apply expect_sim, S|]. intros a b (R & _). exact R. Qed.
Lemma nonzero_adv st ps : srel st ps -> cur st <> 0 -> (loc st < nxt st)%nat.
Proof.
  intros S N. destruct (s_char _ _ S) as [(C & _)|(C & U & P & L & _)]; [congruence|]. unfold clen in L. destruct (cur st <=? 127), (cur st <=? 2047), (cur st <=? 65535); lia.
Qed.
Lemma read_num_sim fuel : forall base n st ps, srel st ps -> base <= 16 ->
  orel (fun x y => fst x = fst y /\ rd st (snd x) (snd y) /\ (fst x <> n -> (loc st < loc (snd x))%nat)) (read_num e fuel base n st) (read_num e fuel base n ps).
Proof.
  induction fuel as [|fuel IH]; intros base n st ps S B; cbn; [exact I|]. rewrite <- (s_cur _ _ S). destruct (base <=? digit_val (cur st)) eqn:D. { cbn. split; [auto|split; [apply rd_refl, S|tauto]]. }
  eapply orel_bind; [apply lex_sim, S|]. intros a b (A & F & M & L). eapply orel_weak; [apply IH; [apply A|exact B]|]. intros x y (X & R & _). split; auto.
  assert (C : cur st <> 0). { intros C. rewrite C in D. cbn in D. lia. } pose proof (nonzero_adv _ _ S C).
  split; [eapply rd_trans; [| | |exact R]; auto; lia|]. intros _. destruct R as (_ & _ & R & _). lia.
Qed.
Lemma clen4 c : (1 <= clen c <= 4)%nat.
Proof. unfold clen. destruct (c <=? 127), (c <=? 2047), (c <=? 65535); lia. Qed.
Lemma read_num_nonneg fuel : forall base n st c st', read_num e fuel base n st = Ok (c, st') -> 0 <= n -> 0 <= c.
Proof.
  induction fuel as [|fuel IH]; intros base n st c st'; cbn; [discriminate|]. destruct (base <=? _); [now inversion 1; subst|]. destruct (lex_next e st); cbn; try discriminate.
  intros H N. eapply IH; eauto. apply Z.mod_pos_bound. lia.
Qed.
(** From '&' to ';' *)
Lemma entity_sim fuel st ps : srel st ps -> cur st = 38 ->
  orel (fun x y => fst x = fst y /\ rd st (snd x) (snd y) /\ cur (snd x) = 59 /\ (utf8_ok (fst x) = true -> 0 <= fst x /\ (loc st + clen (fst x) <= nxt (snd x))%nat)) (entity e fuel st) (entity e fuel ps).
Proof.
  intros S C0. unfold entity. eapply orel_bind; [apply lex_sim, S|]. intros a b (A & FA & MA & LA). pose proof (nonzero_adv _ _ S ltac:(lia)) as NA.
  assert (RA : rd st a b) by (repeat split; auto; try apply A; lia).
  assert (K : forall (x y : Z * state) , fst x = fst y -> rd st (snd x) (snd y) -> (utf8_ok (fst x) = true -> 0 <= fst x /\ (loc st + clen (fst x) <= nxt (snd x))%nat) ->
    orel (fun x y => fst x = fst y /\ rd st (snd x) (snd y) /\ cur (snd x) = 59 /\ (utf8_ok (fst x) = true -> 0 <= fst x /\ (loc st + clen (fst x) <= nxt (snd x))%nat))
      (let (c, st) := x in if negb (cur st =? 59) then Err else Ok (c, st)) (let (c, st) := y in if negb (cur st =? 59) then Err else Ok (c, st))).
  { intros (c, s) (c', s'). cbn. intros <- R U. rewrite <- (s_cur s s') by apply R. destruct (cur s =? 59) eqn:D; cbn; [|exact I]. repeat split; auto; try apply R; try apply U; auto; lia. }
  eapply orel_bind with (Q := fun x y => fst x = fst y /\ rd st (snd x) (snd y) /\ (cur (snd x) = 59 -> utf8_ok (fst x) = true -> 0 <= fst x /\ (loc st + clen (fst x) <= nxt (snd x))%nat)).
  2: { intros x y (X & R & U). destruct (Z.eq_dec (cur (snd x)) 59) as [E|E]; [apply K; auto|]. destruct x as (c, s), y as (c', s'); cbn in *. rewrite <- (s_cur s s') by apply R. replace (cur s =? 59) with false by lia. exact I. }
  clear K. rewrite <- (s_cur _ _ A).
  assert (X : forall w c s ps, rd st s ps -> clen c = 1%nat -> 0 <= c -> (loc st < loc s)%nat ->
    orel (fun x y : Z * state => fst x = fst y /\ rd st (snd x) (snd y) /\ (cur (snd x) = 59 -> utf8_ok (fst x) = true -> 0 <= fst x /\ (loc st + clen (fst x) <= nxt (snd x))%nat))
      (do s <- expect e w s; Ok (c, s)) (do s <- expect e w ps; Ok (c, s))).
  { intros w c s ps' R Cl Cn Lt. eapply orel_bind; [apply expect_rd, R|]. intros s1 p1 R1. cbn. split; [auto|]. destruct R as (R2 & R3 & R4 & R5). split; [eapply rd_trans; [| | |exact R1]; auto|].
    intros _ _. split; [auto|]. rewrite Cl. destruct R1 as (R6 & _ & R7 & _). pose proof (loc_nxt _ _ R6). lia. }
  destruct (cur a =? 113) eqn:C1; [apply X; auto; lia|]. destruct (cur a =? 108) eqn:C2; [apply X; auto; lia|]. destruct (cur a =? 103) eqn:C3; [apply X; auto; lia|].
  destruct (cur a =? 97) eqn:C4.
  { eapply orel_bind; [apply rd_lex, A|]. intros a' b' R'. assert (R'' : rd st a' b') by (eapply rd_trans; [| | |exact R']; auto; lia). rewrite <- (s_cur a' b') by apply R'.
    assert (loc a <= loc a')%nat by apply R'. destruct (cur a' =? 109); apply X; auto; lia. }
  destruct (cur a =? 35) eqn:C5; [|exact I].
  eapply orel_bind; [apply lex_sim, A|]. intros a' b' (A' & FA' & MA' & LA'). pose proof (nonzero_adv _ _ A ltac:(lia)) as NA'.
  assert (R' : rd st a' b') by (split; [exact A'|]; split; [congruence|]; split; [lia|auto]).
  assert (Y : forall base s p, base <= 16 -> rd st s p -> (loc st + 2 <= loc s)%nat ->
    orel (fun x y : Z * state => fst x = fst y /\ rd st (snd x) (snd y) /\ (cur (snd x) = 59 -> utf8_ok (fst x) = true -> 0 <= fst x /\ (loc st + clen (fst x) <= nxt (snd x))%nat))
      (read_num e fuel base 0 s) (read_num e fuel base 0 p)).
  { intros base s p Bs (R1 & R2 & R3 & R4) Lt. pose proof (read_num_sim fuel base 0 s p R1 Bs) as W. pose proof (read_num_nonneg fuel base 0 s) as NN. destruct (read_num e fuel base 0 s) as [(c, s1)| | | | |], (read_num e fuel base 0 p) as [(c', p1)| | | | |]; cbn in *; try tauto.
    destruct W as (-> & W1 & W2). split; [auto|]. split; [eapply rd_trans; [| | |exact W1]; auto|]. intros C U. split; [eapply NN; eauto; lia|].
    assert (c' <> 0) by (intros ->; discriminate). specialize (W2 ltac:(auto)). destruct W1 as (W3 & _). pose proof (nonzero_adv _ _ W3 ltac:(lia)). pose proof (clen4 c'). lia. }
  rewrite <- (s_cur _ _ A'). destruct (_ || _).
  - eapply orel_bind; [apply rd_lex, A'|]. intros a2 b2 R2. assert (loc a' <= loc a2)%nat by apply R2. apply Y; [lia|eapply rd_trans; [| | |exact R2]; auto; try lia; congruence|lia].
  - apply Y; auto; lia.
Qed.
Lemma peek_sim st ps c : srel st ps -> orel eq (peek st c) (peek ps c).
Proof.
  intros S. unfold peek. pose proof (loc_nxt _ _ S). rewrite (rest_nxt _ _ S) by lia. rewrite <- (s_nxt _ _ S), (s_mem _ _ S). destruct (nth_or_end m0 e (nxt st) L0 ltac:(lia)) as (d & ->). reflexivity.
Qed.
Lemma comment_sim fuel : forall st ps, srel st ps -> orel (fun st' ps' => rd st st' ps' /\ fresh st') (skip_comment e fuel st) (skip_comment e fuel ps).
Proof.
  induction fuel as [|fuel IH]; intros st ps S; cbn [skip_comment]; [exact I|]. rewrite <- (s_cur _ _ S).
  eapply orel_bind with (Q := eq). { destruct (cur st =? 45); [apply peek_sim, S|reflexivity]. }
  intros d ? <-. destruct d. { eapply orel_weak; [apply expect_sim, S|]. intros a b (R & F). split; [exact R|]. apply F. discriminate. }
  eapply orel_bind; [apply rd_lex, S|]. intros a b (A & M & L & F). rewrite <- (same_sim _ _ _ _ S A). destruct (same st a); [exact I|].
  eapply orel_weak; [apply IH, A|]. intros x y (R & X). split; [eapply rd_trans; eauto|exact X].
Qed.
Lemma doctype_sim fuel : forall st ps, srel st ps -> orel (rd st) (doctype_loop e fuel st) (doctype_loop e fuel ps).
Proof.
  induction fuel as [|fuel IH]; intros st ps S; cbn; [exact I|]. rewrite <- (s_cur _ _ S). destruct (cur st =? 62); [apply rd_refl, S|]. destruct (cur st =? 0); [exact I|].
  eapply orel_bind; [apply rd_lex, S|]. intros a b (A & M & L & F). eapply orel_weak; [apply IH, A|]. intros. eapply rd_trans; eauto.
Qed.
Lemma skipn_ext (a b : list Z) n : length a = length b -> (forall i, (n <= i)%nat -> nth_error a i = nth_error b i) -> skipn n a = skipn n b.
Proof.
  revert a b. induction n as [|n IH]; intros a b L H.
  - cbn. revert b L H. induction a as [|x a IH]; intros [|y b] L H; cbn in *; try lia; auto. pose proof (H 0%nat ltac:(lia)) as H0. cbn in H0. inversion H0; subst. f_equal. apply IH; [lia|]. intros i _. apply (H (S i)). lia.
  - destruct a as [|x a], b as [|y b]; cbn in *; try lia; auto. apply IH; [lia|]. intros i I. apply (H (S i)). lia.
Qed.
Lemma prefix_sim st ps s : srel st ps -> prefix s (skipn (nxt st) (mem st)) = prefix s (skipn (nxt ps) (mem ps)).
Proof.
  intros S. f_equal. rewrite <- (s_nxt _ _ S), (s_mem _ _ S). apply skipn_ext; [rewrite L0; apply S|]. apply (rest_nxt _ _ S).
Qed.

(** * Writing *)
Lemma tag_loop_sim fuel : forall st ps, srel st ps -> orel (fun st' ps' => rd st st' ps' /\ is_tag_char (cur st') = false /\
   (forall k, (loc st <= k < loc st')%nat -> exists b, nth_error m0 k = Some b /\ b <> 0)) (tag_loop e fuel st) (tag_loop e fuel ps).
Proof.
  induction fuel as [|fuel IH]; intros st ps S; cbn; [exact I|]. rewrite <- (s_cur _ _ S). destruct (is_tag_char (cur st)) eqn:T; [|split; [apply rd_refl, S|split; [auto|lia]]].
  eapply orel_bind; [apply lex_sim, S|]. intros a b (A & F & M & L). rewrite <- (same_sim _ _ _ _ S A). destruct (same st a) eqn:Sm; [exact I|].
  pose proof (loc_nxt _ _ S). eapply orel_weak; [apply IH, A|]. intros x y (R & X & Y). split; [eapply rd_trans; [| | |exact R]; auto; lia|]. split; [exact X|].
  intros k K. destruct (Nat.lt_ge_cases k (nxt st)) as [C|C]; [|apply Y; lia].
  destruct (s_char _ _ S) as [(C1 & C2 & _)|(C1 & C2 & C3 & C4 & C5 & C6)]; [lia|apply C6; lia].
Qed.
Lemma tagstart_loop fuel st : tagstart (cur st) = false -> (if maybe_tag_begin (cur st) then tag_loop e fuel st else Ok st) = Ok st \/ (fuel = 0%nat).
Proof. unfold tagstart. intros T. destruct fuel; [auto|]. left. destruct (maybe_tag_begin (cur st)); auto. cbn in T |- *. now rewrite T. Qed.
Definition wr (st st' ps' : state) : Prop := srel st' ps' /\ frame st st'.
Lemma store0 st : length (mem st) = S e -> (loc st <= e)%nat -> forall p, (p <= loc st)%nat -> exists m, store st p [0] = Ok (mk_state (cur st) (loc st) (nxt st) m) /\ length m = S e /\ nth_error m p = Some 0 /\ forall i, i <> p -> nth_error m i = nth_error (mem st) i.
Proof.
  intros L N p P. unfold store. destruct (writes_ok [0] (mem st) p) as (m & E); [cbn; lia|]. rewrite E. exists m. split; [reflexivity|]. apply writes_some in E as (A & B & C). split; [lia|]. split.
  - specialize (B 0%nat ltac:(cbn; lia)). now rewrite Nat.add_0_r in B.
  - intros i I. apply C. cbn. lia.
Qed.
Lemma nth_segment (m : list Z) a b k : (b <= length m)%nat -> (k < b - a)%nat -> nth_error (segment m a b) k = nth_error m (a + k).
Proof.
  intros L K. unfold segment. rewrite <- (firstn_skipn a m) at 2. rewrite nth_error_app2 by (rewrite firstn_length; lia). rewrite firstn_length. replace (a + k - Nat.min a (length m))%nat with k by lia.
  rewrite <- (firstn_skipn (b - a) (skipn a m)) at 2. rewrite nth_error_app1; auto. rewrite firstn_length, skipn_length. lia.
Qed.
Lemma len_segment (m : list Z) a b : (b <= length m)%nat -> length (segment m a b) = (b - a)%nat.
Proof. intros L. unfold segment. rewrite firstn_length, skipn_length. lia. Qed.
Lemma tag_sim fuel st ps : srel st ps -> orel (fun x y => wr st (snd x) (snd y) /\ frz (snd x) (fst x) (fst y)) (parse_tag e fuel st) (c_tag e fuel ps).
Proof.
  intros S. unfold parse_tag, c_tag.
  eapply orel_bind with (Q := fun st' ps' => rd st st' ps' /\ tagstart (cur st') = false /\ (forall k, (loc st <= k < loc st')%nat -> exists b, nth_error m0 k = Some b /\ b <> 0) /\ (fresh st \/ loc st' = loc st)).
  { rewrite <- (s_cur _ _ S). destruct (maybe_tag_begin (cur st)) eqn:T.
    - destruct (s_here _ _ S) as [F|(N & F)].
      + eapply orel_weak; [apply tag_loop_sim, S|]. intros a b (R & X & Y). split; [exact R|]. split; [unfold tagstart; rewrite X; apply andb_false_r|]. split; auto.
      + unfold tagstart in F. rewrite T in F. cbn in F. destruct fuel; cbn; [exact I|]. rewrite <- (s_cur _ _ S), F. split; [apply rd_refl, S|]. split; [unfold tagstart; rewrite F; apply andb_false_r|]. split; [lia|auto].
    - split; [apply rd_refl, S|]. split; [unfold tagstart; now rewrite T|]. split; [lia|auto]. }
  intros a b ((A & M & L & F) & T & K & Fr). pose proof (loc_nxt _ _ A) as LN. destruct (store0 a (s_len _ _ A) ltac:(lia) (loc a) ltac:(lia)) as (m & -> & Lm & Nm & Om). cbn [bind orel fst snd].
  rewrite (s_mem _ _ A), <- (s_loc _ _ A), <- (s_loc _ _ S).
  assert (BM : forall i, (loc a < i)%nat -> nth_error m i = nth_error m0 i) by (intros i Hi; rewrite Om by lia; now apply (s_rest _ _ A)).
  split; [split|].
  - constructor; cbn; try apply A; auto.
  - constructor; cbn; auto.
    + intros i Hi. rewrite Om by lia. now rewrite M.
    + intros N. destruct (Nat.eq_dec (loc st) (loc a)) as [E|E]; [now rewrite E|]. rewrite Om by lia. now rewrite M.
  - assert (LS : length (segment m0 (loc st) (loc a)) = (loc a - loc st)%nat) by (apply len_segment; lia). constructor; rewrite ?LS; cbn.
    + lia.
    + intros k Hk. rewrite nth_segment by lia. rewrite Om by lia. rewrite M. destruct (Nat.eq_dec k 0) as [->|Ck]; [|apply (s_rest _ _ S); lia]. rewrite Nat.add_0_r. destruct Fr as [Fr|Fr]; [exact Fr|lia].
    + replace (loc st + (loc a - loc st))%nat with (loc a) by lia. exact Nm.
    + intros c I. apply In_nth_error in I as (k & Hk). assert (k < loc a - loc st)%nat. { rewrite <- LS. apply nth_error_Some. congruence. } rewrite nth_segment in Hk by lia. destruct (K (loc st + k)%nat ltac:(lia)) as (d & D1 & D2). congruence.
Qed.
Lemma text_sim fuel : forall delim dst st ps, srel st ps -> (dst <= loc st)%nat -> (cur st = 0 \/ fresh st) ->
  orel (fun x y => srel (snd x) (snd y) /\ (loc st <= loc (snd x))%nat /\ (dst <= fst x <= loc (snd x))%nat /\ (forall i, (i < dst)%nat -> nth_error (mem (snd x)) i = nth_error (mem st) i) /\
     (fst x = dst + length (fst y))%nat /\ (forall k, (k < length (fst y))%nat -> nth_error (mem (snd x)) (dst + k) = nth_error (fst y) k) /\ (forall b, In b (fst y) -> b <> 0) /\
     (cur (snd x) = delim \/ cur (snd x) = 60 \/ cur (snd x) = 0) /\ fresh (snd x))
    (text_loop e fuel delim dst st) (c_text e fuel delim ps).
Proof.
  induction fuel as [|fuel IH]; intros delim dst st ps S D Fr; cbn [text_loop c_text]; [exact I|]. rewrite <- (s_cur _ _ S).
  destruct (_ || _) eqn:Stop.
  { cbn. split; [exact S|]. split; [lia|]. split; [lia|]. split; [auto|]. split; [lia|]. split; [lia|]. split; [tauto|]. split; [lia|]. destruct Fr as [Fr|Fr]; [|exact Fr]. destruct (s_char _ _ S) as [(C1 & C2 & C3 & C4)|(C1 & _)]; [|congruence]. destruct (s_here _ _ S) as [H|(H & _)]; [exact H|]. unfold fresh. congruence. }
  assert (C0 : cur st <> 0) by lia.
  eapply orel_bind with (Q := fun x y => fst x = fst y /\ rd st (snd x) (snd y) /\ (utf8_ok (fst x) = true -> 0 <= fst x /\ (loc st + clen (fst x) <= nxt (snd x))%nat)).
  { destruct (cur st =? 38) eqn:A.
    - eapply orel_weak; [apply entity_sim; [exact S|lia]|]. intros x y (X & Y & _ & W). auto.
    - cbn. split; [auto|]. split; [apply rd_refl, S|]. intros _. destruct (s_char _ _ S) as [(C1 & _)|(C1 & C2 & C3 & C4 & _)]; [congruence|]. lia. }
  intros (c, s1) (c', p1). cbn [fst snd]. intros (<- & (R1 & R2 & R3 & R4) & U). destruct (utf8_ok c) eqn:Uc; cbn [negb]; [|exact I]. destruct (U eq_refl) as (Cn & Cl). clear U.
  destruct (encode_ok (nxt s1 - dst) c Uc ltac:(lia)) as (l & El & Ll & Lz). specialize (Lz Cn). rewrite El. rewrite (encode_4 (nxt s1 - dst)) in El by (auto; lia). rewrite El.
  pose proof (clen4 c) as C14. pose proof (loc_nxt _ _ R1) as LN. destruct l as [|l0 l1]; [cbn in Ll; lia|]. remember (l0 :: l1) as l eqn:El0. clear El0.
  unfold store. destruct (writes_ok l (mem s1) dst) as (m & Em); [rewrite (s_len _ _ R1); lia|]. rewrite Em. cbn [bind]. apply writes_some in Em as (M1 & M2 & M3).
  assert (Rest := rest_nxt _ _ R1). assert (N1 := s_nxt _ _ R1). assert (L1 := s_len _ _ R1).
  eapply orel_bind. { apply (lex_sim0 (mk_state (cur s1) (loc s1) (nxt s1) m) p1); cbn; auto; [apply R1|lia|lia|]. intros i Hi. rewrite M3 by lia. apply Rest, Hi. }
  intros a b (A & FA & MA & LA). cbn in MA, LA.
  specialize (IH delim (dst + length l)%nat a b A ltac:(lia) ltac:(auto)).
  destruct (text_loop e fuel delim (dst + length l) a) as [(d, s')| | | | |], (c_text e fuel delim b) as [(t, p')| | | | |]; cbn in IH |- *; try tauto.
  destruct IH as (I1 & I2 & I3 & I4 & I5 & I6 & I7 & I8 & I9). rewrite app_length.
  split; [exact I1|]. split; [lia|]. split; [lia|]. split.
  { intros i Hi. rewrite I4 by lia. rewrite MA, M3 by lia. now rewrite R2. }
  split; [lia|]. split.
  { intros k Hk. destruct (Nat.lt_ge_cases k (length l)) as [Ck|Ck].
    - rewrite nth_error_app1 by lia. rewrite I4 by lia. rewrite MA. apply M2, Ck.
    - rewrite nth_error_app2 by lia. rewrite <- I6 by lia. f_equal. lia. }
  split; [|auto]. intros x Hx. apply in_app_or in Hx as [Hx|Hx]; auto.
Qed.
Lemma ptext_sim fuel delim st ps : srel st ps -> (cur st = 0 \/ fresh st) -> delim = 0 \/ tagstart delim = false ->
  orel (fun x y => wr st (snd x) (snd y) /\ frz (snd x) (fst x) (fst y) /\ (cur (snd x) = delim \/ cur (snd x) = 60 \/ cur (snd x) = 0)) (parse_text e fuel delim st) (c_text e fuel delim ps).
Proof.
  intros S Fr Dl. unfold parse_text. pose proof (text_sim fuel delim (loc st) st ps S ltac:(lia) Fr) as T.
  destruct (text_loop e fuel delim (loc st) st) as [(d, s')| | | | |], (c_text e fuel delim ps) as [(t, p')| | | | |] eqn:CT; cbn in T |- *; try tauto.
  destruct T as (I1 & I2 & I3 & I4 & I5 & I6 & I7 & I8 & I9). pose proof (loc_nxt _ _ I1) as LN. destruct (store0 s' (s_len _ _ I1) ltac:(lia) d ltac:(lia)) as (m & -> & Lm & Nm & Om). cbn.
  assert (F0 : nth_error (mem st) (loc st) = Some 0 -> t = []).
  { intros N. destruct (s_char _ _ S) as [(C1 & _)|(C1 & _ & _ & C4 & _ & C6)].
    - destruct fuel; cbn in CT; [discriminate|]. rewrite <- (s_cur _ _ S), C1 in CT. rewrite !orb_true_r in CT. now inversion CT.
    - destruct Fr as [Fr|Fr]; [congruence|]. pose proof (clen4 (cur st)). destruct (C6 (loc st) ltac:(lia)) as (b & Hb & Zb). unfold fresh in Fr. congruence. }
  assert (H0 : fresh s' \/ (nth_error m (loc s') = Some 0 /\ tagstart (cur s') = false)) by (left; exact I9).
  split; [split|split; [|exact I8]].
  - constructor; cbn [mem loc cur nxt]; try apply I1; auto.
    + intros i Hi. rewrite Om by lia. now apply (s_rest _ _ I1).
    + unfold fresh. cbn [mem loc cur nxt]. destruct (Nat.eq_dec d (loc s')) as [E|E]; [|left; rewrite Om by lia; exact I9]. rewrite E in Nm.
      destruct (Z.eq_dec (cur s') 0) as [C0|C0].
      * left. destruct (s_char _ _ I1) as [(_ & _ & _ & Z)|(C1 & _)]; congruence.
      * right. split; [congruence|]. destruct I8 as [C|[C|C]]; [|rewrite C; reflexivity|congruence]. rewrite C. destruct Dl; [congruence|auto].
  - constructor; cbn; [lia| |].
    + intros i Hi. rewrite Om by lia. apply I4. lia.
    + intros N. rewrite (F0 N) in *. cbn in I5. replace d with (loc st) in * by lia. exact Nm.
  - constructor; cbn; [lia| | |exact I7].
    + intros k Hk. rewrite Om by lia. auto.
    + rewrite <- I5. exact Nm.
Qed.

(** * The parser *)
Lemma wr_rd a b c ps : frame a b -> rd b c ps -> wr a c ps.
Proof. intros F R. split; [apply R|]. eapply frame_trans; [exact F|eapply rd_frame, R]. Qed.
Lemma name_sim fuel st ps : srel st ps -> orel (fun x y => wr st (snd x) (snd y) /\ ofrz (snd x) (fst (fst x)) (fst (fst y)) /\ frz (snd x) (snd (fst x)) (snd (fst y)))
  (parse_scoped_name e fuel st) (c_scoped_name e fuel ps).
Proof.
  intros S. unfold parse_scoped_name, c_scoped_name. eapply orel_bind; [apply tag_sim, S|]. intros (n, a) (t, b) ((A & F) & Z). cbn [fst snd] in *. rewrite <- (s_cur _ _ A).
  destruct (cur a =? 58); [|cbn; split; [split|]; auto]. eapply orel_bind; [apply rd_lex, A|]. intros a1 b1 R1. eapply orel_bind; [apply tag_sim, R1|]. intros (n2, a2) (t2, b2) ((A2 & F2) & Z2). cbn in *.
  assert (F1 : frame a a2) by (eapply frame_trans; [eapply rd_frame, R1|exact F2]). split; [split; [exact A2|eapply frame_trans; eauto]|]. split; [eapply frz_frame; eauto|exact Z2].
Qed.
Definition arel1 (st : state) (x : option (option nat * nat * option nat)) (y : option (option str * str * option str)) : Prop :=
  match x, y with Some (q, n, v), Some (q', n', v') => ofrz st q q' /\ frz st n n' /\ ofrz st v v' | None, None => True | _, _ => False end.
Lemma attr_sim fuel st ps : srel st ps -> orel (fun x y => wr st (snd x) (snd y) /\ arel1 (snd x) (fst x) (fst y)) (parse_attr e fuel st) (c_attr e fuel ps).
Proof.
  intros S. unfold parse_attr, c_attr. eapply orel_bind; [apply skip_space_sim, S|]. intros a b R. pose proof (rd_frame _ _ _ R) as F. destruct R as (A & _). rewrite <- (s_cur _ _ A).
  destruct (_ || _). { cbn. split; [split; auto|auto]. }
  eapply orel_bind; [apply name_sim, A|]. intros ((q, n), a1) ((q', n'), b1) ((A1 & F1) & Z1 & Z2). cbn [fst snd] in *. rewrite <- (s_cur _ _ A1). assert (F2 : frame st a1) by (eapply frame_trans; eauto). clear F F1 A.
  destruct (negb _). { cbn. split; [split; auto|]. auto. }
  eapply orel_bind; [apply rd_lex, A1|]. intros a2 b2 R2. pose proof (rd_frame _ _ _ R2) as F3. destruct R2 as (A2 & _). rewrite <- (s_cur _ _ A2). cbv zeta. set (delim := cur a2). destruct (negb _ && negb _) eqn:D; [exact I|].
  eapply orel_bind; [apply lex_sim, A2|]. intros a3 b3 (A3 & FA3 & M3 & L3). pose proof (loc_nxt _ _ A2).
  assert (F4 : frame a2 a3) by (apply frame_mem; [auto|lia]). assert (F5 : frame a1 a3) by (eapply frame_trans; eauto).
  eapply orel_bind. { apply (ptext_sim fuel delim a3 b3); auto. right. assert (delim = 34 \/ delim = 39) as [-> | ->] by lia; reflexivity. }
  intros (v, a4) (t, b4) ((A4 & F6) & Z4 & _). cbn [fst snd] in *. rewrite <- (s_cur _ _ A4). destruct (negb (cur a4 =? delim)); [exact I|].
  eapply orel_bind; [apply rd_lex, A4|]. intros a5 b5 R5. pose proof (rd_frame _ _ _ R5) as F7. destruct R5 as (A5 & _). cbn. assert (F8 : frame a1 a5) by (eapply frame_trans; [exact F5|eapply frame_trans; eauto]).
  split; [split; [exact A5|eapply frame_trans; eauto]|]. split; [eapply ofrz_frame; eauto|]. split; [apply (frz_frame a1); auto|apply (frz_frame a4); auto].
Qed.
Record crel (st : state) (c : ctxt) (t : tctxt) : Prop := mk_crel {
  c_maps : Forall2 (fun x y => frz st (fst x) (fst y) /\ ofrz st (snd x) (snd y)) (ns_map c) (t_map t); c_def : ofrz st (ns_default c) (t_default t) }.
Record arel (st : state) (a : attr) (t : tattr) : Prop := mk_arel {
  r_nsp : ofrz st (a_nsp a) (t_nsp t); r_name : frz st (a_name a) (t_name t); r_ns : ofrz st (a_ns a) (t_ns t); r_value : ofrz st (a_value a) (t_value t) }.
Lemma Forall2_weak {A B} (P Q : A -> B -> Prop) l l' : (forall a b, P a b -> Q a b) -> Forall2 P l l' -> Forall2 Q l l'.
Proof. intros H. induction 1; constructor; auto. Qed.
Lemma crel_frame st st' c t : frame st st' -> crel st c t -> crel st' c t.
Proof.
  intros F [A B]. constructor; [|eapply ofrz_frame; eauto]. eapply Forall2_weak; [|exact A]. cbn. intros x y (X & Y). split; [eapply frz_frame; eauto|eapply ofrz_frame; eauto].
Qed.
Lemma arel_frame st st' a t : frame st st' -> arel st a t -> arel st' a t.
Proof. intros F [A B C D]. constructor; try (eapply ofrz_frame; eauto); eapply frz_frame; eauto. Qed.
Lemma attr_list_sim fuel : forall c t st ps, srel st ps -> crel st c t ->
  orel (fun x y => wr st (snd x) (snd y) /\ Forall2 (arel (snd x)) (fst (fst x)) (fst (fst y)) /\ crel (snd x) (snd (fst x)) (snd (fst y))) (attr_list e fuel c st) (c_attr_list e fuel t ps).
Proof.
  induction fuel as [|fuel IH]; intros c t st ps S C; cbn [attr_list c_attr_list]; [exact I|].
  eapply orel_bind; [apply attr_sim, S|]. intros (x, a) (y, b) ((A & F) & X). cbn [fst snd] in *. pose proof (crel_frame _ _ _ _ F C) as C1.
  destruct x as [((q, n), v)|], y as [((q', n'), v')|]; cbn in X; try tauto. 2: { cbn. split; [split; auto|]. auto. }
  destruct X as (X1 & X2 & X3). rewrite <- (same_sim _ _ _ _ S A). destruct (same st a); [exact I|].
  assert (E1 : match q with Some q => equ (cstr (mem a) q) xmlns | None => false end = match q' with Some q => equ q xmlns | None => false end).
  { destruct q, q'; cbn in X1; try tauto. now rewrite (frz_cstr _ _ _ X1). }
  rewrite E1. destruct (match q' with Some q => _ | None => _ end).
  { eapply orel_weak; [apply IH; [exact A|]|]. { constructor; [constructor; [cbn; auto|apply C1]|apply C1]. } intros x y ((W1 & W2) & W3). split; [split; [auto|eapply frame_trans; eauto]|auto]. }
  assert (E2 : match q with Some _ => false | None => equ (cstr (mem a) n) xmlns end = match q' with Some _ => false | None => equ n' xmlns end).
  { destruct q, q'; cbn in X1; try tauto. now rewrite (frz_cstr _ _ _ X2). }
  rewrite E2. destruct (match q' with Some q => _ | None => _ end).
  { destruct v as [v|], v' as [v'|]; cbn in X3; try contradiction; [|exact I].
    eapply orel_weak; [apply IH; [exact A|]|]. { constructor; [apply C1|exact X3]. } intros x y ((W1 & W2) & W3). split; [split; [auto|eapply frame_trans; eauto]|auto]. }
  eapply orel_bind; [apply IH; [exact A|exact C1]|]. intros ((r, c'), a') ((r', t'), b') ((W1 & W2) & W3 & W4). cbn in *. split; [split; [auto|eapply frame_trans; eauto]|]. split; [|auto].
  constructor; [|auto]. constructor; cbn; auto; try (eapply ofrz_frame; eauto); eapply frz_frame; eauto.
Qed.
Lemma find_ns_sim st c t q q' b : crel st c t -> ofrz st q q' -> orel (ofrz st) (find_ns (mem st) c q b) (c_ns t q' b).
Proof.
  intros [C D] Q. unfold find_ns, c_ns. destruct q as [q|], q' as [q'|]; cbn in Q; try tauto. 2: { destruct b; cbn; auto. }
  rewrite (frz_cstr _ _ _ Q). induction C as [|(n, v) (n', v') l l' (X & Y) _ IH]; cbn; [exact I|]. cbn in X, Y. rewrite (frz_cstr _ _ _ X). destruct (equ n' q'); [|exact IH].
  destruct v, v'; cbn in *; try tauto.
Qed.
Lemma attrs_sim st c t : crel st c t -> forall l l', Forall2 (arel st) l l' -> orel (Forall2 (arel st)) (resolve_attrs (mem st) c l) (c_attrs t l').
Proof.
  intros C l l' H. induction H as [|a b l l' A H IH]; cbn; [constructor|]. eapply orel_bind; [apply find_ns_sim; [exact C|apply A]|]. intros n n' N. eapply orel_bind; [exact IH|]. intros r r' R. cbn.
  constructor; [|auto]. constructor; cbn; auto; apply A.
Qed.
Definition nrel (st : state) (n : node) (t : tnode) : Prop := frozen st (ptrs n) /\ view (mem st) n = t.
Lemma nrel_frame st st' n t : frame st st' -> nrel st n t -> nrel st' n t.
Proof. intros F (A & B). split; [eapply frozen_frame; eauto|]. rewrite <- B. symmetry. apply view_ext. intros p I. eapply frozen_cstr; eauto. Qed.
Lemma ofrz_frozen st o s : ofrz st o s -> frozen st (optr o) /\ option_map (cstr (mem st)) o = s.
Proof.
  destruct o as [o|], s as [s|]; cbn; try tauto; [|intros _; split; [intros ? []|auto]].
  intros Z. split; [intros p [<-|[]]; eauto|]. f_equal. now apply frz_cstr.
Qed.
Lemma frozen_app st a b : frozen st a -> frozen st b -> frozen st (a ++ b).
Proof. intros A B p I. apply in_app_or in I as [I|I]; auto. Qed.
Lemma frozen_one st p s : frz st p s -> frozen st [p].
Proof. intros Z q [<-|[]]. eauto. Qed.
Lemma arel_view st a t : arel st a t -> frozen st (aptrs a) /\ view_attr (mem st) a = t.
Proof.
  intros [A B C D]. apply ofrz_frozen in A as (A1 & A2), C as (C1 & C2), D as (D1 & D2). split.
  - unfold aptrs. repeat apply frozen_app; auto. eapply frozen_one; eauto.
  - unfold view_attr. rewrite A2, C2, D2, (frz_cstr _ _ _ B). now destruct t.
Qed.
Lemma arels_view st l l' : Forall2 (arel st) l l' -> frozen st (flat_map aptrs l) /\ map (view_attr (mem st)) l = l'.
Proof.
  induction 1 as [|a b l l' A _ (I1 & I2)]; cbn; [split; [intros ? []|auto]|]. apply arel_view in A as (A1 & A2). split; [now apply frozen_app|congruence].
Qed.
Lemma nrels_view st l l' : Forall2 (nrel st) l l' -> frozen st (flat_map ptrs l) /\ map (view (mem st)) l = l'.
Proof.
  induction 1 as [|a b l l' (A1 & A2) _ (I1 & I2)]; cbn; [split; [intros ? []|auto]|]. split; [now apply frozen_app|congruence].
Qed.
Lemma elem_rel st q q' n n' s s' l l' c c' : ofrz st q q' -> frz st n n' -> ofrz st s s' -> Forall2 (arel st) l l' -> Forall2 (nrel st) c c' -> nrel st (Elem q n s l c) (TElem q' n' s' l' c').
Proof.
  intros A B C D E. apply ofrz_frozen in A as (A1 & A2), C as (C1 & C2). apply arels_view in D as (D1 & D2). apply nrels_view in E as (E1 & E2). split.
  - cbn [ptrs]. repeat apply frozen_app; auto. eapply frozen_one; eauto.
  - cbn [view]. rewrite A2, C2, D2, E2, (frz_cstr _ _ _ B). reflexivity.
Qed.
Definition tagrel (st : state) (x : option (option nat * nat)) (y : option (option str * str)) : Prop :=
  match x, y with Some (q, n), Some (q', n') => ofrz st q q' /\ frz st n n' | None, None => True | _, _ => False end.
Definition ready (st : state) : Prop := cur st = 60 \/ cur st = 0 \/ fresh st.
Definition rec_ok (rec : ctxt -> option (option nat * nat) -> state -> xres (list node * state)) (rec' : tctxt -> option (option str * str) -> state -> xres (list tnode * state)) : Prop :=
  forall c t x y st ps, srel st ps -> crel st c t -> tagrel st x y -> ready st ->
    orel (fun x y => wr st (snd x) (snd y) /\ Forall2 (nrel (snd x)) (fst x) (fst y) /\ ready (snd x)) (rec c x st) (rec' t y ps).
Lemma elem_sim rec rec' fuel c t st ps : rec_ok rec rec' -> srel st ps -> crel st c t ->
  orel (fun x y => wr st (snd x) (snd y) /\ nrel (snd x) (fst x) (fst y) /\ ready (snd x)) (parse_elem e rec fuel c st) (c_elem e rec' fuel t ps).
Proof.
  intros RC S C. unfold parse_elem, c_elem. eapply orel_bind; [apply name_sim, S|]. intros ((q, n), a) ((q', n'), b) ((A & F) & Z1 & Z2). cbn [fst snd] in *.
  pose proof (crel_frame _ _ _ _ F C) as C1. eapply orel_bind; [apply attr_list_sim; [exact A|exact C1]|]. intros ((l, c'), a1) ((l', t'), b1) ((A1 & F1) & X & C2). cbn [fst snd] in *. clear C C1.
  apply (ofrz_frame _ _ _ _ F1) in Z1. apply (frz_frame _ _ _ _ F1) in Z2.
  eapply orel_bind; [apply find_ns_sim; [exact C2|exact Z1]|]. intros s s' Hs. eapply orel_bind; [apply attrs_sim; [exact C2|exact X]|]. intros r r' Hr. rewrite <- (s_cur _ _ A1).
  assert (F2 : frame st a1) by (eapply frame_trans; eauto).
  destruct (cur a1 =? 47).
  - eapply orel_bind; [apply expect_sim, A1|]. intros a2 b2 (R2 & Fr). specialize (Fr ltac:(discriminate)). pose proof (rd_frame _ _ _ R2) as F3. cbn. split; [split; [apply R2|eapply frame_trans; eauto]|]. split; [|right; right; exact Fr].
    apply (nrel_frame a1); [exact F3|]. apply elem_rel; auto.
  - eapply orel_bind; [apply expect_sim, A1|]. intros a2 b2 (R2 & Fr). specialize (Fr ltac:(discriminate)). pose proof (rd_frame _ _ _ R2) as F3. destruct R2 as (A2 & _).
    eapply orel_bind. { apply RC; [exact A2|eapply crel_frame; eauto| |right; right; exact Fr]. cbn. split; [eapply ofrz_frame; eauto|eapply frz_frame; eauto]. }
    intros (ch, a3) (ch', b3) ((A3 & F4) & N & Rd). cbn in *. assert (F5 : frame a1 a3) by (eapply frame_trans; eauto). split; [split; [exact A3|eapply frame_trans; eauto]|]. split; [|exact Rd].
    apply elem_rel; auto; [eapply ofrz_frame; eauto|eapply frz_frame; eauto|eapply ofrz_frame; eauto|]. eapply Forall2_weak; [|exact Hr]. intros x y. apply arel_frame, F5.
Qed.
Definition onrel (st : state) (x : option node) (y : option tnode) : Prop := match x, y with Some n, Some t => nrel st n t | None, None => True | _, _ => False end.
Lemma content_sim rec rec' fuel : forall c t st ps, rec_ok rec rec' -> srel st ps -> crel st c t -> ready st ->
  orel (fun x y => wr st (snd x) (snd y) /\ onrel (snd x) (fst x) (fst y) /\ ready (snd x)) (parse_content e rec fuel c st) (c_content e rec' fuel t ps).
Proof.
  induction fuel as [|fuel IH]; intros c t st ps RC S C Rd; cbn [parse_content c_content]; [exact I|]. rewrite <- (s_cur _ _ S).
  destruct (cur st =? 0) eqn:C0. { cbn. split; [split; [auto|apply frame_refl]|]. split; auto. }
  destruct (cur st =? 60) eqn:C60.
  - eapply orel_bind; [apply rd_lex, S|]. intros a b R. pose proof (rd_frame _ _ _ R) as F. destruct R as (A & _). rewrite <- (s_cur _ _ A). destruct (cur a =? 33).
    + eapply orel_bind; [apply expect_rd, A|]. intros a1 b1 R1. pose proof (rd_frame _ _ _ R1) as F1. destruct R1 as (A1 & _). eapply orel_bind; [apply comment_sim, A1|]. intros a2 b2 (R2 & Fr). pose proof (rd_frame _ _ _ R2) as F2. destruct R2 as (A2 & _).
      assert (F3 : frame st a2) by (eapply frame_trans; [exact F|eapply frame_trans; eauto]). eapply orel_weak; [apply IH; [exact RC|exact A2|eapply crel_frame; eauto|right; right; exact Fr]|].
      intros x y ((W1 & W2) & W3). split; [split; [auto|eapply frame_trans; eauto]|auto].
    + eapply orel_bind; [apply elem_sim; [exact RC|exact A|eapply crel_frame; eauto]|]. intros (n, a1) (n', b1) ((A1 & F1) & N & R1). cbn in *. split; [split; [auto|eapply frame_trans; eauto]|auto].
  - eapply orel_bind. { apply (ptext_sim fuel 60 st ps); auto. destruct Rd as [Rd|[Rd|Rd]]; [lia|lia|auto]. }
    intros (n, a) (n', b) ((A & F) & Z & Cr). cbn in *. split; [split; auto|]. split; [|unfold ready; tauto]. split; cbn; [eapply frozen_one; eauto|]. f_equal. now apply frz_cstr.
Qed.
Lemma list_sim fuel : rec_ok (content_list e fuel) (c_content_list e fuel).
Proof.
  induction fuel as [|fuel IH]; intros c t x y st ps S C T Rd; cbn [content_list c_content_list]; [exact I|].
  eapply orel_bind with (Q := eq). { destruct x as [(q, n)|], y as [(q', n')|]; cbn in T; try tauto; [|reflexivity]. rewrite <- (s_cur _ _ S). destruct (cur st =? 60); [apply peek_sim, S|reflexivity]. }
  assert (K : forall (z : bool), z = true \/ z = z -> orel (fun x y => wr st (snd x) (snd y) /\ Forall2 (nrel (snd x)) (fst x) (fst y) /\ ready (snd x))
    (do (n, st) <- parse_content e (content_list e fuel) fuel c st; match n with None => match x with Some _ => Err | None => Ok ([], st) end | Some n => do (r, st) <- content_list e fuel c x st; Ok (n :: r, st) end)
    (do (n, st) <- c_content e (c_content_list e fuel) fuel t ps; match n with None => match y with Some _ => Err | None => Ok ([], st) end | Some n => do (r, st) <- c_content_list e fuel t y st; Ok (n :: r, st) end)).
  { intros _ _. eapply orel_bind; [apply content_sim; [exact IH|exact S|exact C|exact Rd]|]. intros (n, a) (n', b) ((A & F) & N & R1). cbn [fst snd] in *.
    destruct n as [n|], n' as [n'|]; cbn in N; try tauto. 2: { destruct x as [(q, z)|], y as [(q', z')|]; cbn in T; try tauto; cbn; auto. split; [split; auto|]. auto. }
    eapply orel_bind. { apply IH; [exact A|eapply crel_frame; eauto| |exact R1]. destruct x as [(q, z)|], y as [(q', z')|]; cbn in *; try tauto. destruct T. split; [eapply ofrz_frame; eauto|eapply frz_frame; eauto]. }
    intros (r, a1) (r', b1) ((A1 & F1) & N1 & R2). cbn in *. split; [split; [auto|eapply frame_trans; eauto]|]. split; [|auto]. constructor; [eapply nrel_frame; eauto|auto]. }
  intros d ? <-. destruct d; [|apply (K true); auto]. destruct x as [(q, n)|], y as [(q', n')|]; cbn in T; try tauto; [|apply (K true); auto]. clear K. destruct T as (T1 & T2).
  eapply orel_bind; [apply rd_lex, S|]. intros a b R. pose proof (rd_frame _ _ _ R) as F. destruct R as (A & _).
  eapply orel_bind; [apply rd_lex, A|]. intros a1 b1 R1. pose proof (rd_frame _ _ _ R1) as F1. destruct R1 as (A1 & _). assert (F2 : frame st a1) by (eapply frame_trans; eauto). clear F F1 A.
  apply (ofrz_frame _ _ _ _ F2) in T1. apply (frz_frame _ _ _ _ F2) in T2.
  eapply orel_bind with (Q := fun s' p' => srel s' p' /\ frame a1 s').
  { destruct q as [q|], q' as [q'|]; cbn in T1; try tauto; [|split; [auto|apply frame_refl]]. rewrite (frz_cstr _ _ _ T1). eapply orel_bind; [apply expect_rd, A1|]. intros a2 b2 R2. pose proof (rd_frame _ _ _ R2) as F3. destruct R2 as (A2 & _).
    eapply orel_weak; [apply expect_rd, A2|]. intros a3 b3 R3. pose proof (rd_frame _ _ _ R3) as F4. destruct R3 as (A3 & _). split; [auto|eapply frame_trans; eauto]. }
  intros a2 b2 (A2 & F3). apply (frz_frame _ _ _ _ F3) in T2. rewrite (frz_cstr _ _ _ T2).
  eapply orel_bind; [apply expect_rd, A2|]. intros a3 b3 R3. pose proof (rd_frame _ _ _ R3) as F4. destruct R3 as (A3 & _).
  eapply orel_bind; [apply skip_space_sim, A3|]. intros a4 b4 R4. pose proof (rd_frame _ _ _ R4) as F5. destruct R4 as (A4 & _).
  eapply orel_bind; [apply expect_sim, A4|]. intros a5 b5 (R5 & Fr). specialize (Fr ltac:(discriminate)). pose proof (rd_frame _ _ _ R5) as F6. destruct R5 as (A5 & _). cbn.
  split; [split; [exact A5|]|split; [constructor|right; right; exact Fr]]. eapply frame_trans; [exact F2|]. eapply frame_trans; [exact F3|]. eapply frame_trans; [exact F4|]. eapply frame_trans; [exact F5|exact F6].
Qed.
Lemma doc_sim fuel st ps : srel st ps -> fresh st ->
  orel (fun x y => map (view_attr (mem (snd x))) (fst (fst x)) = fst (fst y) /\ map (view (mem (snd x))) (snd (fst x)) = snd (fst y)) (parse_doc e fuel st) (c_doc e fuel ps).
Proof.
  intros S Fr. unfold parse_doc, c_doc. rewrite <- (s_cur _ _ S).
  eapply orel_bind with (Q := fun a b => srel a b /\ fresh a). { destruct (cur st =? 65279); [|cbn; auto]. eapply orel_weak; [apply lex_sim, S|]. intros a b (A & F & _). auto. }
  clear S Fr st ps. intros st ps (S & Fr). rewrite <- (s_cur _ _ S). cbv zeta.
  eapply orel_bind with (Q := eq). { destruct (cur st =? 60); [apply peek_sim, S|reflexivity]. } intros q ? <-.
  eapply orel_bind with (Q := fun x y => srel (snd x) (snd y) /\ fresh (snd x) /\ crel (snd x) (fst (fst x)) (fst (fst y)) /\ Forall2 (arel (snd x)) (snd (fst x)) (snd (fst y))).
  { destruct q. 2: { cbn. split; [auto|]. split; [auto|]. split; [constructor; cbn; auto|constructor]. }
    eapply orel_bind; [apply rd_lex, S|]. intros a b (A & _). eapply orel_bind; [apply rd_lex, A|]. intros a1 b1 (A1 & _). eapply orel_bind; [apply tag_sim, A1|]. intros (n, a2) (n', b2) ((A2 & _) & Z). cbn [fst snd] in *.
    rewrite (frz_cstr _ _ _ Z). destruct (negb _); [exact I|]. eapply orel_bind. { apply (attr_list_sim fuel _ (mk_tctxt [] None) a2 b2 A2). constructor; cbn; auto. }
    intros ((l, c), a3) ((l', c'), b3) ((A3 & _) & X & C). cbn [fst snd] in *. eapply orel_bind; [apply expect_sim, A3|]. intros a4 b4 (R4 & F4). specialize (F4 ltac:(discriminate)). pose proof (rd_frame _ _ _ R4) as F5. cbn.
    split; [apply R4|]. split; [exact F4|]. split; [eapply crel_frame; eauto|]. eapply Forall2_weak; [|exact X]. intros x y. apply arel_frame, F5. }
  clear S Fr st ps q. intros ((c, l), st) ((t, l'), ps) (S & Fr & C & X). cbn [fst snd] in *.
  eapply orel_bind; [apply skip_space_sim, S|]. intros a b R. pose proof (rd_frame _ _ _ R) as F. destruct R as (A & M & L & Fa). specialize (Fa Fr).
  rewrite <- (s_cur _ _ A), <- (prefix_sim _ _ _ A).
  eapply orel_bind with (Q := fun x y => srel x y /\ fresh x /\ frame a x).
  { destruct (_ && _); [|cbn; split; [auto|split; [auto|apply frame_refl]]]. eapply orel_bind; [apply expect_rd, A|]. intros a1 b1 R1. pose proof (rd_frame _ _ _ R1) as F1. destruct R1 as (A1 & _).
    eapply orel_bind; [apply doctype_sim, A1|]. intros a2 b2 R2. pose proof (rd_frame _ _ _ R2) as F2. destruct R2 as (A2 & _). pose proof (loc_nxt _ _ A2) as LN.
    eapply orel_bind; [apply lex_sim, A2|]. intros a3 b3 (A3 & Fr3 & M3 & L3). assert (F3 : frame a2 a3) by (apply frame_mem; [auto|lia]).
    eapply orel_weak; [apply skip_space_sim, A3|]. intros a4 b4 R4. pose proof (rd_frame _ _ _ R4) as F4. split; [apply R4|]. split; [apply R4, Fr3|]. eapply frame_trans; [exact F1|]. eapply frame_trans; [exact F2|]. eapply frame_trans; eauto. }
  intros a1 b1 (A1 & Fr1 & F1). assert (F2 : frame st a1) by (eapply frame_trans; eauto).
  eapply orel_bind. { apply list_sim; [exact A1|eapply crel_frame; eauto| |right; right; exact Fr1]. exact I. }
  intros (n, a2) (n', b2) ((A2 & F3) & N & _). cbn in *. split; [|apply nrels_view in N; apply N].
  assert (Y : Forall2 (arel a2) l l'). { eapply Forall2_weak; [|exact X]. intros x y. apply arel_frame. eapply frame_trans; eauto. } apply arels_view in Y. apply Y.
Qed.
End Sim.
