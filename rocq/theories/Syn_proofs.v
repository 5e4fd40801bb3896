(** C35: the machine that writes into the file simulates the one that copies texts *)
From Coq Require Import ZArith Bool List Lia Arith ZifyBool.
From Verif Require Import Syn_model Syn_spec.
Import ListNotations.
Local Open Scope Z_scope.

Definition orel {A B} (P : A -> B -> Prop) (x : res A) (y : res B) : Prop :=
  match x, y with Ok a, Ok b => P a b | Err, Err | Inc, Inc | NoFuel, NoFuel => True | _, _ => False end.
Lemma orel_bind {A B C D} (P : A -> B -> Prop) (Q : C -> D -> Prop) x y f g :
  orel P x y -> (forall a b, P a b -> orel Q (f a) (g b)) -> orel Q (bind x f) (bind y g).
Proof. destruct x, y; cbn; auto; try contradiction. Qed.
Lemma orel_imp {A B} (P Q : A -> B -> Prop) x y : orel P x y -> (forall a b, P a b -> Q a b) -> orel Q x y.
Proof. destruct x, y; cbn; auto. Qed.

Lemma skipn_cons {A} (l : list A) n c r : skipn n l = c :: r -> skipn (S n) l = r /\ nth_error l n = Some c /\ (n < length l)%nat.
Proof.
  revert l. induction n as [|n IH]; intros [|x l] H; cbn in *; try discriminate.
  - inversion H; subst. repeat split; cbn; lia.
  - destruct (IH _ H) as (A1 & B & C). repeat split; auto; lia.
Qed.
Lemma nth_skipn {A} (l : list A) n i d : nth i (skipn n l) d = nth (n + i) l d.
Proof. revert l. induction n as [|n IH]; intros [|x l]; cbn; auto. now destruct i. Qed.
Lemma poke_length m p c : length (poke m p c) = length m.
Proof. revert p. induction m; intros [|p]; cbn; auto. Qed.
Lemma poke_nth m p c i : nth i (poke m p c) 0 = if (Nat.eqb i p && Nat.ltb p (length m))%bool then c else nth i m 0.
Proof.
  revert p i. induction m as [|x m IH]; intros [|p] [|i]; cbn; auto; try (now rewrite ?andb_false_r). rewrite IH. now destruct (Nat.eqb i p).
Qed.
Lemma poke_skipn m p c x r : skipn p m = x :: r -> skipn p (poke m p c) = c :: r.
Proof. revert p. induction m as [|y m IH]; intros [|p] H; cbn in *; try discriminate; auto. now inversion H. Qed.
Lemma cstr_spec m p t : (p + length t < length m)%nat -> (forall i, (i < length t)%nat -> nth (p + i) m 0 = nth i t 0) -> nth (p + length t) m 0 = 0 -> ~ In 0 t -> cstr m p = t.
Proof.
  unfold cstr. intros L H E N. assert (K : skipn p m <> []) by (intros X; apply (f_equal (@length Z)) in X; rewrite skipn_length in X; cbn in X; lia).
  assert (H' : forall i, (i < length t)%nat -> nth i (skipn p m) 0 = nth i t 0) by (intros i I; rewrite nth_skipn; auto).
  assert (E' : nth (length t) (skipn p m) 0 = 0) by (rewrite nth_skipn; auto). assert (L' : (length t < length (skipn p m))%nat) by (rewrite skipn_length; lia).
  revert L' H' E'. generalize (skipn p m) as l. clear - N. induction t as [|c t IH]; intros [|x l] L H E; cbn in *; try lia.
  - now subst x.
  - pose proof (H 0%nat ltac:(lia)) as X. cbn in X. subst x. replace (c =? 0) with false by (destruct (c =? 0) eqn:?; auto; exfalso; apply N; left; lia). f_equal. apply IH; [tauto|lia| |auto]. intros i I. apply (H (S i)). lia.
Qed.

Section Sim.
Variable file : list Z.
Notation e := (length file).

(** memory before the position is final, and a NUL at the position stays *)
Definition ext (s s' : mem) : Prop :=
  (m_pos s <= m_pos s')%nat /\ length (m_mem s') = length (m_mem s) /\ (forall i, (i < m_pos s)%nat -> nth i (m_mem s') 0 = nth i (m_mem s) 0) /\
  (nth (m_pos s) (m_mem s) 0 = 0 -> nth (m_pos s) (m_mem s') 0 = 0).
Lemma ext_refl s : ext s s. Proof. repeat split; auto. Qed.
Lemma ext_trans a b c : ext a b -> ext b c -> ext a c.
Proof.
  intros (P & L & H & Z) (P' & L' & H' & Z'). repeat split; try lia.
  - intros i I. rewrite H' by lia. auto.
  - intros E. specialize (Z E). destruct (Nat.eq_dec (m_pos a) (m_pos b)) as [Q|Q]; [rewrite Q in *; auto|]. rewrite H' by lia. exact Z.
Qed.
Record R (b : bool) (s : mem) (c : copy) : Prop := mk_R {
  r_pos : (m_pos s + length (c_rest c) = e)%nat; r_cur : m_cur s = hd 0 (c_rest c); r_len : length (m_mem s) = S e;
  r_mem : skipn (m_pos s) (m_mem s) = c_here c :: tl (c_rest c ++ [0]);
  r_acc : b = true -> c_dirty c = false /\ (m_str s + length (c_acc c) = m_pos s)%nat /\ (forall i, (i < length (c_acc c))%nat -> nth (m_str s + i) (m_mem s) 0 = nth i (rev (c_acc c)) 0) /\ ~ In 0 (c_acc c) }.
Lemma R_false b s c : R b s c -> R false s c.
Proof. intros [A B C D _]. constructor; auto. discriminate. Qed.
(** the string at [p] is [t], and will be *)
Definition wrel (s : mem) (p : nat) (t : list Z) : Prop :=
  (p + length t <= m_pos s)%nat /\ (p + length t < length (m_mem s))%nat /\ (forall i, (i < length t)%nat -> nth (p + i) (m_mem s) 0 = nth i t 0) /\ nth (p + length t) (m_mem s) 0 = 0 /\ ~ In 0 t.
Lemma wrel_ext s s' p t : wrel s p t -> ext s s' -> wrel s' p t.
Proof.
  intros (A & B & C & D & E) (P & L & H & Z). repeat split; auto; try lia.
  - intros i I. rewrite H by lia. auto.
  - destruct (Nat.eq_dec (p + length t) (m_pos s)) as [Q|Q]; [rewrite Q in *; auto|]. rewrite H by lia. exact D.
Qed.
Lemma wrel_cstr s p t : wrel s p t -> cstr (m_mem s) p = t.
Proof. intros (A & B & C & D & E). apply cstr_spec; auto. Qed.

Lemma step_sim b s c : R b s c -> (b = true -> hd 0 (c_rest c) <> 0) -> orel (fun s' c' => ext s s' /\ R b s' c' /\ m_str s' = m_str s /\ c_txt c' = c_txt c) (m_step e s) (Ok (c_step c)).
Proof.
  intros [P C L Mm A] Hb. unfold m_step, c_step. destruct (c_rest c) as [|x r] eqn:Er; cbn [length hd] in *.
  - replace (Nat.leb e (m_pos s)) with true by (symmetry; apply Nat.leb_le; lia). cbn. split; [repeat split; auto|]. split; [|auto]. constructor; cbn; rewrite ?Er; auto.
  - replace (Nat.leb e (m_pos s)) with false by (symmetry; apply Nat.leb_gt; lia). cbn [app tl] in Mm. destruct (skipn_cons _ _ _ _ Mm) as (M1 & M2 & M3).
    assert (X : exists y, nth_error (m_mem s) (S (m_pos s)) = Some y /\ y = hd 0 r /\ skipn (S (m_pos s)) (m_mem s) = y :: tl (r ++ [0])).
    { rewrite M1. destruct r as [|y r]; cbn [app hd tl] in *; destruct (skipn_cons _ _ _ _ M1) as (_ & N & _); eauto. }
    destruct X as (y & Y1 & Y2 & Y3). unfold load. rewrite Y1. cbn. split. { repeat split; cbn; auto. } split; [|auto].
    constructor; cbn; auto; try lia; [now rewrite <- Y2|].
    intros B. destruct (A B) as (A1 & A2 & A3 & A4). repeat split; auto; try lia.
    + intros i I. destruct (Nat.eq_dec i (length (c_acc c))) as [->|Q].
      * rewrite app_nth2; rewrite rev_length; [|lia]. rewrite Nat.sub_diag. cbn. rewrite A2. apply (nth_error_nth _ _ 0) in M2. rewrite M2. unfold c_here. now rewrite A1, Er.
      * rewrite app_nth1 by (rewrite rev_length; lia). apply A3. lia.
    + specialize (Hb B). intros [I|I]; [lia|auto].
Qed.
Lemma skip_sim f b fuel : f 0 = false -> forall s c, R b s c -> orel (fun s' c' => ext s s' /\ R b s' c' /\ m_str s' = m_str s /\ c_txt c' = c_txt c) (skip mem nat (machine e) f fuel s) (skip copy (list Z) copying f fuel c).
Proof.
  intros F0. induction fuel as [|fuel IH]; intros s c H; cbn [skip]; [exact I|]. change (cur (machine e) s) with (m_cur s). change (cur copying c) with (hd 0 (c_rest c)). rewrite (r_cur _ _ _ H). destruct (f (hd 0 (c_rest c))) eqn:Ef.
  - eapply orel_bind; [apply (step_sim b _ _ H); intros _ X; congruence|]. intros s' c' (E & H' & Es & Et). eapply orel_imp; [apply IH, H'|]. cbn. intros a d (E2 & H2 & Es2 & Et2). split; [eapply ext_trans; eauto|]. split; [auto|]. split; congruence.
  - cbn. split; [apply ext_refl|auto].
Qed.
Lemma start_R s c : R false s c -> m_str s = m_pos s -> c_acc c = [] -> c_here c <> 0 -> R true s c.
Proof.
  intros [A B C D _] E G H. constructor; auto. intros _. rewrite G. unfold c_here in H. destruct (c_dirty c); [congruence|]. repeat split; cbn; auto; lia.
Qed.
Lemma mark_R b s c : R b s c -> R false (mark (machine e) s) (mark copying c) /\ ext s (mark (machine e) s).
Proof. intros [A B C D _]. split; [constructor; cbn; auto; discriminate|repeat split; auto]. Qed.
Lemma mark_true s c : R true s c -> R true (mark (machine e) s) (mark copying c).
Proof. intros [A B C D E]. destruct (E eq_refl) as (E1 & _). constructor; cbn; auto. intros _. repeat split; auto; lia. Qed.
Lemma cut_sim s c : R true s c -> orel (fun s' c' => ext s s' /\ R false s' c' /\ wrel s' (m_str s') (c_txt c')) (m_cut s) (cut copying c).
Proof.
  intros [A B C D E]. destruct (E eq_refl) as (E1 & E2 & E3 & E4). destruct (skipn_cons _ _ _ _ D) as (D1 & D2 & D3). unfold m_cut, load. rewrite D2. cbn.
  split; [|split].
  - repeat split; cbn; [lia|apply poke_length| |].
    + intros i I. rewrite poke_nth. now replace (Nat.eqb i (m_pos s)) with false by (symmetry; apply Nat.eqb_neq; lia).
    + intros _. rewrite poke_nth, Nat.eqb_refl. now replace (Nat.ltb _ _) with true by (symmetry; apply Nat.ltb_lt; lia).
  - constructor; cbn; auto; [now rewrite poke_length| |discriminate]. now apply poke_skipn with (1 := D).
  - unfold wrel; cbn. rewrite rev_length, poke_length. repeat split; try lia.
    + intros i I. rewrite poke_nth. replace (Nat.eqb _ _) with false by (symmetry; apply Nat.eqb_neq; lia). cbn. auto.
    + rewrite poke_nth, E2, Nat.eqb_refl. now replace (Nat.ltb _ _) with true by (symmetry; apply Nat.ltb_lt; lia).
    + rewrite <- in_rev. exact E4.
Qed.

(** tokens that have a text *)
Definition worded (t : Z) : bool := (258 <=? t) && (t <=? 262).
Definition prel (p : Z * mem) (q : Z * copy) : Prop :=
  fst p = fst q /\ R false (snd p) (snd q) /\ (worded (fst p) = true -> wrel (snd p) (m_str (snd p)) (c_txt (snd q))).
Definition from (s : mem) (p : Z * mem) (q : Z * copy) : Prop := ext s (snd p) /\ prel p q.
Ltac opn := change (cur (machine e)) with m_cur; change (step (machine e)) with (m_step e); change (cut (machine e)) with m_cut; change (here (machine e)) with (fun s => load (m_mem s) (m_pos s)); change (ahead (machine e)) with (fun s => load (m_mem s) (S (m_pos s))); cbv beta.
Lemma here_sim b s c : R b s c -> load (m_mem s) (m_pos s) = Ok (c_here c).
Proof. intros [A B C D E]. destruct (skipn_cons _ _ _ _ D) as (_ & D2 & _). unfold load. now rewrite D2. Qed.
Lemma cur_sim b s c : R b s c -> m_cur s = cur copying c.
Proof. apply r_cur. Qed.
Lemma dirty_false s c : R true s c -> c_here c = hd 0 (c_rest c).
Proof. intros H. destruct (r_acc _ _ _ H eq_refl) as (E & _). unfold c_here. now rewrite E. Qed.

Ltac stp H := eapply orel_bind; [apply (step_sim _ _ _ H)|].
Lemma number_sim fuel s c : R false s c -> m_str s = m_pos s -> c_acc c = [] -> num_start (m_cur s) = true -> orel (from s) (scan_number mem nat (machine e) fuel s) (scan_number copy (list Z) copying fuel c).
Proof.
  intros H E A N. unfold scan_number. opn. rewrite (here_sim _ _ _ H). cbn [bind here copying]. destruct (c_here c =? 0) eqn:Z0.
  { cbn. split; [apply ext_refl|]. split; [auto|split; [auto|discriminate]]. }
  assert (T : R true s c) by (apply start_R; auto; lia). rewrite (cur_sim _ _ _ H).
  eapply (orel_bind (fun s' c' => ext s s' /\ R true s' c')).
  { destruct (cur copying c =? 43) eqn:C1.
    - eapply orel_bind; [apply (step_sim true s c T); intros _ X; cbn in C1; lia|]. intros s1 c1 (X1 & R1 & _). cbn [orel]. split; [eapply ext_trans; [exact X1|apply (mark_R true _ _ R1)]|now apply mark_true].
    - destruct (cur copying c =? 45) eqn:C2; [|cbn; split; [apply ext_refl|auto]]. eapply orel_imp; [apply (step_sim true s c T); intros _ X; cbn in C2; lia|]. cbn. tauto. }
  intros s1 c1 (X1 & R1). eapply orel_bind; [apply (skip_sim is_digit true fuel eq_refl _ _ R1)|]. intros s2 c2 (X2 & R2 & _). rewrite (cur_sim _ _ _ R2).
  eapply (orel_bind (fun p q => fst p = fst q /\ (fst p = T_INT \/ fst p = T_FLOAT) /\ ext s (snd p) /\ R true (snd p) (snd q))).
  { destruct (cur copying c2 =? 46) eqn:C1.
    - eapply orel_bind; [apply (step_sim true _ _ R2); intros _ X; cbn in C1; lia|]. intros s3 c3 (X3 & R3 & _). eapply orel_bind; [apply (skip_sim is_digit true fuel eq_refl _ _ R3)|]. intros s4 c4 (X4 & R4 & _). cbn [orel fst snd]. split; [auto|]. split; [auto|]. split; [|auto]. eauto using ext_trans.
    - cbn [orel fst snd]. split; [auto|]. split; [auto|]. split; [|auto]. eauto using ext_trans. }
  intros (t3, s3) (t3', c3) (E3 & K3 & X3 & R3). cbn [fst snd] in E3, K3, X3, R3. subst t3'. rewrite (cur_sim _ _ _ R3).
  eapply (orel_bind (fun p q => fst p = fst q /\ ext s (snd p) /\ R true (snd p) (snd q))).
  { destruct ((cur copying c3 =? 101) || (cur copying c3 =? 69)) eqn:C1.
    - eapply orel_bind; [apply (step_sim true _ _ R3); intros _ X; cbn in C1; lia|]. intros s4 c4 (X4 & R4 & _). rewrite (cur_sim _ _ _ R4). eapply (orel_bind (fun s' c' => ext s4 s' /\ R true s' c')).
      { destruct ((cur copying c4 =? 45) || (cur copying c4 =? 43)) eqn:C2; [|cbn; split; [apply ext_refl|auto]]. eapply orel_imp; [apply (step_sim true _ _ R4); intros _ X; cbn in C2; lia|]. cbn. tauto. }
      intros s5 c5 (X5 & R5). eapply orel_bind; [apply (skip_sim is_digit true fuel eq_refl _ _ R5)|]. intros s6 c6 (X6 & R6 & _). cbn [orel fst snd]. split; [auto|]. split; [|auto]. eauto 6 using ext_trans.
    - cbn [orel fst snd]. auto. }
  intros (t4, s4) (t4', c4) (E4 & X4 & R4). cbn [fst snd] in E4, X4, R4. subst t4'. eapply orel_bind; [apply (cut_sim _ _ R4)|]. intros s5 c5 (X5 & R5 & W5). cbn [orel]. split; [cbn [snd]; eauto using ext_trans|]. split; [auto|]. split; auto.
Qed.
Lemma id_sim fuel s c : R false s c -> m_str s = m_pos s -> c_acc c = [] -> orel (from s) (scan_id mem nat (machine e) fuel s) (scan_id copy (list Z) copying fuel c).
Proof.
  intros H E A. unfold scan_id. opn. rewrite (here_sim _ _ _ H). cbn [bind here copying]. destruct (c_here c =? 0) eqn:Z0.
  { cbn. split; [apply ext_refl|]. split; [auto|split; [auto|discriminate]]. }
  assert (T : R true s c) by (apply start_R; auto; lia). rewrite (cur_sim _ _ _ H).
  eapply (orel_bind (fun s' c' => ext s s' /\ R true s' c')).
  { destruct (cur copying c =? 36) eqn:C1; [|cbn; split; [apply ext_refl|auto]]. eapply orel_imp; [apply (step_sim true s c T); intros _ X; cbn in C1; lia|]. cbn. tauto. }
  intros s1 c1 (X1 & R1). eapply orel_bind; [apply (skip_sim id_char true fuel eq_refl _ _ R1)|]. intros s2 c2 (X2 & R2 & _). eapply orel_bind; [apply (cut_sim _ _ R2)|]. intros s5 c5 (X5 & R5 & W5). cbn [orel]. split; [cbn [snd]; eauto using ext_trans|]. split; [auto|]. split; auto.
Qed.
Lemma string_loop_sim fuel : forall s c, R true s c ->
  orel (fun p q => fst p = fst q /\ ext s (snd p) /\ R true (snd p) (snd q)) (scan_string_loop mem nat (machine e) fuel s) (scan_string_loop copy (list Z) copying fuel c).
Proof.
  induction fuel as [|fuel IH]; intros s c H; cbn [scan_string_loop]; [exact I|]. opn. rewrite (here_sim _ _ _ H). cbn [bind here copying]. pose proof (dirty_false _ _ H) as D.
  destruct (c_here c =? 34); [cbn; split; [auto|split; [apply ext_refl|auto]]|]. destruct (c_here c =? 92) eqn:C1.
  - eapply orel_bind; [apply (step_sim true _ _ H); intros _ X; lia|]. intros s1 c1 (X1 & R1 & _). pose proof (dirty_false _ _ R1) as D1. rewrite (here_sim _ _ _ R1). cbn [bind]. destruct (128 <=? c_here c1); [cbn; auto|]. destruct (c_here c1 =? 0) eqn:C2; [cbn; auto|].
    eapply orel_bind; [apply (step_sim true _ _ R1); intros _ X; lia|]. intros s2 c2 (X2 & R2 & _). eapply orel_imp; [apply (IH _ _ R2)|]. intros a b (P & Q & S). split; [auto|]. split; [|auto]. eauto using ext_trans.
  - destruct (c_here c =? 0) eqn:C2; [cbn; split; [auto|split; [apply ext_refl|auto]]|]. eapply orel_bind; [apply (step_sim true _ _ H); intros _ X; lia|]. intros s2 c2 (X2 & R2 & _). eapply orel_imp; [apply (IH _ _ R2)|]. intros a b (P & Q & S). split; [auto|]. split; [|auto]. eauto using ext_trans.
Qed.
Lemma path_loop_sim fuel : forall s c, R true s c ->
  orel (fun p q => fst p = fst q /\ ext s (snd p) /\ R true (snd p) (snd q)) (path_loop mem nat (machine e) fuel s) (path_loop copy (list Z) copying fuel c).
Proof.
  induction fuel as [|fuel IH]; intros s c H; cbn [path_loop]; [exact I|]. opn. rewrite (here_sim _ _ _ H). cbn [bind here copying]. pose proof (dirty_false _ _ H) as D.
  destruct (c_here c =? 62); [cbn; split; [auto|split; [apply ext_refl|auto]]|].
  destruct (c_here c =? 0) eqn:C2; [cbn; split; [auto|split; [apply ext_refl|auto]]|]. eapply orel_bind; [apply (step_sim true _ _ H); intros _ X; lia|]. intros s2 c2 (X2 & R2 & _). eapply orel_imp; [apply (IH _ _ R2)|]. intros a b (P & Q & S). split; [auto|]. split; [|auto]. eauto using ext_trans.
Qed.
(** marking where the character is fresh *)
Lemma mark_fresh b s c : R b s c -> c_dirty c = false -> R true (mark (machine e) s) (mark copying c) /\ ext s (mark (machine e) s).
Proof. intros [A B C D _] N. split; [|repeat split; auto]. constructor; cbn; auto. intros _. repeat split; auto; lia. Qed.
Lemma finish_string (o : bool) s1 s c t : t <> T_ERROR -> worded t = true -> ext s1 s -> R true s c ->
  orel (from s1) (if negb o then Ok (T_ERROR, s) else do s <- m_cut s; do s <- m_step e s; Ok (t, s)) (if negb o then Ok (T_ERROR, c) else do c <- cut copying c; do c <- step copying c; Ok (t, c)).
Proof.
  intros Nt Wt X H. destruct o; cbn [negb].
  - eapply orel_bind; [apply (cut_sim _ _ H)|]. intros s2 c2 (X2 & R2 & W2). eapply orel_bind; [apply (step_sim false _ _ R2); discriminate|]. intros s3 c3 (X3 & R3 & Es & Et). cbn [orel]. split; [cbn [snd]; eauto using ext_trans|]. split; [auto|]. split; [auto|]. intros _. cbn [snd]. rewrite Es, Et. eapply wrel_ext; eauto.
  - cbn. split; [auto|]. split; [auto|]. split; [eapply R_false; eauto|discriminate].
Qed.
Lemma step_fresh s c : R false s c -> hd 0 (c_rest c) <> 0 -> c_dirty (c_step c) = false.
Proof. intros _ H. unfold c_step. destruct (c_rest c); cbn in *; [lia|auto]. Qed.
Lemma string_sim fuel s c : R false s c -> m_cur s = 34 -> orel (from s) (scan_string mem nat (machine e) fuel s) (scan_string copy (list Z) copying fuel c).
Proof.
  intros H E. rewrite (cur_sim _ _ _ H) in E. cbn in E. unfold scan_string. opn. pose proof (step_fresh _ _ H ltac:(lia)) as D. pose proof (step_sim false _ _ H ltac:(discriminate)) as X. cbn [copying step bind].
  destruct (m_step e s) as [s1| | | |]; cbn [orel] in X; try contradiction. destruct X as (X1 & R1 & _). cbn [bind]. destruct (mark_fresh _ _ _ R1 D) as (R2 & X2).
  eapply orel_bind; [apply (string_loop_sim fuel _ _ R2)|]. intros (o, s3) (o', c3) (Eo & X3 & R3). cbn [fst snd] in Eo, X3, R3. subst o'. apply finish_string; auto; [discriminate|eauto using ext_trans].
Qed.
Lemma comment_sim fuel : forall prev s c, R false s c -> orel (fun p q => fst p = fst q /\ worded (fst p) = false /\ ext s (snd p) /\ R false (snd p) (snd q)) (scan_comment_loop mem nat (machine e) fuel prev s) (scan_comment_loop copy (list Z) copying fuel prev c).
Proof.
  induction fuel as [|fuel IH]; intros prev s c H; cbn [scan_comment_loop]; [exact I|]. opn. rewrite (cur_sim _ _ _ H). destruct (negb (prev =? 42) || negb (cur copying c =? 47)).
  - destruct (cur copying c =? 0); [cbn; split; [auto|split; [auto|split; [apply ext_refl|auto]]]|]. cbv zeta. eapply orel_bind; [apply (step_sim false _ _ H); discriminate|]. intros s1 c1 (X1 & R1 & _). eapply orel_imp; [apply (IH _ _ _ R1)|]. intros a b (P & P' & Q & S). split; [auto|]. split; [auto|]. split; [|auto]. eauto using ext_trans.
  - cbn. split; [auto|split; [auto|split; [apply ext_refl|auto]]].
Qed.
Lemma scan_sim fuel p q : prel p q -> orel (from (snd p)) (scan mem nat (machine e) fuel p) (scan copy (list Z) copying fuel q).
Proof.
  destruct p as (t, s), q as (t', c). intros (E & H & W). cbn [fst snd] in *. subst t'. unfold scan. destruct (t =? T_ERROR); [cbn; split; [apply ext_refl|]; split; auto|].
  eapply orel_bind; [apply (skip_sim is_space false fuel eq_refl _ _ H)|]. intros s1 c1 (X1 & R1 & _). destruct (mark_R _ _ _ R1) as (R2 & X2). cbv zeta. opn. set (s2 := mark (machine e) s1) in *. set (c2 := mark copying c1) in *.
  assert (X : ext s s2) by eauto using ext_trans. assert (Em : m_str s2 = m_pos s2) by reflexivity. assert (Ea : c_acc c2 = []) by reflexivity. clearbody s2 c2.
  assert (K : forall x y, orel (from s2) x y -> orel (from s) x y). { intros x y Hx. eapply orel_imp; [exact Hx|]. intros a b (Y & Z). split; [eauto using ext_trans|auto]. }
  rewrite (cur_sim _ _ _ R2). destruct (num_start (cur copying c2)) eqn:Ns; [apply K, number_sim; auto; now rewrite (cur_sim _ _ _ R2)|].
  destruct (id_start (cur copying c2)); [apply K, id_sim; auto|]. destruct (cur copying c2 =? 34) eqn:Cq; [apply K, string_sim; auto; rewrite (cur_sim _ _ _ R2); lia|].
  eapply (orel_bind eq).
  { destruct (cur copying c2 =? 47) eqn:C1; [|reflexivity]. destruct R2 as [P C L Mm _]. cbn in C1. destruct (c_rest c2) as [|x r] eqn:Er; cbn in C1; [lia|]. cbn [app tl] in Mm. destruct (skipn_cons _ _ _ _ Mm) as (M1 & _ & _). cbn [ahead copying]. rewrite Er. unfold load.
    destruct r as [|y r]; cbn [app] in M1; destruct (skipn_cons _ _ _ _ M1) as (_ & N & _); rewrite N; reflexivity. }
  intros a a' <-. destruct (a =? 47).
  { eapply orel_bind; [apply (skip_sim (fun x => negb (x =? 10) && negb (x =? 0)) false fuel eq_refl _ _ R2)|]. intros s3 c3 (X3 & R3 & _). cbn. split; [cbn; eauto using ext_trans|]. split; [auto|]. split; [auto|discriminate]. }
  destruct (a =? 42).
  { eapply orel_bind; [apply (step_sim false _ _ R2); discriminate|]. intros s3 c3 (X3 & R3 & _). eapply orel_bind; [apply (step_sim false _ _ R3); discriminate|]. intros s4 c4 (X4 & R4 & _). eapply orel_bind; [apply (comment_sim fuel 0 _ _ R4)|]. intros (t5, s5) (t5', c5) (E5 & W5 & X5 & R5). cbn [fst snd] in E5, W5, X5, R5. subst t5'. eapply orel_bind; [apply (step_sim false _ _ R5); discriminate|]. intros s6 c6 (X6 & R6 & _). cbn [orel]. split; [cbn [snd]; eauto 6 using ext_trans|]. split; [auto|]. split; [auto|]. cbn [fst]. congruence. }
  destruct (128 <=? cur copying c2) eqn:C8; [cbn; split; [auto|]; split; [auto|]; split; [auto|discriminate]|].
  eapply orel_bind; [apply (step_sim false _ _ R2); discriminate|]. intros s3 c3 (X3 & R3 & _). cbn [orel]. split; [cbn [snd]; eauto using ext_trans|]. split; [auto|]. split; [auto|]. cbn [fst]. unfold worded. lia.
Qed.
Lemma next_sim fuel : forall p q, prel p q -> orel (from (snd p)) (next mem nat (machine e) fuel p) (next copy (list Z) copying fuel q).
Proof.
  induction fuel as [|fuel IH]; intros p q H; cbn [next]; [exact I|]. eapply orel_bind; [apply (scan_sim fuel _ _ H)|]. intros p1 q1 (X & P). assert (E : fst p1 = fst q1) by apply P. rewrite E. destruct ((fst q1 =? T_LCOM) || (fst q1 =? T_BCOM)); [|split; auto].
  eapply orel_imp; [apply (IH _ _ P)|]. intros a b (Y & Z). split; [eauto using ext_trans|auto].
Qed.
(** tok_path is used directly after a token that is one character *)
Definition fresh (q : Z * copy) : Prop := fst q = 60 -> c_dirty (snd q) = false.
Lemma scan_fresh fuel q q1 : scan copy (list Z) copying fuel q = Ok q1 -> fst q <> 60 -> fresh q1.
Proof.
  destruct q as (t, c). unfold scan. destruct (t =? T_ERROR) eqn:Et. { intros H N. inversion H; subst. intros Y. cbn in Y. exfalso. apply N. exact Y. }
  destruct (skip _ _ _ _ _ _) as [c1| | | |]; cbn [bind]; try discriminate. cbv zeta. set (c2 := mark copying c1). clearbody c2. intros H _ T.
  assert (K : forall (x : res copy) (t : Z) y, (do s <- x; Ok (t, s)) = Ok y -> fst y = t) by (intros [] ? ? H0; inversion H0; reflexivity).
  destruct (num_start (cur copying c2)).
  { unfold scan_number in H. cbn [bind here copying] in H. destruct (c_here c2 =? 0); [inversion H; subst; discriminate T|]. destruct (if cur _ _ =? 43 then _ else _) as [c3| | | |]; try discriminate. cbn [bind] in H. destruct (skip _ _ _ _ _ _) as [c4| | | |]; cbn [bind] in H; try discriminate.
    assert (Z1 : forall p, (if cur copying c4 =? 46 then do s <- step copying c4; do s <- skip copy (list Z) copying is_digit fuel s; Ok (T_FLOAT, s) else Ok (T_INT, c4)) = Ok p -> fst p <> 60).
    { intros p. destruct (cur copying c4 =? 46); [cbn [bind step copying]; destruct (skip _ _ _ _ _ _); cbn [bind]; try discriminate|]; intros Y; inversion Y; subst; discriminate. }
    destruct (if cur copying c4 =? 46 then _ else _) as [(t5, c5)| | | |]; cbn [bind] in H; try discriminate. specialize (Z1 _ eq_refl). cbn in Z1. destruct ((cur copying c5 =? 101) || _); cbn [bind] in H.
    - cbn [step copying bind] in H. destruct (if _ || _ then _ else _) as [c6| | | |]; cbn [bind] in H; try discriminate. destruct (skip _ _ _ _ _ _) as [c7| | | |]; cbn [bind] in H; try discriminate. apply (K (cut copying c7) T_FLOAT) in H. rewrite H in T. discriminate T.
    - apply (K (cut copying c5) t5) in H. congruence. }
  destruct (id_start _). { unfold scan_id in H. cbn [bind here copying] in H. destruct (c_here c2 =? 0); [inversion H; subst; discriminate T|]. destruct (if cur _ _ =? 36 then _ else _) as [c3| | | |]; try discriminate. cbn [bind] in H. destruct (skip _ _ _ _ _ _) as [c4| | | |]; cbn [bind] in H; try discriminate. apply (K (cut copying c4) T_ID) in H. rewrite H in T. discriminate T. }
  destruct (cur copying c2 =? 34). { unfold scan_string in H. cbn [bind step copying] in H. destruct (scan_string_loop _ _ _ _ _) as [([], c4)| | | |]; cbn [bind negb cut copying] in H; try discriminate; inversion H; subst; discriminate T. }
  destruct (if cur copying c2 =? 47 then _ else _) as [a| | | |]; cbn [bind] in H; try discriminate. destruct (a =? 47). { destruct (skip _ _ _ _ _ _) as [c4| | | |]; cbn [bind] in H; inversion H; subst; discriminate T. }
  destruct (a =? 42). { cbn [step copying bind] in H. assert (Y : forall f pr s p, scan_comment_loop copy (list Z) copying f pr s = Ok p -> fst p <> 60). { induction f as [|f IH]; cbn [scan_comment_loop]; intros pr s p; [discriminate|]. destruct (_ || _); [|intros Y; inversion Y; subst; discriminate]. destruct (_ =? 0); [intros Y; inversion Y; subst; discriminate|]. cbn [step copying bind]. apply IH. }
    destruct (scan_comment_loop _ _ _ _ _ _) as [(t5, c5)| | | |] eqn:Ec; cbn [bind] in H; try discriminate. apply Y in Ec. inversion H; subst. cbn in *. congruence. }
  destruct (128 <=? _); [inversion H; subst; discriminate T|]. cbn [step copying bind] in H. inversion H; subst. cbn in T |- *. unfold c_step. destruct (c_rest c2); cbn in *; [discriminate|auto].
Qed.
Lemma next_fresh fuel : forall q q1, next copy (list Z) copying fuel q = Ok q1 -> fst q <> 60 -> fresh q1.
Proof.
  induction fuel as [|fuel IH]; intros q q1; cbn [next]; [discriminate|]. destruct (scan _ _ _ _ q) as [q2| | | |] eqn:E; cbn [bind]; try discriminate. destruct (_ || _) eqn:C; intros H N.
  - apply (IH _ _ H). unfold T_LCOM, T_BCOM in C. lia.
  - inversion H; subst. eapply scan_fresh; eauto.
Qed.
Lemma path_sim fuel p q : prel p q -> fresh q -> orel (from (snd p)) (tok_path mem nat (machine e) fuel p) (tok_path copy (list Z) copying fuel q).
Proof.
  destruct p as (t, s), q as (t', c). intros (E & H & W) Fr. cbn [fst snd] in *. subst t'. unfold tok_path. destruct (t =? 60) eqn:T; cbn [negb]; [|cbn; split; [apply ext_refl|]; split; auto].
  opn. destruct (mark_fresh _ _ _ H (Fr ltac:(cbn; lia))) as (R2 & X2). eapply orel_bind; [apply (path_loop_sim fuel _ _ R2)|]. intros (o, s3) (o', c3) (Eo & X3 & R3). cbn [fst snd] in Eo, X3, R3. subst o'. apply finish_string; auto; try discriminate; eauto using ext_trans.
Qed.
Lemma text_sim p q : prel p q -> worded (fst p) = true -> text (machine e) (snd p) = text copying (snd q).
Proof. intros (E & H & W) T. cbn. apply wrel_cstr. auto. Qed.
Lemma sieve_sim p q : prel p q -> prel (sieve mem nat (machine e) p) (sieve copy (list Z) copying q) /\ snd (sieve mem nat (machine e) p) = snd p.
Proof.
  intros P. pose proof (text_sim _ _ P) as T. destruct p as (t, s), q as (t', c). destruct P as (E & H & W). cbn [fst snd] in *. subst t'. unfold sieve. destruct (t =? T_ID) eqn:C; [|split; [split; auto|auto]].
  rewrite <- T by (unfold worded, T_ID in *; lia). split; [|auto]. split; [auto|]. split; [auto|]. cbn [fst]. intros _. apply W. unfold worded, T_ID in *; lia.
Qed.
End Sim.
