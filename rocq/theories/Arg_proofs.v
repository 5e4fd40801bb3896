(** Proofs about the matching of arguments *)
From Coq Require Import Arith Bool List Lia.
From Verif Require Import Arg_model Arg_spec.
Import ListNotations.

Section Arg.
Context {V D : Type}.
Notation param := (param V D).
Notation arg := (option (list nat) * V)%type.

Lemma strequ_eq : forall a b, strequ a b = true <-> a = b.
Proof.
  induction a as [|x a IH]; intros [|y b]; simpl; try (split; congruence).
  rewrite andb_true_iff, Nat.eqb_eq, IH. split; [intros (-> & ->); auto|intros E; inversion E; auto].
Qed.

Lemma find_param_spec : forall (l : list param) o k,
  match index_name k (map pname l) with
  | Some i => exists p, find_param o l k = Some (o + i, p) /\ nth_error l i = Some p
  | None => find_param o l k = None
  end.
Proof.
  induction l as [|p l IH]; intros o k; cbn [map index_name find_param]; [reflexivity|].
  destruct (list_eq_dec Nat.eq_dec (pname p) k) as [E|E].
  - rewrite (proj2 (strequ_eq _ _) E). exists p. rewrite Nat.add_0_r. split; reflexivity.
  - destruct (strequ (pname p) k) eqn:Hs; [apply strequ_eq in Hs; contradiction|].
    specialize (IH (S o) k). destruct (index_name k (map pname l)) as [i|]; simpl; [|exact IH].
    destruct IH as (q & F & N). exists q. rewrite F. split; [f_equal; f_equal; lia|exact N].
Qed.
Lemma find_param_app : forall (a b : list param) o k, find_param o (a ++ b) k =
  match find_param o a k with Some x => Some x | None => find_param (o + length a) b k end.
Proof.
  induction a as [|p a IH]; intros b o k; simpl; [f_equal; lia|].
  destruct (strequ (pname p) k); [reflexivity|]. rewrite IH. destruct (find_param (S o) a k); [reflexivity|]. f_equal. lia.
Qed.

Variables pos name : list param.
Variable args : list arg.
Let ps := pos ++ name.
Hypothesis SEP : separate ps.

Lemma data_inj : forall i j p q, nth_error ps i = Some p -> nth_error ps j = Some q -> data p = data q -> i = j.
Proof.
  intros i j p q H1 H2 E. destruct SEP as (N & _). rewrite NoDup_nth_error in N.
  apply N.
  - rewrite map_length. apply nth_error_Some. congruence.
  - rewrite (map_nth_error data i ps H1), (map_nth_error data j ps H2), E. reflexivity.
Qed.

Definition valsn (n p : nat) : list V :=
  flat_map (fun j => match target pos name args j, nth_error args j with
    | Some q, Some (_, v) => if q =? p then [v] else []
    | _, _ => []
    end) (seq 0 n).
Lemma valsn_all : forall p, valsn (length args) p = vals pos name args p.
Proof. reflexivity. Qed.
Lemma valsn_S : forall n p k v t, nth_error args n = Some (k, v) -> target pos name args n = Some t ->
  valsn (S n) p = valsn n p ++ if t =? p then [v] else [].
Proof.
  intros n p k v t E T. unfold valsn. rewrite seq_S, flat_map_app. simpl. rewrite T, E, app_nil_r. reflexivity.
Qed.
Lemma valsn_prefix : forall n m p, n <= m -> exists l, valsn m p = valsn n p ++ l.
Proof.
  intros n m p H. unfold valsn. replace m with (n + (m - n)) by lia. rewrite seq_app, flat_map_app. eauto.
Qed.
Lemma stored_app : forall (g : V -> D -> option D) a b d, stored g (a ++ b) d =
  match stored g a d with Some d => stored g b d | None => None end.
Proof.
  intros. unfold stored. rewrite fold_left_app. destruct (fold_left _ a (Some d)); [reflexivity|].
  induction b as [|x b IH]; simpl; auto.
Qed.

Definition Inv (st0 : nat -> D) (n : nat) (st : nat -> D) (have : nat -> bool) : Prop :=
  (forall i p, nth_error ps i = Some p -> stored (get p) (valsn n i) (st0 (data p)) = Some (st (data p)))
  /\ (forall x, ~ In x (map data ps) -> st x = st0 x)
  /\ (forall i, have i = match valsn n i with [] => false | _ => true end).

Definition named (a : arg) : bool := match fst a with None => false | Some _ => true end.
Lemma forallb_named : forall l, forallb (fun a : arg => match fst a with None => true | Some _ => false end) l = negb (existsb named l).
Proof. induction l as [|[[k|] v] l IH]; simpl; auto. Qed.

Lemma step_inv : forall st0 n st have k v t p d, Inv st0 n st have -> nth_error args n = Some (k, v) ->
  target pos name args n = Some t -> nth_error ps t = Some p -> get p v (st (data p)) = Some d ->
  Inv st0 (S n) (upd st (data p) d) (upd have t true).
Proof.
  intros st0 n st have k v t p d (I1 & I2 & I3) E T P G. split; [|split].
  - intros i q Q. rewrite (valsn_S n i k v t E T), stored_app, (I1 i q Q). unfold upd.
    destruct (Nat.eqb_spec t i) as [->|Ne].
    + assert (q = p) by congruence. subst q. rewrite Nat.eqb_refl. simpl. exact G.
    + destruct (Nat.eqb_spec (data q) (data p)) as [Ed|_]; [|reflexivity].
      exfalso. apply Ne. symmetry. eapply data_inj; eauto.
  - intros x N. unfold upd. destruct (Nat.eqb_spec x (data p)) as [->|_]; [|auto].
    exfalso. apply N. apply in_map. eapply nth_error_In; eauto.
  - intros i. rewrite (valsn_S n i k v t E T). unfold upd. rewrite (Nat.eqb_sym i t).
    destruct (t =? i); [destruct (valsn n i); reflexivity|]. rewrite app_nil_r. apply I3.
Qed.

Lemma loop_ok : forall u st0 rest pre st have, args = pre ++ rest -> Inv st0 (length pre) st have ->
  match arg_loop u pos name (existsb named pre) (length pre) rest st have with
  | End st' have' => Inv st0 (length args) st' have' /\ (forall j, length pre <= j < length args -> target pos name args j <> None)
  | Return r st' =>
      (exists j k v, length pre <= j < length args /\ target pos name args j = None /\ nth_error args j = Some (k, v)
        /\ r = match k with Some _ => u | None => false end
        /\ (exists have', Inv st0 j st' have') /\ (forall i, length pre <= i < j -> target pos name args i <> None))
      \/ (r = false /\ exists n i p, n <= length args /\ nth_error ps i = Some p /\ stored (get p) (valsn n i) (st0 (data p)) = None
          /\ (forall j, length pre <= j < n -> target pos name args j <> None))
  end.
Proof.
  intros u st0 rest. induction rest as [|[key v] rest IH]; intros pre st have EA I.
  { simpl. rewrite app_nil_r in EA. subst pre. split; [exact I|]. intros j ?. lia. }
  assert (NE : nth_error args (length pre) = Some (key, v)).
  { rewrite EA, nth_error_app2 by lia. rewrite Nat.sub_diag. reflexivity. }
  assert (LP : length pre < length args) by (rewrite EA, app_length; simpl; lia).
  assert (FP : firstn (length pre) args = pre).
  { rewrite EA, firstn_app, Nat.sub_diag, firstn_all. simpl. apply app_nil_r. }
  (* one step to a known parameter *)
  assert (STEP : forall t p nn, target pos name args (length pre) = Some t -> nth_error ps t = Some p ->
    nn = existsb named (pre ++ [(key, v)]) ->
    match (match get p v (st (data p)) with
      | None => Return false st
      | Some d => arg_loop u pos name nn (S (length pre)) rest (upd st (data p) d) (upd have t true)
      end) with
    | End st' have' => Inv st0 (length args) st' have' /\ (forall j, length pre <= j < length args -> target pos name args j <> None)
    | Return r st' =>
      (exists j k v, length pre <= j < length args /\ target pos name args j = None /\ nth_error args j = Some (k, v)
        /\ r = match k with Some _ => u | None => false end
        /\ (exists have', Inv st0 j st' have') /\ (forall i, length pre <= i < j -> target pos name args i <> None))
      \/ (r = false /\ exists n i p, n <= length args /\ nth_error ps i = Some p /\ stored (get p) (valsn n i) (st0 (data p)) = None
          /\ (forall j, length pre <= j < n -> target pos name args j <> None))
    end).
  { intros t p nn T P ->. destruct (get p v (st (data p))) as [d|] eqn:G.
    - pose proof (step_inv _ _ _ _ _ _ _ _ _ I NE T P G) as I'.
      assert (EA' : args = (pre ++ [(key, v)]) ++ rest) by (rewrite <- app_assoc; exact EA).
      specialize (IH (pre ++ [(key, v)]) (upd st (data p) d) (upd have t true) EA').
      rewrite app_length in IH. simpl in IH. rewrite Nat.add_1_r in IH. specialize (IH I').
      destruct (arg_loop u pos name (existsb named (pre ++ [(key, v)])) (S (length pre)) rest (upd st (data p) d) (upd have t true)) as [r st'|st' have'].
      + destruct IH as [(j & k & v' & J1 & J2 & J3 & J4 & J5 & J6)|IH]; [left|right].
        2:{ destruct IH as (IH0 & n & i & q & H1 & H2 & H3 & H4). split; [exact IH0|]. exists n, i, q. split; [exact H1|].
            split; [exact H2|]. split; [exact H3|]. intros j Hj. destruct (Nat.eq_dec j (length pre)) as [->|]; [congruence|]. apply H4. lia. }
        exists j, k, v'. split; [lia|]. split; [auto|]. split; [auto|]. split; [auto|]. split; [auto|].
        intros i Hi. destruct (Nat.eq_dec i (length pre)) as [->|]; [congruence|]. apply J6. lia.
      + destruct IH as (IH1 & IH2). split; [exact IH1|]. intros j J. destruct (Nat.eq_dec j (length pre)) as [->|]; [congruence|].
        apply IH2. lia.
    - right. split; [reflexivity|]. exists (S (length pre)), t, p. split; [lia|]. split; [exact P|].
      rewrite (valsn_S _ t _ _ _ NE T), Nat.eqb_refl, stored_app. destruct I as (I1 & _). rewrite (I1 t p P). simpl. split; [exact G|].
      intros j Hj. replace j with (length pre) by lia. congruence. }
  assert (STOP : forall r, target pos name args (length pre) = None -> r = match key with Some _ => u | None => false end ->
    (exists j k v, length pre <= j < length args /\ target pos name args j = None /\ nth_error args j = Some (k, v)
        /\ r = match k with Some _ => u | None => false end
        /\ (exists have', Inv st0 j st have') /\ (forall i, length pre <= i < j -> target pos name args i <> None))
      \/ (r = false /\ exists n i p, n <= length args /\ nth_error ps i = Some p /\ stored (get p) (valsn n i) (st0 (data p)) = None
          /\ (forall j, length pre <= j < n -> target pos name args j <> None))).
  { intros r T ->. left. exists (length pre), key, v. split; [lia|]. split; [exact T|]. split; [exact NE|]. split; [reflexivity|].
    split; [eauto|]. intros i Hi. lia. }
  unfold target in STEP at 1, STOP at 1. rewrite NE in STEP, STOP. rewrite FP, forallb_named in STEP, STOP.
  cbn [arg_loop]. destruct key as [k|].
  - fold ps in STEP, STOP. pose proof (find_param_spec ps 0 k) as FS.
    rewrite existsb_app in STEP. simpl in STEP. rewrite orb_true_r in STEP.
    assert (FA := find_param_app pos name 0 k). fold ps in FA. rewrite FA in FS. simpl in FS.
    destruct (index_name k (map pname ps)) as [i|].
    + destruct FS as (p & FS & N).
      destruct (find_param 0 pos k) as [[o q]|]; [|rewrite FS]; [inversion FS; subst o q|]; apply STEP; auto.
    + destruct (find_param 0 pos k); [discriminate|]. rewrite FS. apply STOP; reflexivity.
  - rewrite existsb_app in STEP. simpl in STEP. rewrite orb_false_r in STEP.
    destruct (Nat.leb_spec (length pos) (length pre)) as [L|L]; destruct (Nat.ltb_spec (length pre) (length pos)); try lia; simpl orb; simpl andb in STEP, STOP.
    + apply STOP; reflexivity.
    + destruct (existsb named pre); simpl negb in STEP, STOP.
      * apply STOP; reflexivity.
      * destruct (nth_error pos (length pre)) as [p|] eqn:NP; [|apply nth_error_None in NP; lia].
        apply STEP; auto. unfold ps. rewrite nth_error_app1 by lia. exact NP.
Qed.

Definition hp (p : param) : list nat := match have_p p with Some h => [h] | None => [] end.
Lemma have_loop_ok : forall (l : list param) o have hs, NoDup (flat_map hp l) ->
  let '(r, hs') := have_loop o l have hs in
  (r = true <-> forall i p, nth_error l i = Some p -> have_p p = None -> have (o + i) = true)
  /\ (r = true -> forall i p h, nth_error l i = Some p -> have_p p = Some h -> hs' h = Some (have (o + i)))
  /\ (forall x, ~ In x (flat_map hp l) -> hs' x = hs x).
Proof.
  induction l as [|p l IH]; intros o have hs ND; cbn [have_loop].
  { split; [split; auto; intros _ [|i] q; discriminate|]. split; [intros _ [|i] q h; discriminate|auto]. }
  cbn [flat_map] in ND. destruct (have_p p) as [h|] eqn:H.
  - unfold hp at 1 in ND. rewrite H in ND. simpl in ND. inversion ND as [|x y NI ND']; subst.
    specialize (IH (S o) have (upd hs h (Some (have o))) ND').
    destruct (have_loop (S o) l have (upd hs h (Some (have o)))) as [r hs']. destruct IH as (I1 & I2 & I3).
    split; [|split].
    + rewrite I1. split; intros F.
      * intros [|i] q Q X; [simpl in Q; inversion Q; subst; congruence|]. rewrite Nat.add_succ_r. apply (F i q Q X).
      * intros i q Q X. specialize (F (S i) q Q X). rewrite Nat.add_succ_r in F. exact F.
    + intros R [|i] q h' Q X.
      * simpl in Q. inversion Q; subst. assert (h' = h) by congruence. subst h'. rewrite I3 by auto.
        unfold upd. rewrite Nat.eqb_refl, Nat.add_0_r. reflexivity.
      * rewrite Nat.add_succ_r. apply (I2 R i q h' Q X).
    + intros x N. simpl in N. unfold hp at 1 in N. rewrite H in N. simpl in N. rewrite I3 by tauto.
      unfold upd. destruct (Nat.eqb_spec x h); [subst; tauto|reflexivity].
  - unfold hp at 1 in ND. rewrite H in ND. simpl in ND. destruct (have o) eqn:HO; simpl negb; cbv iota.
    + specialize (IH (S o) have hs ND). destruct (have_loop (S o) l have hs) as [r hs']. destruct IH as (I1 & I2 & I3).
      split; [|split].
      * rewrite I1. split; intros F.
        -- intros [|i] q Q X; [rewrite Nat.add_0_r; exact HO|]. rewrite Nat.add_succ_r. apply (F i q Q X).
        -- intros i q Q X. specialize (F (S i) q Q X). rewrite Nat.add_succ_r in F. exact F.
      * intros R [|i] q h' Q X.
        -- simpl in Q. inversion Q; subst. congruence.
        -- rewrite Nat.add_succ_r. apply (I2 R i q h' Q X).
      * intros x N. apply I3. intros X. apply N. simpl. apply in_or_app. right; exact X.
    + split; [|split; [discriminate|auto]]. split; [discriminate|].
      intros F. specialize (F 0 p eq_refl H). rewrite Nat.add_0_r in F. congruence.
Qed.

Lemma inv0 : forall st0, Inv st0 0 st0 (fun _ => false).
Proof. intros st0. split; [|split]; auto. Qed.

Lemma stored_prefix : forall (g : V -> D -> option D) n i d, n <= length args -> stored g (valsn n i) d = None -> stored g (vals pos name args i) d = None.
Proof.
  intros g n i d L H. rewrite <- valsn_all. destruct (valsn_prefix n (length args) i L) as (l & ->).
  rewrite stored_app, H. reflexivity.
Qed.

Definition names_known : Prop := forall k v, In (Some k, v) args -> In k (map pname ps).
Lemma index_name_in : forall k l, In k l -> index_name k l <> None.
Proof.
  induction l as [|x l IH]; intros I; [destruct I|]. simpl.
  destruct (list_eq_dec Nat.eq_dec x k) as [E|E]; [discriminate|]. destruct I as [->|I]; [congruence|].
  specialize (IH I). destruct (index_name k l); [discriminate|contradiction].
Qed.

Lemma get_arg_ok : forall u st hs, u = false \/ names_known ->
  exists r st' hs', get_arg u args pos name st hs = (r, st', hs')
  /\ (r = true <-> all_known pos name args /\ all_convert pos name args st /\ mandatory_given pos name args)
  /\ (r = true -> (forall i p, nth_error ps i = Some p ->
         stored (get p) (vals pos name args i) (st (data p)) = Some (st' (data p))
         /\ (forall h, have_p p = Some h -> exists b, hs' h = Some b /\ (b = true <-> given pos name args i)))
       /\ (forall x, ~ In x (map data ps) -> st' x = st x)
       /\ (forall x, (forall p, In p ps -> have_p p <> Some x) -> hs' x = hs x)).
Proof.
  intros u st hs U. unfold get_arg.
  pose proof (loop_ok u st args [] st (fun _ => false) eq_refl (inv0 st)) as L. simpl in L.
  destruct (arg_loop u pos name false 0 args st (fun _ => false)) as [r st'|st' have'].
  - exists r, st', hs. split; [reflexivity|].
    assert (r = false /\ ~ (all_known pos name args /\ all_convert pos name args st)) as (-> & NN).
    { destruct L as [(j & k & v & J1 & J2 & J3 & J4 & _)|(-> & n & i & p & H1 & H2 & H3 & H4)].
      - split; [|intros (AK & _); apply (AK j); [lia|auto]].
        destruct k as [k|]; [|auto]. destruct U as [->|NK]; [auto|]. exfalso.
        unfold target in J2. rewrite J3 in J2. revert J2. apply index_name_in. apply (NK k v). eapply nth_error_In; eauto.
      - split; [reflexivity|]. intros (_ & AC). apply (AC i p H2). eapply stored_prefix; eauto. }
    split; [|discriminate]. split; [discriminate|]. intros (A & B & _). exfalso. apply NN. auto.
  - destruct L as (I & AK). destruct I as (I1 & I2 & I3).
    assert (K : all_known pos name args) by (intros j J; apply AK; lia).
    assert (C : all_convert pos name args st).
    { intros i p P. rewrite <- valsn_all. rewrite (I1 i p P). discriminate. }
    destruct SEP as (_ & NDh). unfold ps in NDh. rewrite flat_map_app in NDh.
    change (flat_map (fun p => match have_p p with Some h => [h] | None => [] end)) with (flat_map hp) in NDh.
    assert (ND1 : NoDup (flat_map hp pos) /\ NoDup (flat_map hp name) /\ (forall x, In x (flat_map hp pos) -> ~ In x (flat_map hp name))).
    { revert NDh. generalize (flat_map hp pos) (flat_map hp name). clear. intros a b. induction a as [|x a IH]; simpl; intros H.
      - repeat split; auto. constructor.
      - inversion H as [|y l N H']; subst. destruct (IH H') as (A1 & A2 & A3).
        split; [constructor; auto; intros X; apply N; apply in_or_app; auto|]. split; [auto|].
        intros y [ <- | Y]; [intros X; apply N; apply in_or_app; auto|auto]. }
    destruct ND1 as (ND1 & ND2 & ND3).
    assert (HV : forall i, have' i = true <-> given pos name args i).
    { intros i. rewrite I3. unfold given. rewrite valsn_all. destruct (vals pos name args i); split; try discriminate; try congruence; auto. }
    pose proof (have_loop_ok pos 0 have' hs ND1) as H1. destruct (have_loop 0 pos have' hs) as [r1 hs1].
    destruct H1 as (A1 & A2 & A3). simpl in A1, A2.
    assert (HPin : forall (l : list param) i p h, nth_error l i = Some p -> have_p p = Some h -> In h (flat_map hp l)).
    { intros l i p h N H. apply in_flat_map. exists p. split; [eapply nth_error_In; eauto|]. unfold hp. rewrite H. left; auto. }
    destruct r1; simpl negb; cbv iota.
    + pose proof (have_loop_ok name (length pos) have' hs1 ND2) as H2. destruct (have_loop (length pos) name have' hs1) as [r2 hs2].
      destruct H2 as (B1 & B2 & B3).
      exists r2, st', hs2. split; [reflexivity|]. split.
      * rewrite B1. split.
        -- intros H. split; [exact K|]. split; [exact C|]. intros i p P X. apply HV.
           fold ps in P. unfold ps in P. destruct (Nat.lt_ge_cases i (length pos)) as [Li|Li].
           ++ rewrite nth_error_app1 in P by auto. apply (proj1 A1 eq_refl i p P X).
           ++ rewrite nth_error_app2 in P by auto. specialize (H _ p P X). replace (length pos + (i - length pos)) with i in H by lia. exact H.
        -- intros (_ & _ & M) i p P X. apply HV. apply (M _ p); [|exact X]. rewrite nth_error_app2 by lia.
           replace (length pos + i - length pos) with i by lia. exact P.
      * intros ->. split; [|split; [exact I2|]].
        -- intros i p P. split; [rewrite <- valsn_all; apply I1; auto|].
           intros h X. exists (have' i). split; [|apply HV].
           unfold ps in P. destruct (Nat.lt_ge_cases i (length pos)) as [Li|Li].
           ++ rewrite nth_error_app1 in P by auto. rewrite B3 by (apply ND3; eapply HPin; eauto). apply (A2 eq_refl i p h P X).
           ++ rewrite nth_error_app2 in P by auto. rewrite (B2 eq_refl _ p h P X). f_equal. f_equal. lia.
        -- intros x N. assert (NI : forall l : list param, incl l ps -> ~ In x (flat_map hp l)).
           { intros l IL Ix. apply in_flat_map in Ix. destruct Ix as (p & P1 & P2). unfold hp in P2.
             destruct (have_p p) as [h|] eqn:E; [|destruct P2]. destruct P2 as [->|[]]. apply (N p); auto. }
           rewrite B3, A3; [reflexivity|apply NI; unfold ps; apply incl_appl, incl_refl|apply NI; unfold ps; apply incl_appr, incl_refl].
    + exists false, st', hs1. split; [reflexivity|]. split; [|discriminate]. split; [discriminate|].
      intros (_ & _ & M). apply A1. intros i p P X. apply HV. apply (M i p); [|exact X]. rewrite nth_error_app1; [exact P|].
      apply nth_error_Some. congruence.
Qed.
End Arg.

Lemma target_app : forall V D (pos name : list (param V D)) pre post j, j < length pre ->
  target pos name (pre ++ post) j = target pos name pre j.
Proof.
  intros V D pos name pre post j L. unfold target. rewrite nth_error_app1 by auto.
  destruct (nth_error pre j) as [[[k|] v]|]; auto. rewrite firstn_app. replace (j - length pre) with 0 by lia. simpl.
  rewrite app_nil_r. reflexivity.
Qed.
Lemma valsn_app : forall V D (pos name : list (param V D)) pre post n i, n <= length pre ->
  valsn pos name (pre ++ post) n i = valsn pos name pre n i.
Proof.
  intros V D pos name pre post n i L. unfold valsn.
  assert (G : forall j, In j (seq 0 n) -> j < length pre) by (intros j I; apply in_seq in I; lia).
  revert G. generalize (seq 0 n). induction l as [|j l IH]; intros G; [reflexivity|]. simpl.
  rewrite target_app by (apply G; left; auto). rewrite nth_error_app1 by (apply G; left; auto).
  rewrite IH by (intros; apply G; right; auto). reflexivity.
Qed.

Lemma unknown_stops : forall V D (pos name : list (param V D)) pre k v post st hs,
  separate (pos ++ name) -> all_known pos name pre -> all_convert pos name pre st -> ~ In k (map pname (pos ++ name)) ->
  exists st', get_arg true (pre ++ (Some k, v) :: post) pos name st hs = (true, st', hs)
  /\ forall i p, nth_error (pos ++ name) i = Some p -> stored (get p) (vals pos name pre i) (st (data p)) = Some (st' (data p)).
Proof.
  intros V D pos name pre k v post st hs SEP AK AC NI.
  set (args := pre ++ (Some k, v) :: post).
  pose proof (loop_ok pos name args SEP true st args [] st (fun _ => false) eq_refl (inv0 pos name args st)) as L. simpl in L.
  assert (TN : target pos name args (length pre) = None).
  { unfold target, args. rewrite nth_error_app2 by lia. rewrite Nat.sub_diag. simpl.
    revert NI. generalize (map pname (pos ++ name)). induction l as [|x l IH]; intros NI; [reflexivity|]. simpl.
    destruct (list_eq_dec Nat.eq_dec x k) as [E|E]; [exfalso; apply NI; left; auto|]. rewrite IH; [reflexivity|].
    intros I. apply NI. right; auto. }
  assert (LA : length pre < length args) by (unfold args; rewrite app_length; simpl; lia).
  unfold get_arg. destruct (arg_loop true pos name false 0 args st (fun _ => false)) as [r st'|st' have'].
  - destruct L as [(j & k' & v' & J1 & J2 & J3 & J4 & (h' & J5) & J6)|(-> & n & i & p & H1 & H2 & H3 & H4)].
    + assert (j = length pre).
      { destruct (Nat.lt_trichotomy j (length pre)) as [Lt|[E|Gt]]; auto; exfalso.
        - apply (AK j Lt). unfold args in J2. rewrite target_app in J2 by auto. exact J2.
        - apply (J6 (length pre)); [lia|exact TN]. }
      subst j. unfold args in J3. rewrite nth_error_app2 in J3 by lia. rewrite Nat.sub_diag in J3. simpl in J3. inversion J3; subst.
      exists st'. split; [reflexivity|]. intros i p P. destruct J5 as (J5 & _). specialize (J5 i p P).
      unfold args in J5. rewrite valsn_app in J5 by lia. rewrite valsn_all in J5. exact J5.
    + exfalso. destruct (Nat.le_gt_cases n (length pre)) as [Ln|Ln].
      * unfold args in H3. rewrite valsn_app in H3 by auto.
        destruct (valsn_prefix pos name pre n (length pre) i Ln) as (l & E). apply (AC i p H2).
        rewrite <- valsn_all, E, stored_app, H3. reflexivity.
      * apply (H4 (length pre)); [lia|exact TN].
  - exfalso. destruct L as (_ & L). apply (L (length pre)); [lia|exact TN].
Qed.
