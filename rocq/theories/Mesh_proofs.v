(** Edges of faces: counting *)
From Coq Require Import List Bool Arith Lia Permutation.
From Verif Require Import Mesh_spec.
Import ListNotations.

Fixpoint sum {A} (f : A -> nat) (l : list A) : nat := match l with [] => 0 | x :: l => f x + sum f l end.
Lemma sum_app : forall {A} (f : A -> nat) a b, sum f (a ++ b) = sum f a + sum f b.
Proof. induction a as [|x a IH]; intros b; cbn; [reflexivity|]. rewrite IH. lia. Qed.
Lemma sum_plus : forall {A} (f g : A -> nat) l, sum (fun x => f x + g x) l = sum f l + sum g l.
Proof. induction l as [|x l IH]; cbn; [reflexivity|]. rewrite IH. lia. Qed.
Lemma sum_ext : forall {A} (f g : A -> nat) l, (forall x, In x l -> f x = g x) -> sum f l = sum g l.
Proof. induction l as [|x l IH]; intros H; cbn; [reflexivity|]. rewrite H by (left; reflexivity). rewrite IH; [reflexivity|]. intros. apply H. right. assumption. Qed.
Lemma sum_perm : forall {A} (f : A -> nat) a b, Permutation a b -> sum f a = sum f b.
Proof. induction 1; cbn; lia. Qed.
Lemma sum_map : forall {A B} (f : B -> nat) (g : A -> B) l, sum f (map g l) = sum (fun x => f (g x)) l.
Proof. induction l as [|x l IH]; cbn; [reflexivity|]. rewrite IH. reflexivity. Qed.
Lemma sum_seq_S : forall f a n, sum f (seq a (S n)) = sum f (seq a n) + f (a + n).
Proof. intros. rewrite seq_S, sum_app. cbn. lia. Qed.
Lemma sum_seq_shift : forall f a n, sum f (seq (S a) n) = sum (fun i => f (S i)) (seq a n).
Proof. intros. rewrite <- seq_shift, sum_map. reflexivity. Qed.

Section Count.
Context {E : Type} (dec : forall a b : E, {a = b} + {a <> b}) (e : E).
Definition one (x : E) : nat := if dec x e then 1 else 0.
Lemma count_app : forall a b, count_occ dec (a ++ b) e = count_occ dec a e + count_occ dec b e.
Proof. intros. apply count_occ_app. Qed.
Lemma count_cons : forall x l, count_occ dec (x :: l) e = one x + count_occ dec l e.
Proof. intros. unfold one. cbn. destruct (dec x e); lia. Qed.
Lemma count_map : forall {A} (f : A -> E) l, count_occ dec (map f l) e = sum (fun x => one (f x)) l.
Proof. induction l as [|x l IH]; [reflexivity|]. cbn [map]. rewrite count_cons, IH. reflexivity. Qed.
Lemma count_flat : forall {A} (f : A -> list E) l, count_occ dec (flat_map f l) e = sum (fun x => count_occ dec (f x) e) l.
Proof. induction l as [|x l IH]; [reflexivity|]. cbn [flat_map]. rewrite count_app, IH. reflexivity. Qed.
(** A list of different elements, all of some kind *)
Lemma count_le : forall l (P : Prop) (d : {P} + {~ P}), NoDup l -> (In e l -> P) -> count_occ dec l e <= (if d then 1 else 0).
Proof.
  intros l P d N H. destruct d as [p|np].
  - apply (proj1 (NoDup_count_occ dec l) N).
  - assert (~ In e l) by tauto. apply (count_occ_not_In dec) in H0. lia.
Qed.
End Count.

Lemma nodup_left : forall {A B} (f : A -> B) (g : B -> A) l, (forall x, In x l -> g (f x) = x) -> NoDup l -> NoDup (map f l).
Proof.
  induction l as [|x l IH]; intros H N; cbn; [constructor|]. inversion N; subst. constructor.
  - intros I. apply in_map_iff in I. destruct I as (y & E & I). apply H2. rewrite <- (H x) by (left; reflexivity). rewrite <- E, H by (right; exact I). exact I.
  - apply IH; [intros; apply H; right; assumption|assumption].
Qed.
Lemma nodup_inj : forall {A B} (f : A -> B) l, (forall x y, In x l -> In y l -> f x = f y -> x = y) -> NoDup l -> NoDup (map f l).
Proof.
  induction l as [|x l IH]; intros H N; cbn; [constructor|]. inversion N; subst. constructor.
  - intros I. apply in_map_iff in I. destruct I as (y & E & I). rewrite (H y x) in I; [contradiction|right; exact I|left; reflexivity|exact E].
  - apply IH; [intros; apply H; try (right; assumption); assumption|assumption].
Qed.
Lemma nodup_app_intro : forall {A} (a b : list A), NoDup a -> NoDup b -> (forall x, In x a -> ~ In x b) -> NoDup (a ++ b).
Proof.
  induction a as [|x a IH]; intros b NA NB D; cbn; [exact NB|]. inversion NA; subst. constructor.
  - intros I. apply in_app_or in I. destruct I as [I|I]; [contradiction|]. exact (D x (or_introl eq_refl) I).
  - apply IH; [assumption|exact NB|]. intros y I. apply D. right. exact I.
Qed.
Lemma nodup_prod : forall {A B} (a : list A) (b : list B), NoDup a -> NoDup b -> NoDup (list_prod a b).
Proof.
  induction a as [|x a IH]; intros b NA NB; cbn; [constructor|]. inversion NA; subst. apply nodup_app_intro.
  - apply (nodup_left _ snd); [reflexivity|exact NB].
  - apply IH; assumption.
  - intros [p q] I J. apply in_map_iff in I. destruct I as (y & E & I). injection E as <- <-. apply in_prod_iff in J. tauto.
Qed.

(** ** Edges *)
Lemma swap_swap : forall {A} (e : A * A), swap (swap e) = e.
Proof. intros A [a b]. reflexivity. Qed.
Lemma combine_map : forall {A B} (g : A -> B) a b, combine (map g a) (map g b) = map (fun e => (g (fst e), g (snd e))) (combine a b).
Proof. induction a as [|x a IH]; intros [|y b]; cbn; try reflexivity. rewrite IH. reflexivity. Qed.
Definition both {A B} (g : A -> B) (e : A * A) : B * B := (g (fst e), g (snd e)).
Lemma edges_map : forall {A B} (g : A -> B) f, edges (map g f) = map (both g) (edges f).
Proof. intros A B g [|x f]; [reflexivity|]. cbn [map edges]. change (g x :: map g f) with (map g (x :: f)). replace (map g f ++ [g x]) with (map g (f ++ [x])) by apply map_app. apply combine_map. Qed.
Lemma all_edges_map : forall {A B} (g : A -> B) l, all_edges (map (map g) l) = map (both g) (all_edges l).
Proof. induction l as [|f l IH]; [reflexivity|]. unfold all_edges in *. cbn [map flat_map]. rewrite edges_map, IH, map_app. reflexivity. Qed.

Lemma combine_app_eq : forall {A B} (a a' : list A) (b b' : list B), length a = length b -> combine (a ++ a') (b ++ b') = combine a b ++ combine a' b'.
Proof. induction a as [|x a IH]; intros a' [|y b] b' L; try discriminate; [reflexivity|]. cbn. rewrite IH; [reflexivity|]. cbn in L. lia. Qed.
Fixpoint path {A} (x : A) (l : list A) : list (A * A) := match l with [] => [] | y :: l => (x, y) :: path y l end.
Lemma combine_path : forall {A} (l : list A) x z, combine (x :: l) (l ++ [z]) = path x (l ++ [z]).
Proof. induction l as [|y l IH]; intros x z; [reflexivity|]. cbn [app]. cbn [combine path]. f_equal. exact (IH y z). Qed.
Lemma edges_path : forall {A} (x : A) l, edges (x :: l) = path x (l ++ [x]).
Proof. intros. cbn [edges]. apply combine_path. Qed.
Lemma path_app : forall {A} (l : list A) x y m, path x (l ++ y :: m) = path x (l ++ [y]) ++ path y m.
Proof. induction l as [|z l IH]; intros x y m; cbn; [reflexivity|]. rewrite IH. reflexivity. Qed.
Lemma path_rev : forall {A} (l : list A) x y, Permutation (path y (rev l ++ [x])) (map swap (path x (l ++ [y]))).
Proof.
  induction l as [|z l IH]; intros x y; cbn [rev app path map]; [cbn; reflexivity|].
  rewrite <- app_assoc. cbn [app]. rewrite path_app. cbn [path]. change (swap (x, z)) with (z, x).
  rewrite (IH z y). rewrite Permutation_app_comm. reflexivity.
Qed.
Lemma edges_rev : forall {A} (f : list A), Permutation (edges (rev f)) (map swap (edges f)).
Proof.
  intros A [|x l]; [reflexivity|]. rewrite edges_path. rewrite <- path_rev. cbn [rev].
  destruct (rev l) as [|y r] eqn:E; [cbn; reflexivity|]. cbn [app]. rewrite edges_path, <- app_assoc. cbn [app].
  rewrite path_app. rewrite Permutation_app_comm. cbn [path]. reflexivity.
Qed.
Lemma all_edges_rev : forall {A} (l : list (list A)), Permutation (all_edges (map (@rev A) l)) (map swap (all_edges l)).
Proof. induction l as [|f l IH]; [reflexivity|]. unfold all_edges in *. cbn [map flat_map]. rewrite map_app. apply Permutation_app; [apply edges_rev|exact IH]. Qed.
Lemma all_edges_app : forall {A} (a b : list (list A)), all_edges (a ++ b) = all_edges a ++ all_edges b.
Proof. intros. apply flat_map_app. Qed.

(** ** Closed surfaces by counting *)
Section Closed.
Context {A : Type} (dec : forall a b : A * A, {a = b} + {a <> b}).
Lemma closed_count : forall l, (forall e, count_occ dec (all_edges l) e <= 1) -> (forall e, count_occ dec (all_edges l) (swap e) = count_occ dec (all_edges l) e) -> closed l.
Proof.
  intros l N B. split; [apply (NoDup_count_occ dec); exact N|]. intros e I. apply (count_occ_In dec). rewrite B. apply (count_occ_In dec). exact I.
Qed.
Lemma count_swap : forall l e, count_occ dec (map swap l) e = count_occ dec l (swap e).
Proof.
  intros l e. induction l as [|x l IH]; [reflexivity|]. cbn [map]. rewrite !count_cons, IH. f_equal. unfold one.
  destruct (dec (swap x) e) as [E|E], (dec x (swap e)) as [F|F]; try reflexivity.
  - exfalso. apply F. rewrite <- E, swap_swap. reflexivity.
  - exfalso. apply E. rewrite F, swap_swap. reflexivity.
Qed.
End Closed.
Lemma closed_rev : forall {A} (l : list (list A)), closed l -> closed (map (@rev A) l).
Proof.
  intros A l (N & C). assert (P := all_edges_rev l). split.
  - eapply Permutation_NoDup; [symmetry; exact P|]. apply (nodup_left swap swap); [intros; apply swap_swap|exact N].
  - intros e I. apply (Permutation_in _ P) in I. apply in_map_iff in I. destruct I as (x & <- & I).
    apply (Permutation_in _ (Permutation_sym P)). apply in_map. exact (C x I).
Qed.
Lemma closed_map : forall {A B} (g : A -> B) l, (forall x y, In x (concat l) -> In y (concat l) -> g x = g y -> x = y) -> closed l -> closed (map (map g) l).
Proof.
  intros A B g l G (N & C).
  assert (H : forall e, In e (all_edges l) -> In (fst e) (concat l) /\ In (snd e) (concat l)).
  { intros [a b] I. apply in_flat_map in I. destruct I as (f & IF & IE). destruct f as [|x r]; [destruct IE|]. cbn [edges] in IE.
    pose proof (in_combine_l _ _ _ _ IE) as I1. pose proof (in_combine_r _ _ _ _ IE) as I2. cbn.
    split; apply in_concat; exists (x :: r); (split; [exact IF|]); [exact I1|]. apply in_app_or in I2. cbn in *. tauto. }
  split.
  - rewrite all_edges_map. apply nodup_inj; [|exact N]. intros [a b] [c d] I1 I2 E. injection E as E1 E2.
    destruct (H _ I1), (H _ I2). cbn in *. f_equal; apply G; assumption.
  - rewrite all_edges_map. intros e I. apply in_map_iff in I. destruct I as (x & <- & I). apply in_map_iff. exists (swap x). split; [reflexivity|apply C, I].
Qed.
Lemma closed_perm : forall {A} (l : list (list A)), closed l -> Permutation (all_edges l) (map swap (all_edges l)).
Proof.
  intros A l (N & C). apply NoDup_Permutation; [exact N|apply (nodup_left swap swap); [intros; apply swap_swap|exact N]|].
  intros e. split; intros I.
  - apply in_map_iff. exists (swap e). split; [apply swap_swap|apply C, I].
  - apply in_map_iff in I. destruct I as (x & <- & I). apply C, I.
Qed.
