(** C19: ring lists. *)
From Coq Require Import Arith Bool List Lia.
From Verif Require Import List_model List_spec List_proofs.
Import ListNotations.

(** For the examples: single nodes, and the rings 1 2 3 and 4 5 *)
Definition single : heap := mk_heap (fun x => x) (fun x => x).
Definition two : heap := chain (chain (chain single 1 2) 2 3) 4 5.
Lemma single_consistent : consistent single.
Proof. intros x. split; reflexivity. Qed.
Lemma two_consistent : consistent two.
Proof. repeat apply chain_consistent. apply single_consistent. Qed.
Lemma two_rings : ring two [1; 2; 3] /\ ring two [4; 5] /\ ring two [6].
Proof. unfold ring. repeat split; repeat constructor; cbn; intuition discriminate. Qed.

(** The pointers stay mutually inverse. *)
Theorem C19_consistent : forall h p n, consistent h -> consistent (chain h p n).
Proof. exact chain_consistent. Qed.
Example C19_consistent_ex : consistent (chain two 2 4).
Proof. apply C19_consistent, two_consistent. Qed.

(** Nodes of different rings: the rings are merged. *)
Theorem C19_merge : forall h p xs n ys,
  ring h (p :: xs) -> ring h (n :: ys) -> NoDup ((p :: xs) ++ n :: ys) -> ring (chain h p n) (p :: n :: ys ++ xs).
Proof. exact chain_merge. Qed.
Example C19_merge_ex : ring (chain two 1 4) [1; 4; 5; 2; 3].
Proof.
  apply (C19_merge two 1 [2; 3] 4 [5]); try apply two_rings. repeat constructor; cbn; intuition discriminate.
Qed.

(** Different nodes of one ring: the ring is split. *)
Theorem C19_split : forall h p xs n ys,
  ring h (p :: xs ++ n :: ys) -> ring (chain h p n) (p :: n :: ys) /\ ring (chain h p n) xs.
Proof. exact chain_split. Qed.
Example C19_split_ex : ring (chain two 1 3) [1; 3] /\ ring (chain two 1 3) [2].
Proof. apply (C19_split two 1 [2] 3 []), two_rings. Qed.

(** The same node: it is removed. *)
Theorem C19_remove : forall h p xs, ring h (p :: xs) -> ring (remove h p) [p] /\ ring (remove h p) xs.
Proof. exact chain_remove. Qed.
Example C19_remove_ex : ring (remove two 1) [1] /\ ring (remove two 1) [2; 3].
Proof. apply C19_remove, two_rings. Qed.

(** Other rings are not affected. *)
Theorem C19_others : forall h p n l, consistent h -> ring h l -> ~ In p l -> ~ In n l -> ring (chain h p n) l.
Proof. exact chain_others. Qed.
Example C19_others_ex : ring (chain two 1 3) [4; 5].
Proof. apply C19_others; [apply two_consistent|apply two_rings| |]; cbn; intuition discriminate. Qed.

(** The operation is undone by chaining with the previous successor. *)
Theorem C19_undo : forall h p n, consistent h -> same (chain (chain h p n) p (next h p)) h.
Proof. exact chain_back. Qed.
Example C19_undo_ex : map (next (chain two 1 4)) [1; 2; 3; 4; 5] = [4; 3; 1; 5; 2] /\
  map (next (chain (chain two 1 4) 1 2)) [1; 2; 3; 4; 5] = [2; 3; 1; 5; 4].
Proof. split; reflexivity. Qed.

(** Initialisation makes a singleton, and does not affect other rings. *)
Theorem C19_init : forall h x, ring (init h x) [x] /\ (forall l, ring h l -> ~ In x l -> ring (init h x) l).
Proof. intros h x. split; [apply init_ring|]. intros l. apply init_others. Qed.
Example C19_init_ex : ring (init (mk_heap (fun _ => 0) (fun _ => 7)) 3) [3].
Proof. exact (proj1 (C19_init _ _)). Qed.

(** Iterating visits each node once, in order. *)
Theorem C19_each : forall h n l fuel, ring h (n :: l) -> length l < fuel ->
  each fuel h n = Some l /\ each_rev fuel h n = Some (rev l) /\ is_member h n = negb (length l =? 0).
Proof. exact each_ok. Qed.
Example C19_each_ex : each 10 (chain two 1 4) 1 = Some [4; 5; 2; 3] /\ each_rev 10 (chain two 1 4) 1 = Some [3; 2; 5; 4].
Proof. split; reflexivity. Qed.

Print Assumptions C19_consistent.
Print Assumptions C19_merge.
Print Assumptions C19_split.
Print Assumptions C19_remove.
Print Assumptions C19_others.
Print Assumptions C19_undo.
Print Assumptions C19_init.
Print Assumptions C19_each.
