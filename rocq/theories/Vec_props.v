(** C20: vectors. *)
From Coq Require Import List Arith Bool ZArith Lia.
From Verif Require Import Vec_model Vec_spec Vec_proofs.
Import ListNotations.

(** In the following, [zero] is the all zero element, [junk] is what newly allocated memory
    contains, and [max] the maximum size of a vector; vectors up to half of this size never run
    out of memory. *)

(** a vector with 3 elements in an array of 4, and one with 6 of 8 *)
Definition v3 : vec nat := mk_vec [1; 2; 3; 77] 3.
Definition v6 : vec nat := mk_vec [1; 2; 3; 4; 5; 6; 77; 78] 6.
Definition show (r : vres (vec nat)) : vres (list nat) := let^ v := r in VOk (contents v).
Definition ins := @insert_arr nat 0 (fun i => 90 + i) 1000.

Theorem C20_insert_other : forall A (zero : A) junk max dbg v pos xs n,
  wf v -> pos <= vsize v -> n <= length xs -> 2 * (vsize v + n) <= max ->
  exists w, insert_arr zero junk max dbg v pos (Outside xs) n = VOk w /\ wf w /\
    contents w = inserted (contents v) pos (firstn n xs).
Proof. exact @insert_outside_ok. Qed.
Example C20_insert_other_ex : show (ins true v3 1 (Outside [7; 8; 9]) 3) = VOk [1; 7; 8; 9; 2; 3].
Proof. reflexivity. Qed.

(** Inserting a part of the vector into itself: right if this part and the equally long range
    at the insert position do not overlap; otherwise only if compiled without
    assertions and if the part does not start behind the insert position. *)
Theorem C20_insert_self_partial : forall A (zero : A) junk max dbg v pos src n,
  wf v -> pos <= vsize v -> src + n <= vsize v -> 2 * (vsize v + n) <= max ->
  src + n <= pos \/ pos + n <= src \/ (dbg = false /\ src <= pos) ->
  exists w, insert_arr zero junk max dbg v pos (Inside src) n = VOk w /\ wf w /\
    contents w = inserted (contents v) pos (slice (contents v) src n).
Proof. exact @insert_inside_ok. Qed.
Example C20_insert_self_ex :
  show (ins true v6 6 (Inside 0) 6) = VOk [1; 2; 3; 4; 5; 6; 1; 2; 3; 4; 5; 6] /\
  show (ins true v6 1 (Inside 4) 2) = VOk [1; 5; 6; 2; 3; 4; 5; 6] /\
  show (ins false v6 3 (Inside 1) 4) = VOk [1; 2; 3; 2; 3; 4; 5; 4; 5; 6].
Proof. repeat split. Qed.

(** The full statement: for every part of the vector. *)
Definition insert_self_full : Prop := forall A (zero : A) junk max v pos src n,
  wf v -> pos <= vsize v -> src + n <= vsize v -> 2 * (vsize v + n) <= max ->
  exists w, insert_arr zero junk max true v pos (Inside src) n = VOk w /\ wf w /\
    contents w = inserted (contents v) pos (slice (contents v) src n).
(** It is false: whenever the ranges overlap, an assertion fails. *)
Theorem C20_insert_self_fails : forall A (zero : A) junk max v pos src n,
  wf v -> pos <= vsize v -> src + n <= vsize v -> 2 * (vsize v + n) <= max ->
  src < pos + n -> pos < src + n ->
  insert_arr zero junk max true v pos (Inside src) n = VFail.
Proof. exact @insert_inside_fails. Qed.
Theorem C20_insert_self_refuted : ~ insert_self_full.
Proof.
  intros H. destruct (H nat 0 (fun i => i) 1000 v6 3 1 4) as (w & E & _); [| | | |discriminate E];
  unfold wf; cbn; lia.
Qed.
Example C20_insert_self_fails_ex : show (ins true v6 3 (Inside 1) 4) = VFail /\ show (ins true v6 3 (Inside 4) 2) = VFail.
Proof. split; reflexivity. Qed.

(** Overwriting, with a part of the same and of another vector; the part is culled at
    the end of the source. *)
Theorem C20_copy_self : forall A junk max (v : vec A) pos src n,
  wf v -> pos <= vsize v -> src <= vsize v -> 2 * (pos + vsize v) <= max ->
  exists w, copy_self junk max v pos src n = VOk w /\ wf w /\
    contents w = overwritten (contents v) pos (firstn n (skipn src (contents v))).
Proof. exact @copy_self_cull. Qed.
Theorem C20_copy_other : forall A junk max (v : vec A) pos u src n,
  wf v -> wf u -> pos <= vsize v -> src <= vsize u -> 2 * (pos + vsize u) <= max ->
  exists w, copy_from junk max v pos u src n = VOk w /\ wf w /\
    contents w = overwritten (contents v) pos (firstn n (skipn src (contents u))).
Proof. exact @copy_from_cull. Qed.
Example C20_copy_ex : show (copy_self (fun i => 90 + i) 1000 v6 4 1 100) = VOk [1; 2; 3; 4; 2; 3; 4; 5; 6] /\
  show (copy_from (fun i => 90 + i) 1000 v3 2 v6 3 2) = VOk [1; 2; 4; 5].
Proof. split; reflexivity. Qed.

Theorem C20_remove : forall A (v : vec A) pos n, wf v -> pos <= vsize v ->
  exists w, remove v pos n = VOk w /\ wf w /\ contents w = removed (contents v) pos n.
Proof. exact @remove_ok. Qed.
Example C20_remove_ex : show (remove v6 1 2) = VOk [1; 4; 5; 6] /\ show (remove v6 4 9) = VOk [1; 2; 3; 4].
Proof. split; reflexivity. Qed.

Theorem C20_extract : forall A (v : vec A) pos, wf v -> pos < vsize v ->
  exists x w, extract v pos = VOk ([x], w) /\ nth_error (contents v) pos = Some x /\ wf w /\
    contents w = removed (contents v) pos 1.
Proof. exact @extract_ok. Qed.
Example C20_extract_ex : (let^ r := extract v6 2 in VOk (fst r, contents (snd r))) = VOk ([3], [1; 2; 4; 5; 6]).
Proof. reflexivity. Qed.

Theorem C20_reverse : forall A (v : vec A) pos n, wf v -> pos <= vsize v ->
  exists w, reverse v pos n = VOk w /\ wf w /\ contents w = reversed (contents v) pos n.
Proof. exact @reverse_ok. Qed.
Example C20_reverse_ex : show (reverse v6 1 4) = VOk [1; 5; 4; 3; 2; 6] /\ show (reverse v6 3 100) = VOk [1; 2; 3; 6; 5; 4].
Proof. split; reflexivity. Qed.

Theorem C20_set_size : forall A (zero : A) junk max v n, wf v -> 2 * n <= max ->
  exists w, set_size zero junk max v n = VOk w /\ wf w /\
    contents w = firstn n (contents v ++ repeat zero n).
Proof. exact @set_size_ok. Qed.
Theorem C20_ensure_size : forall A (zero : A) junk max v n, wf v -> 2 * n <= max ->
  exists w, ensure_size zero junk max v n = VOk w /\ wf w /\
    contents w = contents v ++ repeat zero (n - vsize v).
Proof. exact @ensure_size_ok. Qed.
Theorem C20_clear : forall A junk max (v : vec A) n, wf v -> 2 * n <= max ->
  exists w, clear junk max v n = VOk w /\ wf w /\ contents w = [] /\ n <= length (vmem w).
Proof. exact @clear_ok. Qed.
Example C20_size_ex : show (set_size 0 (fun i => 90 + i) 1000 v3 6) = VOk [1; 2; 3; 0; 0; 0] /\
  show (set_size 0 (fun i => 90 + i) 1000 v3 1) = VOk [1] /\
  show (ensure_size 0 (fun i => 90 + i) 1000 v3 5) = VOk [1; 2; 3; 0; 0] /\
  show (clear (fun i => 90 + i) 1000 v3 5) = VOk [].
Proof. repeat split. Qed.

(** [cmp x] is the result of comparing the key with x. *)
Theorem C20_bsearch : forall A (zero : A) (cmp : A -> Z) m, sorted_for cmp m ->
  exists r, bsearch zero cmp m = VOk r /\
    match r with
    | Some i => exists x, nth_error m i = Some x /\ cmp x = 0%Z
    | None => forall x, In x m -> cmp x <> 0%Z
    end.
Proof. exact @bsearch_ok. Qed.
Example C20_bsearch_ex : bsearch 0%Z (fun x => 7 - x)%Z [1; 3; 7; 7; 9]%Z = VOk (Some 2) /\
  bsearch 0%Z (fun x => 8 - x)%Z [1; 3; 7; 7; 9]%Z = VOk None /\ sorted_for (fun x => 7 - x)%Z [1; 7]%Z.
Proof.
  split; [reflexivity|]. split; [reflexivity|].
  intros i j x y L E F. destruct i as [|[|i]], j as [|[|j]]; cbn [nth_error] in *; try lia;
    try (destruct i; discriminate); try (destruct j; discriminate);
    injection E as <-; injection F as <-; lia.
Qed.

Print Assumptions C20_insert_other.
Print Assumptions C20_insert_self_partial.
Print Assumptions C20_insert_self_fails.
Print Assumptions C20_insert_self_refuted.
Print Assumptions C20_copy_self.
Print Assumptions C20_copy_other.
Print Assumptions C20_remove.
Print Assumptions C20_extract.
Print Assumptions C20_reverse.
Print Assumptions C20_set_size.
Print Assumptions C20_ensure_size.
Print Assumptions C20_clear.
Print Assumptions C20_bsearch.
