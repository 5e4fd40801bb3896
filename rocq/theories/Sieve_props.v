(** Properties of the keyword sieve *)
From Coq Require Import Arith Bool NArith String List Lia.
From Verif Require Import Sieve_model Sieve_spec Sieve_proofs2 Color_table.
Import ListNotations.

(** C42: for every table of different keys, the generator succeeds, and the lookup function it prints finds exactly the keys
    of the table with their values, for every string of every length, whatever is in the memory after the string.  It never
    reads outside of the string (the memory may end there) or outside of its tables. *)
Theorem C42_find : forall A (l : list (list nat * A)), NoDup (map fst l) -> line_keys l ->
  (N.of_nat (2 * length l + total_len l) < 2 ^ 32)%N ->
  exists t, generate l = Some t /\
  forall k x, (forall c, In c k -> c < 256) ->
    find t (k ++ x) (length k) = match assoc k l with Some v => Hit v | None => Miss end.
Proof. exact generate_find. Qed.

Local Open Scope string_scope.
Definition ex_tab : list (list nat * nat) := map (fun e => (chars (fst e), snd e))
  [("cube", 1); ("circle", 2); ("square", 3); ("sphere", 4); ("scale", 5); ("color", 6); ("", 7)].
Example C42_find_ex : NoDup (map fst ex_tab) /\ line_keys ex_tab /\ (N.of_nat (2 * List.length ex_tab + total_len ex_tab) < 2 ^ 32)%N
  /\ match generate ex_tab with
     | Some t => (map (fun s => find t (chars s) (String.length s))
         ["cube"; "circle"; "square"; "sphere"; "scale"; "color"; ""; "spare"; "sqhere"; "cub"; "cubes"; "zzzz"; "colour"],
         find t (chars "cube()") 4, statecnt t)
     | None => ([], Miss, 0)
     end = ([Hit 1; Hit 2; Hit 3; Hit 4; Hit 5; Hit 6; Hit 7; Miss; Miss; Miss; Miss; Miss; Miss], Hit 1, 3).
Proof.
  split; [apply has_dup_false; reflexivity|]. split.
  - assert (A : forallb (fun e => forallb (fun c => (c <? 256)%nat && negb (c =? 10)%nat) (fst e)) ex_tab = true) by reflexivity.
    intros k v c I J. rewrite forallb_forall in A. specialize (A _ I). simpl in A.
    rewrite forallb_forall in A. specialize (A _ J). apply andb_prop in A. destruct A as (A1 & A2).
    apply Nat.ltb_lt in A1. apply negb_true_iff, Nat.eqb_neq in A2. auto.
  - split; [reflexivity|]. vm_compute. reflexivity.
Qed.

(** C42: duplicate keys are rejected *)
Theorem C42_duplicates : forall A (l : list (list nat * A)), ~ NoDup (map fst l) -> generate l = None.
Proof. exact generate_dup. Qed.
Example C42_duplicates_ex : ~ NoDup (map fst [(chars "a", 1); (chars "b", 2); (chars "a", 3)])
  /\ generate [(chars "a", 1); (chars "b", 2); (chars "a", 3)] = None.
Proof.
  split; [|reflexivity]. intros H. apply has_dup_false in H. discriminate.
Qed.

Print Assumptions C42_find.
Print Assumptions C42_duplicates.
