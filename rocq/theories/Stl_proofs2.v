(** Proofs for C24, C25: binary STL files. *)
From Coq Require Import ZArith Bool List Lia ZifyBool Arith.
From Verif Require Import Stl_model Stl_spec Stl_proofs.
Import ListNotations.
Local Open Scope Z_scope.

(** *** reading *)
Section Read.
Variable f64 : Z -> Z.
Variable find : list point3 -> point3 -> option nat.
Variable same : point3 -> point3 -> Prop.
Hypothesis FIND : finds same find.
Variable f : list Z.

Lemma bin_u8_eq p : (pos p <= length f)%nat -> bin_u8 f p =
  if (pos p <? length f)%nat then SOk (nth (pos p) f 0, mk_parse (pos p + 1) (pts p) (faces p)) else SErr.
Proof.
  intros L. unfold bin_u8, bin_skip.
  destruct (Nat.ltb_spec (pos p) (length f)) as [H|H].
  - rewrite nth_error_app1 by assumption. rewrite (nth_error_nth' f 0 H).
    destruct (Nat.ltb_spec (length f - pos p) 1); [lia|]. reflexivity.
  - rewrite nth_error_app2 by assumption. replace (pos p - length f)%nat with 0%nat by lia. cbn [nth_error].
    destruct (Nat.ltb_spec (length f - pos p) 1); [reflexivity|lia].
Qed.

(** reads n bytes and gives v, or fails if there are not enough *)
Definition reads {A} (r : parse -> sres (A * parse)) (n : nat) (v : nat -> A) : Prop := forall p,
  (pos p <= length f)%nat -> r p =
  if (pos p + n <=? length f)%nat then SOk (v (pos p), mk_parse (pos p + n) (pts p) (faces p)) else SErr.

Ltac rd R := rewrite R by (cbn [pos]; lia); cbn [pos pts faces];
  match goal with |- context [Nat.leb ?x (length f)] => destruct (Nat.leb_spec x (length f)) end; cbn [sbind].
Ltac fin := match goal with |- _ = (if Nat.leb ?x (length f) then _ else _) =>
  destruct (Nat.leb_spec x (length f)); try lia; try reflexivity end.

Hypothesis BY : bytes f.
Lemma byte_at i : 0 <= nth i f 0 < 256.
Proof.
  destruct (nth_in_or_default i f 0) as [H|H]; [|lia]. unfold bytes in BY. rewrite Forall_forall in BY. apply BY, H.
Qed.

Lemma reads_u8 : reads (bin_u8 f) 1 (fun i => nth i f 0).
Proof.
  intros p L. rewrite (bin_u8_eq p L).
  destruct (Nat.ltb_spec (pos p) (length f)), (Nat.leb_spec (pos p + 1) (length f)); try lia; reflexivity.
Qed.

Lemma combine16 l h : 0 <= l < 256 -> 0 <= h < 256 -> Z.land (l + Z.shiftl h 8) 65535 = l + 256 * h.
Proof.
  intros. rewrite Z.shiftl_mul_pow2 by lia. change 65535 with (Z.ones 16). rewrite Z.land_ones by lia.
  change (2 ^ 8) with 256. change (2 ^ 16) with 65536. rewrite Z.mod_small; lia.
Qed.

Lemma reads_u16 : reads (bin_u16 f) 2 (fun i => nth i f 0 + 256 * nth (i + 1) f 0).
Proof.
  intros p L. unfold bin_u16. rd reads_u8; [|fin]. rd reads_u8; [|fin]. fin.
  rewrite combine16 by apply byte_at. rewrite <- Nat.add_assoc. reflexivity.
Qed.

Lemma u32_range i : 0 <= u32_at f i < 4294967296.
Proof.
  unfold u32_at. pose proof (byte_at i). pose proof (byte_at (i + 1)). pose proof (byte_at (i + 2)). pose proof (byte_at (i + 3)). lia.
Qed.

Lemma reads_u32 : reads (bin_u32 f) 4 (u32_at f).
Proof.
  intros p L. unfold bin_u32. rd reads_u16; [|fin]. rd reads_u16; [|fin]. fin.
  rewrite <- !Nat.add_assoc. cbn [Nat.add]. rewrite Z.shiftl_mul_pow2 by lia. change (2 ^ 16) with 65536.
  pose proof (u32_range (pos p)) as R. set (i := pos p) in *.
  assert (E : nth i f 0 + 256 * nth (i + 1) f 0 + (nth (i + 2) f 0 + 256 * nth (i + 3) f 0) * 65536 = u32_at f i) by (unfold u32_at; lia).
  rewrite E, Z.mod_small by exact R. reflexivity.
Qed.

Lemma reads_f : reads (bin_f f64 f) 4 (fun i => f64 (u32_at f i)).
Proof. intros p L. unfold bin_f. rd reads_u32; reflexivity. Qed.

Lemma reads_vec3 : reads (bin_vec3 f64 f) 12 (fun i => map3 f64 (vec3_at f i)).
Proof.
  intros p L. unfold bin_vec3. rd reads_f; [|fin]. rd reads_f; [|fin]. rd reads_f; [|fin]. fin.
  rewrite <- !Nat.add_assoc. reflexivity.
Qed.

(** a point has the index i, up to sameness; this remains so when points are added *)
Definition has (points : list point3) (i : nat) (v : point3) : Prop :=
  exists q, nth_error points i = Some q /\ same v q.
Lemma has_app points more i v : has points i v -> has (points ++ more) i v.
Proof.
  intros (q & N & S). exists q. split; [|exact S]. rewrite nth_error_app1; [exact N|].
  apply nth_error_Some. congruence.
Qed.

Lemma vertex_ok p : (pos p + 12 <= length f)%nat ->
  exists i more, bin_vertex f64 find f p = SOk (i, mk_parse (pos p + 12) (pts p ++ more) (faces p)) /\
    has (pts p ++ more) i (map3 f64 (vec3_at f (pos p))).
Proof.
  intros L. unfold bin_vertex. rewrite reads_vec3 by lia.
  destruct (Nat.leb_spec (pos p + 12) (length f)); [|lia]. cbn [sbind pts pos faces].
  destruct (find (pts p) _) as [i|] eqn:E.
  - exists i, []. rewrite app_nil_r. split; [reflexivity|]. exact (proj2 FIND _ _ _ E).
  - eexists _, [_]. split; [reflexivity|]. eexists. split; [|apply (proj1 FIND)].
    rewrite nth_error_app2, Nat.sub_diag by lia. reflexivity.
Qed.
Lemma vertex_err p : (pos p <= length f)%nat -> (length f < pos p + 12)%nat -> bin_vertex f64 find f p = SErr.
Proof.
  intros L H. unfold bin_vertex. rewrite reads_vec3 by lia. destruct (Nat.leb_spec (pos p + 12) (length f)); [lia|]. reflexivity.
Qed.

Definition cv (i c : nat) : point3 := map3 f64 (vec3_at f (i + 12 + 12 * c)).

Lemma facet_ok p : (pos p + 50 <= length f)%nat ->
  exists a b c more, bin_facet f64 find f p = SOk (mk_parse (pos p + 50) (pts p ++ more) (faces p ++ [[c; b; a]])) /\
    has (pts p ++ more) a (cv (pos p) 0) /\ has (pts p ++ more) b (cv (pos p) 1) /\ has (pts p ++ more) c (cv (pos p) 2).
Proof.
  intros L. unfold bin_facet. rewrite reads_vec3 by lia.
  destruct (Nat.leb_spec (pos p + 12) (length f)); [|lia]. cbn [sbind].
  destruct (vertex_ok (mk_parse (pos p + 12) (pts p) (faces p))) as (a & m1 & -> & A); [cbn [pos]; lia|]. cbn [sbind pos pts faces] in *.
  destruct (vertex_ok (mk_parse (pos p + 12 + 12) (pts p ++ m1) (faces p))) as (b & m2 & -> & B); [cbn [pos]; lia|]. cbn [sbind pos pts faces] in *.
  destruct (vertex_ok (mk_parse (pos p + 12 + 12 + 12) ((pts p ++ m1) ++ m2) (faces p))) as (c & m3 & -> & C); [cbn [pos]; lia|]. cbn [sbind pos pts faces] in *.
  rewrite reads_u16 by (cbn [pos]; lia). cbn [pos pts faces].
  destruct (Nat.leb_spec (pos p + 12 + 12 + 12 + 12 + 2) (length f)); [|lia]. cbn [sbind pos pts faces].
  replace (pos p + 12 + 12 + 12 + 12 + 2)%nat with (pos p + 50)%nat by lia.
  exists a, b, c, (m1 ++ m2 ++ m3). rewrite !app_assoc. split; [reflexivity|].
  unfold cv. replace (pos p + 12 + 12 * 0)%nat with (pos p + 12)%nat by lia.
  replace (pos p + 12 + 12 * 1)%nat with (pos p + 12 + 12)%nat by lia.
  replace (pos p + 12 + 12 * 2)%nat with (pos p + 12 + 12 + 12)%nat by lia.
  split; [apply has_app, has_app, A|]. split; [apply has_app, B|]. exact C.
Qed.
Lemma facet_err p : (pos p <= length f)%nat -> (length f < pos p + 50)%nat -> bin_facet f64 find f p = SErr.
Proof.
  intros L H. unfold bin_facet. rewrite reads_vec3 by lia.
  destruct (Nat.leb_spec (pos p + 12) (length f)) as [H1|H1]; [|reflexivity]. cbn [sbind].
  destruct (Nat.leb_spec (pos p + 12 + 12) (length f)) as [H2|H2].
  2: { rewrite vertex_err; [reflexivity|cbn [pos]; lia|cbn [pos]; lia]. }
  destruct (vertex_ok (mk_parse (pos p + 12) (pts p) (faces p))) as (a & m1 & -> & _); [cbn [pos]; lia|]. cbn [sbind pos pts faces].
  destruct (Nat.leb_spec (pos p + 12 + 12 + 12) (length f)) as [H3|H3].
  2: { rewrite vertex_err; [reflexivity|cbn [pos]; lia|cbn [pos]; lia]. }
  destruct (vertex_ok (mk_parse (pos p + 12 + 12) (pts p ++ m1) (faces p))) as (b & m2 & -> & _); [cbn [pos]; lia|]. cbn [sbind pos pts faces].
  destruct (Nat.leb_spec (pos p + 12 + 12 + 12 + 12) (length f)) as [H4|H4].
  2: { rewrite vertex_err; [reflexivity|cbn [pos]; lia|cbn [pos]; lia]. }
  destruct (vertex_ok (mk_parse (pos p + 12 + 12 + 12) ((pts p ++ m1) ++ m2) (faces p))) as (c & m3 & -> & _); [cbn [pos]; lia|]. cbn [sbind pos pts faces].
  rewrite reads_u16 by (cbn [pos]; lia). cbn [pos].
  destruct (Nat.leb_spec (pos p + 12 + 12 + 12 + 12 + 2) (length f)); [lia|]. reflexivity.
Qed.

Definition has_face (points : list point3) (l : list nat) (i : nat) : Prop :=
  exists a b c, l = [c; b; a] /\ has points a (cv i 0) /\ has points b (cv i 1) /\ has points c (cv i 2).
Lemma has_face_app points more l i : has_face points l i -> has_face (points ++ more) l i.
Proof. intros (a & b & c & -> & A & B & C). exists a, b, c. repeat split; apply has_app; assumption. Qed.

Lemma facets_ok : forall n p, (pos p + 50 * n <= length f)%nat ->
  exists more fs, bin_facets f64 find f n p = SOk (mk_parse (pos p + 50 * n) (pts p ++ more) (faces p ++ fs)) /\
    Forall2 (has_face (pts p ++ more)) fs (map (fun i => pos p + 50 * i)%nat (seq 0 n)).
Proof.
  induction n as [|n IH]; intros p L.
  - exists [], []. cbn [bin_facets seq map]. rewrite Nat.mul_0_r, Nat.add_0_r, !app_nil_r. destruct p. split; [reflexivity|constructor].
  - cbn [bin_facets]. destruct (facet_ok p) as (a & b & c & m1 & -> & A & B & C); [lia|]. cbn [sbind].
    destruct (IH (mk_parse (pos p + 50) (pts p ++ m1) (faces p ++ [[c; b; a]]))) as (m2 & fs & -> & F); [cbn [pos]; lia|].
    cbn [pos pts faces] in *. exists (m1 ++ m2), ([c; b; a] :: fs).
    rewrite !app_assoc, <- (app_assoc (faces p) [_] fs). cbn [app].
    replace (pos p + 50 + 50 * n)%nat with (pos p + 50 * S n)%nat by lia. split; [reflexivity|].
    cbn [seq map]. constructor.
    + rewrite Nat.mul_0_r, Nat.add_0_r. exists a, b, c. repeat split; apply has_app; assumption.
    + rewrite <- seq_shift, map_map. erewrite map_ext; [exact F|]. intros i. cbn beta. lia.
Qed.
Lemma facets_err : forall n p, (pos p <= length f)%nat -> (length f < pos p + 50 * n)%nat ->
  bin_facets f64 find f n p = SErr.
Proof.
  induction n as [|n IH]; intros p L H; [lia|]. cbn [bin_facets].
  destruct (Nat.leb_spec (pos p + 50) (length f)) as [H1|H1].
  - destruct (facet_ok p) as (a & b & c & m1 & -> & _); [lia|]. cbn [sbind]. apply IH; cbn [pos]; lia.
  - rewrite facet_err by lia. reflexivity.
Qed.

(** the corners of a face, with orientation reversed *)
Definition face_is (face : list point3) (i : nat) : Prop :=
  exists a b c, face = [c; b; a] /\ same (cv i 0) a /\ same (cv i 1) b /\ same (cv i 2) c.

Lemma make_faces_ok points : forall fs is, Forall2 (has_face points) fs is ->
  exists r, make_faces points fs = SOk r /\ Forall2 face_is r is.
Proof.
  intros fs is F. induction F as [|l i fs is H F IH].
  - exists []. split; [reflexivity|constructor].
  - destruct IH as (r & R & FR). destruct H as (a & b & c & -> & (qa & A & SA) & (qb & B & SB) & (qc & C & SC)).
    cbn [make_faces lookup]. rewrite A, B, C. cbn [sbind]. rewrite R. cbn [sbind]. eexists. split; [reflexivity|].
    constructor; [|exact FR]. exists qa, qb, qc. auto.
Qed.

Lemma parse_bin_eq : (84 <= length f)%nat ->
  let n := Z.to_nat (u32_at f 80) in
  if (84 + 50 * n <=? length f)%nat then
    exists r, parse_bin f64 find f (mk_parse 0 [] []) = SOk r /\
      Forall2 face_is r (map (fun i => 84 + 50 * i)%nat (seq 0 n))
  else parse_bin f64 find f (mk_parse 0 [] []) = SErr.
Proof.
  intros L n. unfold parse_bin, bin_skip. cbn [pos pts faces].
  destruct (Nat.ltb_spec (length f - 0) 80); [lia|]. cbn [sbind].
  rewrite reads_u32 by (cbn [pos]; lia). cbn [pos pts faces]. change (0 + 80)%nat with 80%nat. change (80 + 4)%nat with 84%nat.
  destruct (Nat.leb_spec 84 (length f)); [|lia]. cbn [sbind]. fold n.
  destruct (Nat.leb_spec (84 + 50 * n) (length f)) as [H1|H1].
  - destruct (facets_ok n (mk_parse 84 [] [])) as (m & fs & -> & F); [cbn [pos]; exact H1|]. cbn [sbind pos pts faces app] in *.
    apply make_faces_ok, F.
  - rewrite facets_err; [reflexivity|cbn [pos]; lia|cbn [pos]; lia].
Qed.
Lemma parse_bin_short : (length f < 84)%nat -> parse_bin f64 find f (mk_parse 0 [] []) = SErr.
Proof.
  intros L. unfold parse_bin, bin_skip. cbn [pos pts faces].
  destruct (Nat.ltb_spec (length f - 0) 80) as [H1|H1]; [reflexivity|]. cbn [sbind].
  rewrite reads_u32 by (cbn [pos]; lia). cbn [pos]. change (0 + 80 + 4)%nat with 84%nat.
  destruct (Nat.leb_spec 84 (length f)); [lia|]. reflexivity.
Qed.
End Read.

(** *** detection *)
Lemma detect_text f : detect f = Text <-> starts_with_solid f.
Proof.
  unfold detect, starts_with_solid.
  assert (K : Nat.leb 5 (length f) && forallb (fun x => Z.eqb (fst x) (snd x)) (combine (firstn 5 f) solid) = true
    <-> exists r, f = solid ++ r).
  { destruct f as [|a [|b [|c [|d [|e f]]]]]; unfold solid; cbn [length Nat.leb firstn combine forallb fst snd app andb];
      try (split; [discriminate|intros [r [=]]]).
    rewrite !andb_true_iff, !Z.eqb_eq. split.
    - intros (-> & -> & -> & -> & -> & _). eauto.
    - intros (r & [= -> -> -> -> -> _]). repeat split. }
  destruct (Nat.leb 5 (length f) && _) eqn:E.
  - split; [intros _; apply K; reflexivity|reflexivity].
  - split.
    + destruct (_ =? 0); discriminate.
    + intros H. apply K in H. discriminate.
Qed.

Lemma detect_binary f : ~ starts_with_solid f -> (84 <= length f)%nat ->
  Z.of_nat (length f) < 18446744073709551616 ->
  (detect f = Binary <-> exists n, Z.of_nat (length f) = 84 + 50 * n).
Proof.
  intros N L B. unfold detect. destruct (Nat.leb 5 (length f) && _) eqn:E.
  - exfalso. apply N, detect_text. unfold detect. rewrite E. reflexivity.
  - rewrite (Z.mod_small (Z.of_nat (length f) - 84) 18446744073709551616) by lia. destruct (Z.eqb_spec ((Z.of_nat (length f) - 84) mod 50) 0) as [M|M].
    + split; [|reflexivity]. intros _. exists ((Z.of_nat (length f) - 84) / 50).
      pose proof (Z.div_mod (Z.of_nat (length f) - 84) 50). lia.
    + split; [discriminate|]. intros (n & E2). exfalso. apply M. rewrite E2.
      replace (84 + 50 * n - 84) with (n * 50) by ring. apply Z.mod_mul. lia.
Qed.

Lemma detect_small f : (length f < 84)%nat -> detect f = Binary -> length f = 18%nat \/ length f = 68%nat.
Proof.
  intros L. unfold detect. destruct (Nat.leb 5 (length f) && _); [discriminate|].
  destruct (Z.eqb_spec ((Z.of_nat (length f) - 84) mod 18446744073709551616 mod 50) 0) as [M|M]; [|discriminate]. intros _.
  replace ((Z.of_nat (length f) - 84) mod 18446744073709551616) with (Z.of_nat (length f) - 84 + 18446744073709551616) in M.
  - assert (E : (Z.of_nat (length f) - 84 + 18446744073709551616) mod 50 = (Z.of_nat (length f) - 18 + 50) mod 50).
    { replace (Z.of_nat (length f) - 84 + 18446744073709551616) with (Z.of_nat (length f) - 18 + 50 + 368934881474191030 * 50) by lia.
      apply Z.mod_add. lia. }
    rewrite E in M. pose proof (Z.div_mod (Z.of_nat (length f) - 18 + 50) 50). lia.
  - apply Z.mod_unique with (-1); lia.
Qed.

(** *** writing *)
Section Write.
Variables (f32 : Z -> Z).
Hypothesis F32 : forall x, 0 <= f32 x < 4294967296.

Definition record (t : tri3) : list Z :=
  bytes_vec3 f32 (t_n t) ++ bytes_vec3 f32 (t_a t) ++ bytes_vec3 f32 (t_b t) ++ bytes_vec3 f32 (t_c t) ++ [0; 0].

Lemma land255 u : Z.land u 255 = u mod 256.
Proof. change 255 with (Z.ones 8). rewrite Z.land_ones by lia. reflexivity. Qed.
Lemma bytes_u32_eq u : bytes_u32 u = [u mod 256; u / 256 mod 256; u / 65536 mod 256; u / 16777216 mod 256].
Proof.
  unfold bytes_u32. rewrite !land255, !Z.shiftr_div_pow2 by lia. reflexivity.
Qed.
Lemma bytes_u32_bytes u : bytes (bytes_u32 u).
Proof. rewrite bytes_u32_eq. unfold bytes. repeat constructor; apply Z.mod_pos_bound; lia. Qed.
Lemma bytes_app a b : bytes a -> bytes b -> bytes (a ++ b).
Proof. intros. apply Forall_app. auto. Qed.
Lemma bytes_vec3_bytes p : bytes (bytes_vec3 f32 p).
Proof. destruct p as [[x y] z]. unfold bytes_vec3. repeat apply bytes_app; apply bytes_u32_bytes. Qed.
Lemma bytes_vec3_length p : length (bytes_vec3 f32 p) = 12%nat.
Proof. destruct p as [[x y] z]. reflexivity. Qed.
Lemma record_length t : length (record t) = 50%nat.
Proof. unfold record. rewrite !app_length, !bytes_vec3_length. reflexivity. Qed.
Lemma record_bytes t : bytes (record t).
Proof.
  unfold record. repeat apply bytes_app; try apply bytes_vec3_bytes. repeat constructor; lia.
Qed.

Lemma u32_at_bytes a u b : 0 <= u < 4294967296 -> u32_at (a ++ bytes_u32 u ++ b) (length a) = u.
Proof.
  intros R. unfold u32_at. rewrite bytes_u32_eq.
  assert (E : forall k, nth (length a + k) (a ++ [u mod 256; u / 256 mod 256; u / 65536 mod 256; u / 16777216 mod 256] ++ b) 0 =
    nth k ([u mod 256; u / 256 mod 256; u / 65536 mod 256; u / 16777216 mod 256] ++ b) 0).
  { intros k. rewrite app_nth2 by lia. f_equal. lia. }
  pose proof (E 0%nat) as E0. rewrite Nat.add_0_r in E0. rewrite E0, !E. cbn [app nth].
  change 65536 with (256 * 256). change 16777216 with (256 * (256 * 256)). rewrite <- !Z.div_div by lia.
  pose proof (Z.div_mod u 256). pose proof (Z.div_mod (u / 256) 256). pose proof (Z.div_mod (u / 256 / 256) 256).
  assert (T : u / 256 / 256 / 256 mod 256 = u / 256 / 256 / 256).
  { apply Z.mod_small. rewrite !Z.div_div by lia. split; [apply Z.div_pos; lia|]. apply Z.div_lt_upper_bound; lia. }
  rewrite T. lia.
Qed.

Lemma vec3_at_bytes a p b : vec3_at (a ++ bytes_vec3 f32 p ++ b) (length a) = map3 f32 p.
Proof.
  destruct p as [[x y] z]. unfold vec3_at, bytes_vec3, map3.
  assert (L : forall u, length (bytes_u32 u) = 4%nat) by reflexivity.
  f_equal; [f_equal|].
  - rewrite <- !app_assoc. apply u32_at_bytes, F32.
  - replace (length a + 4)%nat with (length (a ++ bytes_u32 (f32 x))) by (rewrite app_length, L; reflexivity).
    rewrite <- !app_assoc. rewrite app_assoc. apply u32_at_bytes, F32.
  - replace (length a + 8)%nat with (length ((a ++ bytes_u32 (f32 x)) ++ bytes_u32 (f32 y))) by (rewrite !app_length, !L; lia).
    replace (a ++ (bytes_u32 (f32 x) ++ bytes_u32 (f32 y) ++ bytes_u32 (f32 z)) ++ b) with
      (((a ++ bytes_u32 (f32 x)) ++ bytes_u32 (f32 y)) ++ bytes_u32 (f32 z) ++ b) by (rewrite <- !app_assoc; reflexivity).
    apply u32_at_bytes, F32.
Qed.

Lemma fold_put_none ts n : fold_left (put_bin f32) ts (None, n mod 4294967296) = (None, (n + Z.of_nat (length ts)) mod 4294967296).
Proof.
  revert n. induction ts as [|t ts IH]; intros n; cbn [fold_left length].
  - rewrite Z.add_0_r. reflexivity.
  - unfold put_bin at 2. cbn [fst snd]. rewrite Zplus_mod_idemp_l, IH. do 2 f_equal. lia.
Qed.
Lemma fold_put_some ts s n : fold_left (put_bin f32) ts (Some s, n mod 4294967296) =
  (Some (s ++ flat_map record ts), (n + Z.of_nat (length ts)) mod 4294967296).
Proof.
  revert s n. induction ts as [|t ts IH]; intros s n; cbn [fold_left length flat_map].
  - rewrite Z.add_0_r, app_nil_r. reflexivity.
  - unfold put_bin at 2. cbn [fst snd]. rewrite Zplus_mod_idemp_l, IH. rewrite <- app_assoc. f_equal. f_equal. lia.
Qed.

Variable normal : point3 -> point3 -> point3 -> option point3.
Variable zs : list (Z * Z * bool).
Variables zero one mone : Z.
Notation triangles root := (put_csg2 normal zs zero one mone collect [] 0 root).

Definition file (ts : list tri3) : list Z :=
  repeat 0 80 ++ bytes_u32 (Z.of_nat (length ts) mod 4294967296) ++ flat_map record ts.

Lemma write_bin_eq root : write_bin normal zs zero one mone f32 root =
  let% ts := triangles root in SOk (file ts).
Proof.
  unfold write_bin.
  destruct (put_csg2_homs normal zs zero one mone (put_bin f32) root 0) as [H _]. unfold hom in H. cbn beta in H. rewrite !H.
  destruct (triangles root) as [ts| | |]; cbn [sbind]; try reflexivity.
  change (@None (list Z), 0) with (@None (list Z), 0 mod 4294967296). rewrite fold_put_none. cbn [snd sbind].
  rewrite H. cbn [sbind]. rewrite !Z.add_0_l.
  change (Some (repeat 0 80 ++ bytes_u32 (Z.of_nat (length ts) mod 4294967296)), 0) with
    (Some (repeat 0 80 ++ bytes_u32 (Z.of_nat (length ts) mod 4294967296)), 0 mod 4294967296).
  rewrite fold_put_some. cbn [fst snd]. rewrite Z.add_0_l, Z.eqb_refl. cbn [sassert sbind].
  unfold file. rewrite <- app_assoc. reflexivity.
Qed.

Lemma flat_record_length ts : length (flat_map record ts) = (50 * length ts)%nat.
Proof. induction ts as [|t ts IH]; cbn [flat_map length]; [reflexivity|]. rewrite app_length, record_length, IH. lia. Qed.
Lemma file_length ts : length (file ts) = (84 + 50 * length ts)%nat.
Proof. unfold file. rewrite !app_length, repeat_length, flat_record_length. cbn [bytes_u32 length]. lia. Qed.
Lemma file_bytes ts : bytes (file ts).
Proof.
  unfold file. apply bytes_app; [|apply bytes_app; [apply bytes_u32_bytes|]].
  - apply Forall_forall. intros x I. apply repeat_spec in I. lia.
  - induction ts as [|t ts IH]; cbn [flat_map]; [constructor|]. apply bytes_app; [apply record_bytes|exact IH].
Qed.
Lemma file_count ts : u32_at (file ts) 80 = Z.of_nat (length ts) mod 4294967296.
Proof.
  apply (u32_at_bytes (repeat 0 80)), Z.mod_pos_bound. lia.
Qed.
Lemma file_not_solid ts : ~ starts_with_solid (file ts).
Proof. intros (r & E). discriminate E. Qed.

Definition corner (t : tri3) (c : nat) : point3 := match c with 0%nat => t_a t | 1%nat => t_b t | _ => t_c t end.
Lemma file_corner ts i t c : nth_error ts i = Some t -> (c < 3)%nat ->
  vec3_at (file ts) (84 + 50 * i + 12 + 12 * c) = map3 f32 (corner t c).
Proof.
  intros N C. apply nth_error_split in N as (l1 & l2 & -> & <-).
  unfold file. rewrite flat_map_app. cbn [flat_map]. unfold record at 2.
  set (hd := repeat 0 80 ++ bytes_u32 (Z.of_nat (length (l1 ++ t :: l2)) mod 4294967296)).
  assert (HL : length hd = 84%nat) by reflexivity.
  rewrite (app_assoc (repeat 0 80)). fold hd. rewrite (app_assoc hd).
  rewrite <- !app_assoc. rewrite (app_assoc hd).
  set (pre := (hd ++ flat_map record l1) ++ bytes_vec3 f32 (t_n t)).
  assert (PL : length pre = (84 + 50 * length l1 + 12)%nat) by (unfold pre; rewrite !app_length, HL, flat_record_length, bytes_vec3_length; reflexivity).
  rewrite (app_assoc (hd ++ flat_map record l1)). fold pre. rewrite <- PL.
  destruct c as [|[|[|c]]]; [| | |lia]; cbn [corner].
  - rewrite Nat.mul_0_r, Nat.add_0_r. apply vec3_at_bytes.
  - replace (length pre + 12 * 1)%nat with (length (pre ++ bytes_vec3 f32 (t_a t))) by (rewrite app_length, bytes_vec3_length; lia).
    rewrite (app_assoc pre). apply vec3_at_bytes.
  - replace (length pre + 12 * 2)%nat with (length ((pre ++ bytes_vec3 f32 (t_a t)) ++ bytes_vec3 f32 (t_b t))) by (rewrite !app_length, !bytes_vec3_length; lia).
    rewrite (app_assoc pre), (app_assoc (pre ++ _)). apply vec3_at_bytes.
Qed.
End Write.

(** *** putting it together *)

Lemma Forall2_map_r {A B C} (P : A -> C -> Prop) (g : B -> C) l m : Forall2 P l (map g m) -> Forall2 (fun a b => P a (g b)) l m.
Proof.
  revert m. induction l as [|a l IH]; intros [|b m] H; inversion H; subst; constructor; auto.
Qed.
Lemma Forall2_imp {A B} (P Q : A -> B -> Prop) l m : (forall a b, In b m -> P a b -> Q a b) -> Forall2 P l m -> Forall2 Q l m.
Proof.
  intros H F. induction F as [|a b l m X F IH]; constructor; [apply H; [left; reflexivity|exact X]|].
  apply IH. intros. apply H; [right|]; assumption.
Qed.

Lemma read_ok f64 find same parse_text f : finds same find -> well_formed f -> ~ starts_with_solid f ->
  detect f = Binary /\
  exists r, stl_parse f64 find parse_text f = SOk r /\
    Forall2 (fun face i => face_of same (map3 f64 (corner_at f i 0)) (map3 f64 (corner_at f i 1)) (map3 f64 (corner_at f i 2)) face)
      r (seq 0 (Z.to_nat (u32_at f 80))).
Proof.
  intros FI (BY & L & E) N. pose proof (u32_range f BY 80) as R.
  assert (D : detect f = Binary). { apply detect_binary; [exact N|exact L|lia|eauto]. }
  split; [exact D|]. unfold stl_parse. rewrite D.
  pose proof (parse_bin_eq f64 find same FI f BY L) as P. cbn zeta in P.
  destruct (Nat.leb_spec (84 + 50 * Z.to_nat (u32_at f 80)) (length f)) as [H|H]; [|lia].
  destruct P as (r & -> & F). exists r. split; [reflexivity|]. apply Forall2_map_r in F. eapply Forall2_imp; [|exact F].
  intros a i _ (u & v & w & -> & A & B & C). exists u, v, w. auto.
Qed.

Lemma read_safe f64 find parse_text f : (forall points v i, find points v = Some i -> (i < length points)%nat) ->
  bytes f -> ~ starts_with_solid f -> (exists r, stl_parse f64 find parse_text f = SOk r) \/ stl_parse f64 find parse_text f = SErr.
Proof.
  intros FI BY N. unfold stl_parse. destruct (detect f) eqn:D.
  - exfalso. apply N, detect_text, D.
  - assert (FI2 : finds (fun _ _ => True) find).
    { split; [auto|]. intros points v i H. apply FI in H. destruct (nth_error points i) eqn:X; [eauto|]. apply nth_error_None in X. lia. }
    destruct (Nat.leb_spec 84 (length f)) as [L|L].
    + pose proof (parse_bin_eq f64 find _ FI2 f BY L) as P. cbn zeta in P. destruct (_ <=? _)%nat.
      * destruct P as (r & -> & _). eauto.
      * auto.
    + right. apply parse_bin_short; assumption.
  - auto.
Qed.

Lemma seq_Forall2 {A B} (P : A -> nat -> Prop) (Q : A -> B -> Prop) r (ts : list B) :
  (forall a i t, nth_error ts i = Some t -> P a i -> Q a t) -> Forall2 P r (seq 0 (length ts)) -> Forall2 Q r ts.
Proof.
  intros H F.
  assert (G : forall r us k, Forall2 P r (seq k (length us)) -> (forall i, nth_error us i = nth_error ts (k + i)) -> Forall2 Q r us).
  { clear r F. intros r us. revert r. induction us as [|u us IH]; intros r k F E; cbn [length seq] in F; inversion F; subst; constructor.
    - eapply H; [|eassumption]. rewrite <- (Nat.add_0_r k), <- E. reflexivity.
    - eapply IH; [eassumption|]. intros i. specialize (E (S i)). cbn [nth_error] in E. rewrite E. f_equal. lia. }
  eapply G; [exact F|]. intros. reflexivity.
Qed.

Lemma roundtrip f32 f64 find same normal zs zero one mone parse_text root ts :
  (forall x, 0 <= f32 x < 4294967296) -> finds same find ->
  put_csg2 normal zs zero one mone collect [] 0 root = SOk ts -> Z.of_nat (length ts) < 4294967296 ->
  exists f faces, write_bin normal zs zero one mone f32 root = SOk f /\
    length f = (84 + 50 * length ts)%nat /\ u32_at f 80 = Z.of_nat (length ts) /\
    stl_parse f64 find parse_text f = SOk faces /\
    Forall2 (fun face t => face_of same (map3 f64 (map3 f32 (t_a t))) (map3 f64 (map3 f32 (t_b t))) (map3 f64 (map3 f32 (t_c t))) face)
      faces ts.
Proof.
  intros F32 FI T B.
  assert (C : u32_at (file f32 ts) 80 = Z.of_nat (length ts)) by (rewrite file_count, Z.mod_small by lia; reflexivity).
  assert (WF : well_formed (file f32 ts)).
  { repeat split; [apply file_bytes|rewrite file_length; lia|]. rewrite C, file_length. lia. }
  destruct (read_ok f64 find same parse_text (file f32 ts) FI WF (file_not_solid f32 ts)) as (_ & r & R & F).
  exists (file f32 ts), r. split; [|split; [apply file_length|split; [exact C|split; [exact R|]]]].
  - rewrite write_bin_eq, T. reflexivity.
  - rewrite C, Nat2Z.id in F. eapply seq_Forall2; [|exact F]. intros a i t N.
    unfold corner_at. rewrite !(file_corner f32 F32 ts i t) by (try exact N; lia). cbn [corner]. auto.
Qed.
