(** C36: XML parsing decodes text in place safely; where it does not end, and where it crashes *)
From Coq Require Import String Ascii ZArith Bool List Lia Arith ZifyBool.
From Verif Require Import Utf8_model Utf8_spec Xml_model Xml_spec Xml_proofs Xml_proofs2 Xml_proofs3 Xml_proofs4 Xml_spec2 Xml_proofs5 Xml_proofs6.
Import ListNotations.
Local Open Scope Z_scope.

(** For every file: the parser that writes into the file behaves like the one that copies all strings, and finds the same tree; in
    particular, it never reads or writes outside of the file, no assertion fails, and no string is overwritten later *)
Theorem C36_inplace : forall fuel file, bytes file ->
  match xml_parse fuel file, copy_parse fuel file with
  | Ok (a, n, st), Ok (a', n') => map (view_attr (mem st)) a = a' /\ map (view (mem st)) n = n'
  | Err, Err | Null, Null | Hang, Hang | NoFuel, NoFuel => True
  | _, _ => False
  end.
Proof.
  intros fuel f B. pose proof (parse_sim fuel f B) as H. destruct (xml_parse fuel f) as [((a, n), st)| | | | |], (copy_parse fuel f) as [(a', n')| | | | |]; cbn in H; auto.
Qed.
Definition ex : list Z := ascii_bytes "<?xml v='1'?><svg a='x&amp;y' xmlns='u' q:r='7' xmlns:q='w'>t&#65;<!-- c --><b/> &lt;</svg>".
Example C36_inplace_ex : match xml_parse 200 ex with
  | Ok (a, n, st) => mem st <> ex ++ [0] /\ map (view (mem st)) n = [TElem None (ascii_bytes "svg") (Some (ascii_bytes "u"))
      [mk_tattr None (ascii_bytes "a") None (Some (ascii_bytes "x&y")); mk_tattr (Some (ascii_bytes "q")) (ascii_bytes "r") (Some (ascii_bytes "w")) (Some (ascii_bytes "7"))]
      [TCdata (ascii_bytes "tA"); TElem None (ascii_bytes "b") (Some (ascii_bytes "u")) [] []; TCdata (ascii_bytes " <")]]
  | _ => False
  end.
Proof. vm_compute. split; [discriminate|reflexivity]. Qed.

(** Termination: the recursion and all loops end within the length of the file, except for loops that repeat in the same state.
    Missing for C36: the three loops of C36_terminates_refuted do not end. *)
Theorem C36_terminates_partial : forall fuel file, bytes file -> (length file + 3 <= fuel)%nat -> xml_parse fuel file <> NoFuel /\ xml_parse fuel file <> Crash.
Proof.
  intros fuel f B L. pose proof (parse_sim fuel f B) as H. pose proof (parse_end fuel f B ltac:(lia)) as E. destruct (xml_parse fuel f), (copy_parse fuel f); cbn in H; try contradiction; split; congruence.
Qed.
Example C36_terminates_ex : (length ex + 3 <= 200)%nat /\ exists r, xml_parse 200 ex = Ok r.
Proof. split; [vm_compute; lia|vm_compute; eauto]. Qed.

(** A name at the end of the file, a comment without an end, and an attribute without a name: the parser does not end *)
Theorem C36_terminates_refuted : forall fuel, (10 <= fuel)%nat ->
  xml_parse fuel (ascii_bytes "<a") = Hang /\ xml_parse fuel (ascii_bytes "<!--") = Hang /\ xml_parse fuel (ascii_bytes "<a 'b'/>") = Hang.
Proof. intros fuel L. do 10 (destruct fuel as [|fuel]; [lia|]). repeat split; vm_compute; reflexivity. Qed.
(** [Hang] stands for an endless loop: the loops as they are written use any amount of fuel *)
Theorem C36_hang_tag : forall str_end st, cur st = 0 -> lex_next str_end st = Ok st -> forall fuel, plain_tag_loop str_end fuel st = NoFuel.
Proof. intros e st C L. induction fuel as [|fuel IH]; cbn; auto. rewrite C. cbn. rewrite L. exact IH. Qed.
Theorem C36_hang_comment : forall str_end st, cur st = 0 -> lex_next str_end st = Ok st -> forall fuel, plain_comment str_end fuel st = NoFuel.
Proof. intros e st C L. induction fuel as [|fuel IH]; cbn; auto. rewrite C. cbn. rewrite L. exact IH. Qed.
Example C36_hang_ex : let st := mk_state 0 2 2 (ascii_bytes "<a" ++ [0]) in cur st = 0 /\ lex_next 2 st = Ok st.
Proof. split; reflexivity. Qed.
Theorem C36_hang_attr : forall str_end st c, stuck (cur st) -> (loc st < length (mem st))%nat -> forall fuel, plain_attr_list str_end fuel c st = NoFuel.
Proof.
  intros e st c S L fuel. revert c st S L. induction fuel as [|fuel IH]; intros c st S L; [reflexivity|]. cbn [plain_attr_list].
  destruct S as (S1 & S2 & S3 & S4 & S5 & S6 & S7 & S8). destruct fuel as [|fuel]; [reflexivity|].
  unfold parse_attr. cbn [skip_space]. rewrite S2. cbn [bind]. replace ((cur st =? 0) || (cur st =? 47) || (cur st =? 62) || (cur st =? 63)) with false by lia.
  unfold parse_scoped_name, parse_tag. assert (T : (if maybe_tag_begin (cur st) then tag_loop e (Datatypes.S fuel) st else Ok st) = Ok st). { cbn. destruct S8 as [-> | ->]; [auto|]. now destruct (maybe_tag_begin (cur st)). }
  rewrite T. cbn [bind]. unfold store. destruct (writes_ok [0] (mem st) (loc st)) as (m & E); [cbn; lia|]. rewrite E. cbn [bind cur loc nxt mem]. apply writes_some in E as (E1 & E2 & _).
  replace (cur st =? 58) with false by lia. cbn [bind cur]. replace (cur st =? 61) with false by lia. cbn [negb bind].
  assert (Z : cstr m (loc st) = []). { apply cstr_spec; cbn; [lia| |tauto]. specialize (E2 0%nat ltac:(cbn; lia)). exact E2. }
  cbn [mem]. rewrite Z. replace (equ [] xmlns) with false by reflexivity. rewrite (IH c). { reflexivity. } { cbn. repeat split; auto. } cbn. lia.
Qed.
Example C36_hang_attr_ex : stuck 34 /\ stuck 39 /\ stuck 49 /\ stuck 60.
Proof. repeat split; try discriminate; (left; reflexivity) || (right; reflexivity). Qed.

(** A declaration of a namespace without value is an access via a null pointer *)
Theorem C36_null_refuted : forall fuel, (20 <= fuel)%nat ->
  xml_parse fuel (ascii_bytes "<a xmlns/>") = Null /\ xml_parse fuel (ascii_bytes "<a xmlns:b b:c='1'/>") = Null.
Proof. intros fuel L. do 20 (destruct fuel as [|fuel]; [lia|]). split; vm_compute; reflexivity. Qed.

(** Texts decode to what they denote, in place: [pre] and what follows the delimiter are left alone *)
Theorem C36_text : forall fuel pre src post delim t c l st,
  bytes (pre ++ src ++ delim :: post) -> (delim = 34 \/ delim = 39 \/ delim = 60) -> denotes delim src t -> (length src < fuel)%nat ->
  let file := pre ++ src ++ delim :: post in
  lex_next (length file) (mk_state c l (length pre) (file ++ [0])) = Ok st ->
  exists st', parse_text (length file) fuel delim st = Ok (length pre, st') /\ cstr (mem st') (length pre) = flat_map utf8 t /\
    cur st' = delim /\ loc st' = (length pre + length src)%nat /\ firstn (length pre) (mem st') = pre /\ skipn (S (loc st')) (mem st') = post ++ [0].
Proof.
  intros fuel pre src post delim t c l st B Dl D L file LX. subst file. set (file := pre ++ src ++ delim :: post) in *.
  destruct (file_ok file B) as (Lf & Ef & Bf). assert (Dr : 0 < delim < 128 /\ delim <> 38) by lia.
  assert (Sk : skipn (length pre) (file ++ [0]) = src ++ delim :: post ++ [0]). { unfold file. rewrite <- app_assoc. rewrite skipn_app, skipn_all, Nat.sub_diag. cbn. now rewrite <- app_assoc. }
  assert (Sh : src ++ delim :: post ++ [0] = hd src delim :: tl (src ++ delim :: post ++ [0])) by (destruct src; reflexivity).
  pose proof (lex_ascii (file ++ [0]) (length file) Lf (mk_state c l (length pre) (file ++ [0])) (hd src delim) (tl (src ++ delim :: post ++ [0])) eq_refl eq_refl) as X. cbn [nxt] in X. rewrite Sk in X.
  specialize (X Sh). rewrite X in LX; [|destruct src; cbn; intros E; [now destruct post|now destruct src]|apply (den_hd _ _ Lf delim src t D (proj1 Dr))]. inversion LX; subst st. clear LX X.
  pose proof (text_at (file ++ [0]) (length file) Lf delim src t D (proj1 Dr) (proj2 Dr) fuel (length pre) (post ++ [0]) Sk ltac:(now destruct post) L) as T.
  set (st := at_ (file ++ [0]) (hd src delim) (length pre)) in *.
  assert (Nh : nth_error (file ++ [0]) (length pre) = Some (hd src delim)). { rewrite Sh in Sk. apply skipn_cons in Sk. apply Sk. }
  assert (Hh : 0 < hd src delim < 128) by (apply (den_hd _ _ Lf delim src t D (proj1 Dr))).
  assert (LL : (length pre < length file)%nat). { unfold file. rewrite !app_length. cbn. lia. }
  assert (S : srel (file ++ [0]) (length file) st st).
  { constructor; try reflexivity; [exact Lf|left; reflexivity|]. right. cbn. assert (utf8_ok (hd src delim) = true) by (unfold utf8_ok; lia).
    assert (Cl : clen (hd src delim) = 1%nat) by (unfold clen; replace (hd src delim <=? 127) with true by lia; auto). rewrite Cl. repeat split; try lia; auto. intros k K. exists (hd src delim). replace k with (length pre) by lia. split; [auto|lia]. }
  pose proof (ptext_sim (file ++ [0]) (length file) Lf Ef Bf fuel delim st st S (or_intror eq_refl)) as P. rewrite T in P. specialize (P ltac:(right; assert (delim = 34 \/ delim = 39 \/ delim = 60) as [-> | [-> | ->]] by lia; reflexivity)).
  destruct (parse_text (length file) fuel delim st) as [(p, st')| | | | |] eqn:PT; cbn in P; try contradiction. destruct P as ((P1 & P2) & P3 & P4).
  assert (Pp : p = length pre). { unfold parse_text in PT. destruct (text_loop _ _ _ _ _) as [(d, s1)| | | | |]; cbn in PT; try discriminate. destruct (store s1 d [0]); cbn in PT; try discriminate. inversion PT. reflexivity. }
  subst p. exists st'. split; [reflexivity|]. split; [now apply frz_cstr|]. split; [apply P1|]. split; [apply P1|].
  assert (Ll : loc st' = (length pre + length src)%nat) by apply P1. assert (Lm : length (mem st') = Datatypes.S (length file)) by apply P1. split.
  - apply firstn_eq; [rewrite Lm; lia|]. intros i Hi. rewrite (f_below _ _ P2) by exact Hi. cbn. unfold file. rewrite <- app_assoc. now rewrite nth_error_app1.
  - rewrite (skipn_ext _ _ Lf (mem st') (file ++ [0])); [|rewrite Lm, Lf; reflexivity|]. 2: { intros i Hi. apply (s_rest _ _ _ _ P1). lia. }
    rewrite Ll. replace (Datatypes.S (length pre + length src)) with (length pre + Datatypes.S (length src))%nat by lia. rewrite skipn_plus, Sk. replace (Datatypes.S (length src)) with (length src + 1)%nat by lia. rewrite skipn_plus, skipn_app, skipn_all, Nat.sub_diag. reflexivity.
Qed.
Example C36_text_ex : denotes 34 (ascii_bytes "a&lt;b&#65;&#x20aC;&apos;") [97; 60; 98; 65; 8364; 39].
Proof.
  apply den_char; try lia. apply (den_named 34 (ascii_bytes "lt")); [cbn; auto|]. apply den_char; try lia.
  apply (den_dec 34 [54; 53]); [apply (dec_app [54] 53 6); [apply (dec_app [] 54 0); [constructor|lia]|lia]|unfold scalar; lia|].
  apply (den_hex 34 120 [50; 48; 97; 67]); [auto| |unfold scalar; lia|].
  { apply (hex_app [50; 48; 97] 67 522 12); [|unfold hexdigit; lia]. apply (hex_app [50; 48] 97 32 10); [|unfold hexdigit; lia]. apply (hex_app [50] 48 2 0); [|unfold hexdigit; lia]. apply (hex_app [] 50 0 2); [constructor|unfold hexdigit; lia]. }
  apply (den_named 34 (ascii_bytes "apos")); [cbn; auto 10|constructor].
Qed.
Example C36_text_run : match xml_parse 100 (ascii_bytes "<a>a&lt;b&#65;&#x20aC;&apos;</a>") with
  | Ok (_, n, st) => map (view (mem st)) n = [TElem None [97] None [] [TCdata [97; 60; 98; 65; 226; 130; 172; 39]]] | _ => False end.
Proof. vm_compute. reflexivity. Qed.

(** Numeric references are computed modulo 2^32: a number that is no character is accepted *)
Theorem C36_charref_refuted :
  match xml_parse 100 (ascii_bytes "<a>&#4294967361;</a>") with Ok (_, n, st) => map (view (mem st)) n = [TElem None [97] None [] [TCdata [65]]] | _ => False end.
Proof. vm_compute. reflexivity. Qed.
(** Text that is not ASCII may change, because decoding is wrong (see C22): U+0100 becomes U+0180 *)
Theorem C36_nonascii_refuted :
  match xml_parse 100 ([60; 97; 62] ++ utf8 256 ++ [60; 47; 97; 62]) with Ok (_, n, st) => map (view (mem st)) n = [TElem None [97] None [] [TCdata (utf8 384)]] | _ => False end.
Proof. vm_compute. reflexivity. Qed.

(** An independent grammar (Xml_spec2): whatever the parser accepts is a document of this grammar, and the tree is the document's *)
Lemma ascii_bytes_ok file : ascii_file file -> bytes file.
Proof. intros A c I. unfold ascii_file in A. rewrite Forall_forall in A. specialize (A c I). lia. Qed.
Lemma start_ok file : ascii_file file -> exists st, lex_next (length file) (mk_state 0 0 0 (file ++ [0])) = Ok st.
Proof.
  intros A. unfold lex_next, decode, iter_get, iter_advance. cbn [pos size error mem nxt]. rewrite Nat.sub_0_r. destruct file as [|c r]; [cbn; eauto|].
  inversion A; subst. cbn [length Nat.eqb app nth_error ubind]. replace (c =? 0) with false by lia. cbn [orb ubind]. replace (c <? 128) with true by lia. cbn. eauto.
Qed.
Theorem C36_sound : forall fuel file a n st, ascii_file file -> xml_parse fuel file = Ok (a, n, st) ->
  document file (map (view_attr (mem st)) a) (map (view (mem st)) n).
Proof.
  intros fuel f a n st A H. pose proof (parse_sim fuel f (ascii_bytes_ok _ A)) as S. rewrite H in S. unfold copy_parse in S. destruct (start_ok f A) as (s0 & E0). rewrite E0 in S. cbn [bind] in S.
  destruct (c_doc (length f) fuel s0) as [((a', n'), st')| | | | |] eqn:E; cbn in S; try contradiction. destruct S as (-> & ->).
  eapply doc_sound; [|exact E]. now apply at_start.
Qed.
(** And every document of the strict part of the grammar is accepted: in this part, names are not empty, spaces separate
    attributes, texts are maximal, the contents do not start with a space, and no comment is the last thing in an element *)
Theorem C36_complete : forall fuel file a n, ascii_file file -> sdocument file a n -> (length file + 3 <= fuel)%nat ->
  exists a' n' st, xml_parse fuel file = Ok (a', n', st) /\ map (view_attr (mem st)) a' = a /\ map (view (mem st)) n' = n.
Proof.
  intros fuel f a n A D L. pose proof (parse_sim fuel f (ascii_bytes_ok _ A)) as S. pose proof (parse_end fuel f (ascii_bytes_ok _ A) ltac:(lia)) as E. unfold copy_parse in S, E. destruct (start_ok f A) as (s0 & E0). rewrite E0 in S, E. cbn [bind] in S, E.
  destruct (doc_fwd (f ++ [0]) (length f) fuel f a n s0 (at_start f s0 A E0) D) as [F|(s1 & F & _)]; rewrite F in S, E; cbn in S, E; [congruence|].
  destruct (xml_parse fuel f) as [((a', n'), st)| | | | |]; cbn in S; try contradiction. destruct S as (S1 & S2). eauto 10.
Qed.
Definition ex2 : list Z := ascii_bytes "<p:a x='&lt;' xmlns:p='u'><!--c-->t<b/></p:a>".
Definition ex2_tree : list tnode := [TElem (Some [112]) [97] (Some [117]) [mk_tattr None [120] None (Some [60])] [TCdata [116]; TElem None [98] None [] []]].
Lemma sname1 c : 97 <= c <= 122 -> sname [c].
Proof. intros H. repeat split; [repeat constructor; unfold name_char; lia|unfold digit; lia|lia|lia|discriminate]. Qed.
Example C36_complete_ex : ascii_file ex2 /\ sdocument ex2 [] ex2_tree.
Proof.
  split; [repeat constructor|]. exists [], [], [], [], ex2, (mk_env [] None), []. split; [reflexivity|]. split; [constructor|]. split; [constructor|]. split; [constructor|]. split; [cbn; unfold spc; cbn; lia|]. split; [constructor|]. split; [reflexivity|].
  change ex2 with (ex2 ++ []). apply sct_elem; [|constructor].
  apply (sel_full _ (ascii_bytes "p:a") _ _ (ascii_bytes " x='&lt;' xmlns:p='u'") [(None, [120], Some [60]); (Some s_xmlns, [112], Some [117])] (mk_env [([112], Some [117])] None) [(None, [120], Some [60])] _ _ (ascii_bytes "<!--c-->t<b/>") _ []).
  - apply (sq_prefix [112] [97]); apply sname1; lia.
  - apply (sats_cons [32] (ascii_bytes "x='&lt;'") _ (ascii_bytes " xmlns:p='u'")); [repeat constructor|discriminate| |].
    { apply (sat_value [120] None [120] 39 (ascii_bytes "&lt;") [60]); [constructor; apply sname1; lia|auto|]. apply (dc_named 39 (ascii_bytes "lt")); [cbn; auto|constructor]. }
    apply (sats_cons [32] (ascii_bytes "xmlns:p='u'") _ []); [repeat constructor|discriminate| |constructor; constructor].
    apply (sat_value (ascii_bytes "xmlns:p") (Some s_xmlns) [112] 39 [117] [117]); [|auto|repeat constructor; discriminate].
    apply (sq_prefix s_xmlns [112]); [|apply sname1; lia]. repeat split; try discriminate; [repeat constructor; unfold name_char; lia|unfold digit; lia].
  - apply dl_other; [discriminate|intros (_ & H); discriminate|]. apply dl_prefix. constructor.
  - exists [117]. split; [reflexivity|constructor].
  - repeat constructor. exists None. split; reflexivity.
  - apply (sct_comment false _ [99] (ascii_bytes "t<b/>")); [|right; discriminate|].
    { intros x y H. destruct x as [|? [|? [|? ?]]]; cbn in H; discriminate. }
    apply (sct_text false _ [116] [116]); [discriminate|repeat constructor; discriminate|reflexivity|]. apply (sct_elem false _ (ascii_bytes "<b/>") _ []); [|constructor].
    apply (sel_empty _ [98] None [98] [] [] (mk_env [([112], Some [117])] None) []); repeat constructor; try discriminate; unfold name_char, digit; lia.
  - constructor.
Qed.
Example C36_sound_ex : ascii_file ex2 /\ exists a n st, xml_parse 100 ex2 = Ok (a, n, st).
Proof. split; [repeat constructor|]. vm_compute. eauto. Qed.
(** A comment directly in front of an end tag is not accepted: after the comment, the end tag is read as a start tag *)
Theorem C36_comment_refuted : forall fuel, (20 <= fuel)%nat ->
  xml_parse fuel (ascii_bytes "<a><!-- c --></a>") = Err /\ exists r, xml_parse fuel (ascii_bytes "<a><!-- c --> </a>") = Ok r.
Proof. intros fuel L. do 20 (destruct fuel as [|fuel]; [lia|]). split; vm_compute; eauto. Qed.

Print Assumptions C36_inplace.
Print Assumptions C36_terminates_partial.
Print Assumptions C36_terminates_refuted.
Print Assumptions C36_hang_tag.
Print Assumptions C36_hang_comment.
Print Assumptions C36_hang_attr.
Print Assumptions C36_null_refuted.
Print Assumptions C36_text.
Print Assumptions C36_charref_refuted.
Print Assumptions C36_nonascii_refuted.
Print Assumptions C36_sound.
Print Assumptions C36_complete.
Print Assumptions C36_comment_refuted.
