(** Property theorems for the bytes of saved files (C86 to C88).

    [saved_as x df d cs] (TextFacts6): saving the document [d] with the options [x] and
    the defaults [df], to a file or to a string, made the calls [cs], all accepted.
    [printed cs] (TextModel): the bytes libxml2 writes.  [reads bs ess]: expat, given
    the blocks [bs], reports the events [ess], one list for each block.
    [load_file], [load_str]: comps_parse_file and comps_parse_str on bytes. *)
From Coq Require Import NArith.
From Verif Require Import CStr CStrFacts HSListModel HSListFacts RTreeModel RTreeFacts RTreeFacts2 RTreeFacts3 RTreeFacts4 MRTreeModel MRTreeFacts MRTreeFacts2
  ObjModel ObjFacts ObjFacts2 Dec StrModel StrFacts DocModel DocFacts DocFacts2 SpecA SpecB SpecC PropertiesC SpecD SpecD2 PropertiesD SpecE ParseModel ParseFacts SpecF SpecF2 SpecF3 SpecF4
  XmlModel XmlFacts SpecG SpecG2 SpecG3 SpecG4 SpecG5 SpecG6 SpecG7 PropertiesG PropertiesG2 Utf8Facts TextModel TextFacts TextFacts2 TextFacts3 TextFacts4 TextFacts5 TextFacts6 TextFacts7.

(** * C86 *)
(** Every saved document in UTF-8 whose strings are made of XML characters, with a
    document type that can be written, is printed as XML characters, and an expat
    parser given these bytes in any blocks reads them: the tags with their
    attributes and the document type exactly, every text in pieces that make it
    up.  What the parser of libcomps makes of them is what it makes of the same
    calls with some white characters missing from the texts. *)
Theorem C86_bytes : forall x df d cs, saved_as x df d cs -> enc_str d = ! "UTF-8" -> doctype_ok d -> Forall xml_text (strs cs) ->
  exists b, printed cs = Some b /\ xml_text b /\
    (forall bs, concat bs = b -> exists ess, reads bs ess /\ heard_any [] cs (concat ess)) /\
    forall st o, exists cs' es, Forall2 (retext thinner) cs cs' /\ heard [] cs' es /\ load_file st b o = Some (parse_file false st (Some [(es, None)]) o).
Proof.
  intros x df d cs H1 H2 H3 H4. assert (Hp : printable x df d cs) by (split; auto). destruct (printable_bytes _ _ _ _ Hp) as (b & Hb & Hx & Hne).
  exists b. split; [exact Hb|]. split; [exact Hx|]. split.
  - intros bs E. destruct (read_any _ _ _ _ _ _ Hp Hb E) as (ess & R & K & _). eauto.
  - intros st o. assert (Ec : concat (cut_blocks BUFF_SIZE (length b) b) = b) by (apply cut_blocks_concat; [apply Nat.lt_0_succ|apply le_n]).
    destruct (read_any _ _ _ _ _ _ Hp Hb Ec) as (ess & [_ R] & _ & cs' & F & K). exists cs', (strip (concat ess)). split; [exact F|]. split; [exact K|].
    unfold load_file. rewrite R. cbn [option_map]. f_equal. destruct (feeds_ok ess) as [F1 F2]. apply parse_file_events; [exact F1|]. unfold feeds in F2. now rewrite F2, strip_strip.
Qed.
Print Assumptions C86_bytes.
(** Attributes survive byte by byte, also quotes, line breaks and tabs, whatever
    the text around; a saved call with an attribute is heard with it. *)
Theorem C86_attributes : forall n a, okname n -> okattrs a -> forall bs, concat bs = ! "<" ++ n ++ flat_map attr_bytes a ++ ! "/>" ->
  exists ess, r_blocks r0 bs = Some ess /\ concat ess = [EStart n a; EEnd n].
Proof.
  intros n a Hn [Ha Hd] bs E. destruct (calms_tag n a [] false false Hn Ha Hd (or_intror eq_refl)) as (m & Hm & C).
  assert (R : r_run r0 (flat_map block bs) = Some (mkR (MText []) [] true false, [EStart n a; EEnd n])).
  { refine (calms_run _ _ _ _ (flat_map block bs) _ ltac:(rewrite bytes_blocks; exact E)). cbn [list_ascii_of_string app].
    apply calms_cons with (st1 := mkR MOpen [] false false); [exact I|reflexivity|]. rewrite app_assoc. change [EStart n a; EEnd n] with ([] ++ [EStart n a; EEnd n]).
    eapply calms_app; [exact C|]. change (mkR m [] false false) with (in_mode m (mkR MOpen [] false false)).
    apply calms_cons with (st1 := in_mode (MEmpty n a) (mkR MOpen [] false false)); [now apply (tag_calm n a)|now apply tag_slash|].
    apply calms_step; [exact I|reflexivity|exact I]. }
  exact (blocks_run _ _ _ _ R eq_refl eq_refl eq_refl).
Qed.
Print Assumptions C86_attributes.
(** A document type whose public id has white space in any form is read with single
    spaces between the words. *)
Theorem C86_public_id : forall n p s, okname n -> Forall (fun c => pubid_char c = true) p -> quotable s ->
  exists w ws, dtd_bytes (Some n) (Some p) (Some s) = Some w /\ spaced p ws /\
    forall bs, concat bs = w ++ ! "<a/>" ->
      exists ess, r_blocks r0 bs = Some ess /\ concat ess = [EDoctype (Some n) (Some s) (Some (join (! " ") ws)); EStart (! "a") []; EEnd (! "a")].
Proof. exact pubid_read. Qed.
Print Assumptions C86_public_id.
Example C86_public_id_case : okname (! "comps") /\ Forall (fun c => pubid_char c = true) (! "  -//Red  Hat ") /\ quotable (! "c.dtd") /\
  spaced (! "  -//Red  Hat ") [! "-//Red"; ! "Hat"] /\ join (! " ") [! "-//Red"; ! "Hat"] = ! "-//Red Hat".
Proof.
  split; [split; [discriminate|repeat constructor]|]. split; [repeat constructor|]. split; [intros [H _]; cbn in H; intuition discriminate|]. split; [|reflexivity].
  apply (Sp_word (! "  ") (! "-//Red") (! "  Hat ")); [repeat constructor|discriminate|repeat constructor|right; do 2 eexists; split; reflexivity|].
  apply (Sp_word (! "  ") (! "Hat") (! " ")); [repeat constructor|discriminate|repeat constructor|right; do 2 eexists; split; reflexivity|].
  apply Sp_end. repeat constructor.
Qed.
(** Documents to show the hypotheses can be met: the one of C28, and one with
    characters to escape and a letter outside ASCII. *)
Definition cafe : str := S_ "caf" ++ ["195"%char; "169"%char] ++ S_ " <1>, <2> or R & ""D""".
Definition esc_doc : doc :=
  doc_of [OAddGroup (mkG (named_base "g" [str_p "name" "R & D"; (S_ "desc", PStr (Some cafe))]) [mkp "p" 0; mkp "q>=1" 1])].
Lemma cafe_xml : xml_text cafe.
Proof. apply xml_app; [now apply xml_ascii|]. apply xml_app; [exists [233%N]; split; [constructor; [unfold xml_char; lia|constructor]|reflexivity]|now apply xml_ascii]. Qed.
Definition plainb (s : str) : bool := forallb xml_byte s || streq s cafe.
Lemma plainb_xml ss : forallb plainb ss = true -> Forall xml_text ss.
Proof.
  intros H. apply Forall_forall. intros s Hs. rewrite forallb_forall in H. specialize (H s Hs). unfold plainb in H. apply orb_true_iff in H.
  destruct H as [H|H]; [now apply xml_ascii|]. apply streq_iff in H. subst s. exact cafe_xml.
Qed.
Definition str_of (d : doc) : wst := match comps2xml_str always_ok None None d w0 with Ok (w, _) => w | _ => w0 end.
Definition bytes_of (cs : list call) : str := match printed cs with Some b => b | None => [] end.
Lemma saved_some x d : comps2xml_f always_ok (S_ "f") true x None d w0 = Ok (saved_of x d, 0%Z) -> forallb (fun c => snd c) (w_calls (saved_of x d)) = true -> saved_as x None d (calls (saved_of x d)).
Proof. intros E H. left. exists always_ok, (S_ "f"), true, (saved_of x d), 0%Z. split; [exact E|]. split; [|reflexivity]. apply Forall_forall. now apply forallb_forall. Qed.
Lemma default_type d : d_name d = Some (Some default_doctype_name) -> d_pubid d = Some (Some default_doctype_pubid) -> d_sysid d = Some (Some default_doctype_sysid) -> doctype_ok d.
Proof.
  intros E1 E2 E3. unfold doctype_ok. rewrite E1, E2, E3. cbn [dtd_ok]. split; [apply oknameb_iff; vm_compute; reflexivity|]. split.
  - split; [apply Forall_forall; apply forallb_forall; vm_compute; reflexivity|vm_compute; reflexivity].
  - intros [H _]. apply existsb_eqb in H. vm_compute in H. discriminate.
Qed.
Example C86_case : (saved_as (Some with_arch) None rt_doc (calls (saved_of (Some with_arch) rt_doc)) /\ enc_str rt_doc = ! "UTF-8" /\ doctype_ok rt_doc /\
    Forall xml_text (strs (calls (saved_of (Some with_arch) rt_doc))) /\ Nat.ltb BUFF_SIZE (length (bytes_of (calls (saved_of (Some with_arch) rt_doc)))) = true) /\
  saved_as None None esc_doc (calls (saved_of None esc_doc)) /\ enc_str esc_doc = ! "UTF-8" /\ doctype_ok esc_doc /\ Forall xml_text (strs (calls (saved_of None esc_doc))).
Proof.
  split; [split; [apply saved_some; vm_compute; reflexivity|]; split; [vm_compute; reflexivity|]; split; [apply default_type; vm_compute; reflexivity|];
    split; [apply plainb_xml; vm_compute; reflexivity|vm_compute; reflexivity]|].
  split; [apply saved_some; vm_compute; reflexivity|]. split; [vm_compute; reflexivity|]. split; [apply default_type; vm_compute; reflexivity|]. apply plainb_xml; vm_compute; reflexivity.
Qed.

(** * C87 *)
(** The pieces in which expat reports a text given at once: the characters
    [<>&], CR and LF alone, what lies between them whole. *)
Inductive pieced : str -> list str -> Prop :=
| PC_nil : pieced [] []
| PC_cut c s ch : cutter c -> pieced s ch -> pieced (c :: s) ([c] :: ch)
| PC_run w s ch : w <> [] -> Forall (fun c => ~ cutter c) w -> right_edge s -> pieced s ch -> pieced (w ++ s) (w :: ch).
Theorem C87_pieces : forall s, pieced s (pieces s) /\ squeeze s = concat (filter (fun c => negb (forallb is_space c)) (pieces s)).
Proof.
  intros s. split; [|reflexivity]. unfold pieces.
  assert (H : forall s acc, Forall (fun c => ~ cutter c) acc -> pieced (acc ++ s) (chop acc (map Some s))); [|apply (H s []); constructor]. clear.
  induction s as [|c s IH]; intros acc Ha; cbn [map chop].
  - destruct acc; [constructor|]. apply PC_run; [discriminate|exact Ha|now left|constructor].
  - destruct (special c) eqn:Es.
    + apply cutter_special in Es. specialize (IH [] ltac:(constructor)). destruct acc as [|a acc]; [now apply PC_cut|]. cbn [left_over].
      apply (PC_run (a :: acc)); [discriminate|exact Ha|right; eauto|now apply PC_cut].
    + change (acc ++ c :: s) with (acc ++ [c] ++ s). rewrite app_assoc. apply IH. apply Forall_app. split; [exact Ha|]. constructor; [|constructor]. intros Hc. apply cutter_special in Hc. congruence.
Qed.
Print Assumptions C87_pieces.
(** A document saved to a string and loaded from it loads as the same calls with
    the blank pieces of texts left out; nothing else is changed. *)
Theorem C87_string_exact : forall x df d cs st o, saved_as x df d cs -> enc_str d = ! "UTF-8" -> doctype_ok d -> Forall xml_text (strs cs) ->
  exists b es, printed cs = Some b /\ heard [] (map squeezed cs) es /\ load_str st b o = Some (parse_str false st (es, None) o).
Proof.
  intros x df d cs st o H1 H2 H3 H4. assert (Hp : printable x df d cs) by (split; auto). destruct (printable_bytes _ _ _ _ Hp) as (b & Hb & _).
  destruct (str_exact _ _ _ _ _ st o Hp Hb) as (es & K & L). eauto.
Qed.
Print Assumptions C87_string_exact.
(** A text is unharmed exactly when no run of white characters fills the space
    between two cuts and no white character is a cut itself. *)
Theorem C87_unharmed : forall s, squeeze s = s <-> solid s.
Proof. exact squeeze_solid. Qed.
Print Assumptions C87_unharmed.
(** So a document in normal form whose texts are unharmed is loaded again from
    its string, with the same head and the same objects. *)
Theorem C87_string_round_partial : forall ac x df d w' en, docwf d -> parts_normal (opt_xopts x) (doc_parts d) ->
  comps2xml_str ac x df d w0 = Ok (w', tt) -> Forall (fun c => snd c = true) (w_calls w') ->
  enc_str d = ! "UTF-8" -> doctype_ok d -> Forall xml_text (strs (calls w')) -> Forall solid (texts_of (calls w')) ->
  exists b st' d', printed (calls w') = Some b /\ load_str (parsed_init en) b df = Some (Ok (st', 0%Z)) /\ ps_log st' = [] /\ ps_doc st' = PLive d' /\ docwf d' /\
    head_carried d d' en /\ parts_carried (opt_dopts df) (opt_xopts x) (doc_parts d) (doc_parts d').
Proof.
  intros ac x df d w' en Hw Hn E Ha He Hd Hx Hs. destruct (printable_bytes x df d (calls w')) as (b & Hb & _); [repeat split; auto; right; eauto|].
  destruct (str_round x df d (calls w') b en Hw Hn ltac:(eauto) He Hd Hx Hs Hb) as (st' & d' & H). exists b, st', d'. split; [exact Hb|exact H].
Qed.
Print Assumptions C87_string_round_partial.
Definition solidb (s : str) : bool := forallb heavy (pieces s).
Lemma solidb_ok ss : forallb solidb ss = true -> Forall solid ss.
Proof.
  intros H. apply Forall_forall. intros s Hs. rewrite forallb_forall in H. specialize (H s Hs). apply solid_iff. apply Forall_forall. intros c Hc. apply heavy_iff.
  unfold solidb in H. rewrite forallb_forall in H. now apply H.
Qed.
Example C87_case : docwf esc_doc /\ parts_normal (opt_xopts None) (doc_parts esc_doc) /\ comps2xml_str always_ok None None esc_doc w0 = Ok (str_of esc_doc, tt) /\
  Forall (fun c => snd c = true) (w_calls (str_of esc_doc)) /\ Forall xml_text (strs (calls (str_of esc_doc))) /\ Forall solid (texts_of (calls (str_of esc_doc))) /\
  In (S_ "R & D") (texts_of (calls (str_of esc_doc))) /\ In cafe (texts_of (calls (str_of esc_doc))).
Proof.
  assert (Hw : docwf esc_doc) by (apply dreach_wf, doc_of_ok; repeat constructor; apply named_base_ok).
  split; [exact Hw|]. split; [apply partsnb_normal; [exact Hw|vm_compute; reflexivity]|]. split; [vm_compute; reflexivity|].
  split; [apply Forall_forall; apply forallb_forall; vm_compute; reflexivity|]. split; [apply plainb_xml; vm_compute; reflexivity|]. split; [apply solidb_ok; vm_compute; reflexivity|].
  split; vm_compute; tauto.
Qed.
(** Otherwise white space is lost without a message: the space in "< >". *)
Definition gap_doc : doc := doc_of [OAddGroup (mkG (named_base "g" [str_p "name" "< >"; str_p "desc" "d"]) [mkp "p" 0])].
Theorem C87_space_refuted : exists d w' b st' d', dreach d /\ parts_normal (opt_xopts None) (doc_parts d) /\
  comps2xml_str always_ok None None d w0 = Ok (w', tt) /\ Forall (fun c => snd c = true) (w_calls w') /\ printed (calls w') = Some b /\
  load_str (parsed_init (so "UTF-8")) b None = Some (Ok (st', 0%Z)) /\ ps_log st' = [] /\ ps_doc st' = PLive d' /\
  map (prop_of "name") (pt_groups (doc_parts d)) = [Ok (Some (PStr (so "< >")))] /\
  map (prop_of "name") (pt_groups (doc_parts d')) = [Ok (Some (PStr (so "<>")))].
Proof.
  assert (Hd : dreach gap_doc) by (apply doc_of_ok; repeat constructor; apply named_base_ok).
  exists gap_doc, (str_of gap_doc), (bytes_of (calls (str_of gap_doc))). eexists _, _. split; [exact Hd|].
  split; [apply partsnb_normal; [now apply dreach_wf|vm_compute; reflexivity]|]. split; [vm_compute; reflexivity|].
  split; [apply Forall_forall; apply forallb_forall; vm_compute; reflexivity|]. split; [vm_compute; reflexivity|]. split; [vm_compute; reflexivity|].
  split; [vm_compute; reflexivity|]. split; [vm_compute; reflexivity|]. split; vm_compute; reflexivity.
Qed.
Print Assumptions C87_space_refuted.

(** * C88 *)
(** A file is read in blocks of 1024 bytes, and every end of a block is one more
    cut.  A document in normal form is loaded again from its file if in its texts
    white space touches no end and none of [<>&], no line is broken and no run of
    white space has 1021 characters. *)
Theorem C88_file_round_partial : forall ac name saved x df d w' r st, docwf d -> parts_normal (opt_xopts x) (doc_parts d) ->
  comps2xml_f ac name saved x df d w0 = Ok (w', r) -> Forall (fun c => snd c = true) (w_calls w') ->
  enc_str d = ! "UTF-8" -> doctype_ok d -> Forall xml_text (strs (calls w')) -> Forall (firm (BUFF_SIZE - 3)) (texts_of (calls w')) -> ready st ->
  exists b st' d', printed (calls w') = Some b /\ load_file st b df = Some (Ok (st', 0%Z)) /\ ps_log st' = [] /\ ps_doc st' = PLive d' /\ ready st' /\ docwf d' /\
    head_carried d d' (ps_enc st) /\ parts_carried (opt_dopts df) (opt_xopts x) (doc_parts d) (doc_parts d').
Proof.
  intros ac name saved x df d w' r st Hw Hn E Ha He Hd Hx Hf Hr. destruct (printable_bytes x df d (calls w')) as (b & Hb & _); [repeat split; auto; left; eauto 9|].
  destruct (file_round ac name saved x df d w' r b st (BUFF_SIZE - 3) Hw Hn E Ha He Hd Hx ltac:(vm_compute; reflexivity) Hf Hb Hr) as (st' & d' & H). exists b, st', d'. split; [exact Hb|exact H].
Qed.
Print Assumptions C88_file_round_partial.
(** Read in any blocks of at least [n + 3] bytes but the last. *)
Theorem C88_blocks : forall x df d cs n bs z, saved_as x df d cs -> enc_str d = ! "UTF-8" -> doctype_ok d -> Forall xml_text (strs cs) ->
  Forall (firm n) (texts_of cs) -> printed cs = Some (concat (bs ++ [z])) -> Forall (fun b => n + 3 <= length b) bs ->
  exists ess, reads (bs ++ [z]) ess /\ heard [] cs (concat ess).
Proof. intros x df d cs n bs z H1 H2 H3 H4 H5 H6 H7. exact (file_events _ _ _ _ _ _ _ _ (conj H1 (conj H2 (conj H3 H4))) H6 H5 eq_refl H7). Qed.
Print Assumptions C88_blocks.
(** A file of one block behaves as a string. *)
Theorem C88_small_file_partial : forall ac name saved x df d w' r st b, docwf d -> parts_normal (opt_xopts x) (doc_parts d) ->
  comps2xml_f ac name saved x df d w0 = Ok (w', r) -> Forall (fun c => snd c = true) (w_calls w') ->
  enc_str d = ! "UTF-8" -> doctype_ok d -> Forall xml_text (strs (calls w')) -> Forall solid (texts_of (calls w')) -> printed (calls w') = Some b -> length b <= BUFF_SIZE -> ready st ->
  exists st' d', load_file st b df = Some (Ok (st', 0%Z)) /\ ps_log st' = [] /\ ps_doc st' = PLive d' /\ ready st' /\ docwf d' /\
    head_carried d d' (ps_enc st) /\ parts_carried (opt_dopts df) (opt_xopts x) (doc_parts d) (doc_parts d').
Proof. intros ac name saved x df d w' r st b H1 H2 H3 H4 H5 H6 H7 H8 H9 H10 H11. now apply (small_round ac name saved x df d w' r b st). Qed.
Print Assumptions C88_small_file_partial.
Definition neatb (n : nat) (s : str) : bool :=
  (length s <=? n) && forallb (fun c => negb (special c)) s && match s with [] => true | c :: _ => negb (is_space c) && negb (is_space (last s c)) end.
Lemma neatb_ok n ss : forallb (neatb n) ss = true -> Forall (firm n) ss.
Proof.
  intros H. apply Forall_forall. intros s Hs. rewrite forallb_forall in H. specialize (H s Hs). apply neat_firm. unfold neatb in H. rewrite !andb_true_iff in H. destruct H as ((H1 & H2) & H3).
  apply Nat.leb_le in H1. split; [exact H1|]. split.
  - intros c Hc Hk. rewrite forallb_forall in H2. specialize (H2 c Hc). apply cutter_special in Hk. rewrite Hk in H2. discriminate.
  - assert (W : forall c, negb (is_space c) = true -> ~ white c).
    { intros c Hc Hw. assert (Hb : blank [c]) by now constructor. apply blank_iff in Hb. cbn in Hb. rewrite andb_true_r in Hb. rewrite Hb in Hc. discriminate. }
    split; intros c t ->.
    + apply andb_true_iff in H3. now apply W.
    + apply W. destruct (t ++ [c]) as [|y l] eqn:El; [destruct t; discriminate|]. rewrite <- El in H3. rewrite last_last in H3. now apply andb_true_iff in H3.
Qed.
Example C88_case : docwf rt_doc /\ parts_normal with_arch (doc_parts rt_doc) /\
  comps2xml_f always_ok (S_ "f") true (Some with_arch) None rt_doc w0 = Ok (saved_of (Some with_arch) rt_doc, 0%Z) /\
  Forall (fun c => snd c = true) (w_calls (saved_of (Some with_arch) rt_doc)) /\ Forall (firm (BUFF_SIZE - 3)) (texts_of (calls (saved_of (Some with_arch) rt_doc))) /\
  In (S_ "some tools") (texts_of (calls (saved_of (Some with_arch) rt_doc))) /\ ready (parsed_init (so "UTF-8")) /\
  docwf esc_doc /\ parts_normal (opt_xopts None) (doc_parts esc_doc) /\ Forall solid (texts_of (calls (saved_of None esc_doc))) /\
  Nat.leb (length (bytes_of (calls (saved_of None esc_doc)))) BUFF_SIZE = true /\ printed (calls (saved_of None esc_doc)) = Some (bytes_of (calls (saved_of None esc_doc))).
Proof.
  assert (Hr : docwf rt_doc) by (apply dreach_wf, rt_doc_ok). assert (Hw : docwf esc_doc) by (apply dreach_wf, doc_of_ok; repeat constructor; apply named_base_ok).
  split; [exact Hr|]. split; [apply partsnb_normal; [exact Hr|vm_compute; reflexivity]|]. split; [vm_compute; reflexivity|].
  split; [apply Forall_forall; apply forallb_forall; vm_compute; reflexivity|]. split; [apply neatb_ok; vm_compute; reflexivity|]. split; [vm_compute; tauto|].
  split; [split; [reflexivity|discriminate]|]. split; [exact Hw|]. split; [apply partsnb_normal; [exact Hw|vm_compute; reflexivity]|].
  split; [apply solidb_ok; vm_compute; reflexivity|]. split; vm_compute; reflexivity.
Qed.
(** With white space next to one of [<>&] the contents of a loaded file depend on
    where the blocks end: the text "...R & D" is loaded as "...R &D" when the 1024th
    byte is the space, though the same bytes load correctly as a string. *)
Definition pad_text : str := repeat "x"%char 833 ++ S_ "R & D".
Definition pad_lost : str := repeat "x"%char 833 ++ S_ "R &D".
Definition pad_doc : doc := doc_of [OAddGroup (mkG (named_base "g" [str_p "name" "n"; (S_ "desc", PStr (Some pad_text))]) [mkp "p" 0])].
Theorem C88_block_boundary_refuted : exists d w' b st' d' st2 d2, dreach d /\ parts_normal (opt_xopts None) (doc_parts d) /\
  comps2xml_f always_ok (S_ "f") true None None d w0 = Ok (w', 0%Z) /\ Forall (fun c => snd c = true) (w_calls w') /\ Forall solid (texts_of (calls w')) /\ printed (calls w') = Some b /\
  map (prop_of "desc") (pt_groups (doc_parts d)) = [Ok (Some (PStr (Some pad_text)))] /\
  load_file (parsed_init (so "UTF-8")) b None = Some (Ok (st', 0%Z)) /\ ps_log st' = [] /\ ps_doc st' = PLive d' /\
  map (prop_of "desc") (pt_groups (doc_parts d')) = [Ok (Some (PStr (Some pad_lost)))] /\
  load_str (parsed_init (so "UTF-8")) b None = Some (Ok (st2, 0%Z)) /\ ps_doc st2 = PLive d2 /\
  map (prop_of "desc") (pt_groups (doc_parts d2)) = [Ok (Some (PStr (Some pad_text)))].
Proof.
  assert (Hd : dreach pad_doc) by (apply doc_of_ok; repeat constructor; apply named_base_ok).
  exists pad_doc, (saved_of None pad_doc), (bytes_of (calls (saved_of None pad_doc))). eexists _, _, _, _. split; [exact Hd|].
  split; [apply partsnb_normal; [now apply dreach_wf|vm_compute; reflexivity]|]. split; [vm_compute; reflexivity|].
  split; [apply Forall_forall; apply forallb_forall; vm_compute; reflexivity|]. split; [apply solidb_ok; vm_compute; reflexivity|].
  split; [vm_compute; reflexivity|]. split; [vm_compute; reflexivity|]. split; [vm_compute; reflexivity|]. split; [vm_compute; reflexivity|]. split; [vm_compute; reflexivity|].
  split; [vm_compute; reflexivity|]. split; [vm_compute; reflexivity|]. split; vm_compute; reflexivity.
Qed.
Print Assumptions C88_block_boundary_refuted.
