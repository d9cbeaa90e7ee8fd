(** C65-C71: the Python document object Comps. *)
From Verif Require Import CStr CStrFacts HSListModel HSListFacts SetModel RTreeModel RTreeFacts RTreeFacts2 RTreeFacts3 RTreeFacts4 MRTreeModel MRTreeFacts
  ObjModel ObjFacts ObjFacts2 SpecA SpecB SpecC DocModel DocFacts DocFacts2 SpecD SpecD2 ParseModel SpecF SpecF2 SpecF3 SpecF4 XmlModel SpecG ValidateModel ValidateFacts SpecE PyObjModel PyDictModel
  PyDocModel PyDocFacts PyDocFacts2 PyDocFacts3 PyDocFacts4 PyDocFacts5 PyDocFacts6 PyDocFacts7.
From Verif Require PropertiesF.

Section Doc.
Variable strict : bool.
Variable accepts : list (call * bool) -> call -> bool.
Variable text : logitem -> str.
Notation run := (run_docs strict accepts text).
Notation step := (step_doc strict accepts text).

(** * C65: an attribute of a Comps object is its document's part *)
(** Any history of calls without clear: the attribute shows what the document
    holds, and a change made through it is seen in the document. *)
Theorem C65_attribute_partial : forall ops w outs d p, run start ops = Ok (w, outs) -> d < length (w_docs w) ->
  (forall op, In op ops -> is_clear op = false) ->
  exists w' wr v, get_attr w d p = Ok (w', wr) /\ content w' wr = Some v /\ doc_shows w d p v /\
    (forall d' q u, doc_shows w' d' q u <-> doc_shows w d' q u) /\
    forall u, has_type (part_type p) u = true -> exists w'', step w' (OEdit wr u) = Ok (w'', DRet VNone) /\
      content w'' wr = Some u /\ doc_shows w'' d p u.
Proof.
  intros ops w outs d p R L N. exact (attr_reads strict accepts text ops w outs d p R L (no_clear_st ops outs d p N)).
Qed.
(** With clear: exactly the attributes that were read or assigned before the
    clear, and not assigned or loaded again, are cut off. *)
Theorem C65_attached_partial : forall ops w outs d p, run start ops = Ok (w, outs) -> d < length (w_docs w) ->
  st_run d p ops outs <> Detached ->
  exists w' wr v, get_attr w d p = Ok (w', wr) /\ content w' wr = Some v /\ doc_shows w d p v /\
    (forall d' q u, doc_shows w' d' q u <-> doc_shows w d' q u) /\
    forall u, has_type (part_type p) u = true -> exists w'', step w' (OEdit wr u) = Ok (w'', DRet VNone) /\
      content w'' wr = Some u /\ doc_shows w'' d p u.
Proof. exact (attr_reads strict accepts text). Qed.
Theorem C65_detached_refuted : forall ops w outs d p, run start ops = Ok (w, outs) -> st_run d p ops outs = Detached ->
  exists wr, get_attr w d p = Ok (w, wr) /\
    forall u w'', step w (OEdit wr u) = Ok (w'', DRet VNone) -> content w'' wr = Some u /\ forall v, doc_shows w'' d p v <-> doc_shows w d p v.
Proof. exact (attr_detached strict accepts text). Qed.
(** clear empties the document, and only the document. *)
Theorem C65_clear : forall ops w outs d x, run start ops = Ok (w, outs) -> nth_error (w_docs w) d = Some x ->
  exists w' y, step w (OClear d) = Ok (w', DRet VNone) /\ nth_error (w_docs w') d = Some y /\ pd_enc y = pd_enc x /\ pd_log y = [] /\
    (forall p v, doc_shows w' d p v <-> v = empty_of (part_type p)) /\
    (forall d' p v, d' <> d -> (doc_shows w' d' p v <-> doc_shows w d' p v)) /\
    (forall wr, content w' wr = content w wr).
Proof. intros ops w outs d x R X. destruct (history strict accepts text _ _ _ R) as [I _]. exact (clear_shows w d x I X). Qed.

(** * C66: assigning to an attribute *)
Theorem C66_assign : forall ops w outs d p wr l, run start ops = Ok (w, outs) -> d < length (w_docs w) ->
  nth_error (w_wraps w) wr = Some (part_type p, l) ->
  exists w', step w (OSet d p (AWrap wr)) = Ok (w', DRet VNone) /\ get_attr w' d p = Ok (w', wr) /\
    (forall wr', content w' wr' = content w wr') /\
    (forall v, doc_shows w' d p v <-> content w wr = Some v) /\
    (forall d' q v, d' <> d \/ q <> p -> (doc_shows w' d' q v <-> doc_shows w d' q v)).
Proof. intros ops w outs d p wr l R. destruct (history strict accepts text _ _ _ R) as [I _]. exact (assign_ok w d p wr l I). Qed.
Theorem C66_refused : forall w d p, d < length (w_docs w) ->
  step w (OSet d p AForeign) = Ok (w, DRaise EType) /\
  forall wr t l, nth_error (w_wraps w) wr = Some (t, l) -> t <> part_type p -> step w (OSet d p (AWrap wr)) = Ok (w, DRaise EType).
Proof. intros w d p L. split; [exact (assign_bad w d p AForeign L)|]. intros wr. exact (assign_bad w d p (AWrap wr) L). Qed.
Theorem C66_delete_refuted : forall w d p, d < length (w_docs w) -> step w (OSet d p ADel) = UB.
Proof. intros w d p L. exact (assign_bad w d p ADel L). Qed.

(** * C67: loading *)
(** fromxml_str: all or nothing. *)
Theorem C67_text : forall ops w outs d f o w' r, run start ops = Ok (w, outs) -> step w (OLoadStr d f o) = Ok (w', r) ->
  match def_arg o with
  | None => w' = w /\ r = DRaise EType
  | Some (df, pending) =>
      (snd f <> None /\ w' = w /\ r = DRaise EParser) \/
      (snd f = None /\ exists st c, parse_str strict (parsed_init (Some utf8_name)) f df = Ok (st, c) /\
         (c = 0 /\ ps_log st = [] \/ c = 1 /\ ps_log st <> [])%Z /\
         r = (if pending then DRetSet (VNum c) else DRet (VNum c)) /\ loads w d o st w')
  end.
Proof. intros ops w outs d f o w' r R. destruct (history strict accepts text _ _ _ R) as [I _]. exact (load_str_cases strict w d f o w' r I). Qed.
(** fromxml_f: an unreadable text raises and still replaces the document. *)
Theorem C67_file_refuted : forall ops w outs d f o w' r, run start ops = Ok (w, outs) -> step w (OLoadFile d f o) = Ok (w', r) ->
  match def_arg o, f with
  | None, _ => w' = w /\ r = DRaise EType
  | Some _, None => w' = w /\ r = DRaise EIO
  | Some (df, pending), Some fs =>
      exists st c, parse_file strict (parsed_init (Some utf8_name)) (Some fs) df = Ok (st, c) /\ loads w d o st w' /\
        ((failing fs /\ r = DRaise EParser /\ exists e, In e (ps_log st) /\ pe_warn e = false) \/
         (~ failing fs /\ (c = 0 /\ ps_log st = [] \/ c = 1 /\ ps_log st <> [])%Z /\
          r = if pending then DRetSet (VNum c) else DRet (VNum c)))
  end.
Proof. intros ops w outs d f o w' r R. destruct (history strict accepts text _ _ _ R) as [I _]. exact (load_file_cases strict w d f o w' r I). Qed.
(** A file that can be read is its text, however it is cut into blocks. *)
Theorem C67_file_is_text : forall w d fs o, ~ failing fs ->
  step w (OLoadFile d (Some fs) o) = step w (OLoadStr d (concat (map fst fs), None) o).
Proof. exact (file_is_text strict). Qed.
(** get_last_log and get_last_errors after loading: the texts of the parser's entries in
    order, and of those that are not warnings. *)
Theorem C67_messages : forall w d o st w' x, loads w d o st w' -> nth_error (w_docs w') d = Some x -> Forall (fun e => utf8 (text (FromParser e)) = true) (ps_log st) ->
  last_log text x = Ok (map (fun e => text (FromParser e)) (ps_log st)) /\
  last_errors text x = Ok (map (fun e => text (FromParser e)) (filter (fun e => negb (pe_warn e)) (ps_log st))).
Proof. exact (loaded_messages text). Qed.

(** * C70: documents and attributes are independent *)
Theorem C70_independent_partial : forall ops w outs d p w1 wr u w2 r, run start ops = Ok (w, outs) -> (forall op, In op ops -> is_set op = false) ->
  get_attr w d p = Ok (w1, wr) -> step w1 (OEdit wr u) = Ok (w2, r) ->
  forall d' q v, d' <> d \/ q <> p -> (doc_shows w2 d' q v <-> doc_shows w d' q v).
Proof. exact (edits_private strict accepts text). Qed.
End Doc.
Print Assumptions C65_attribute_partial.
Print Assumptions C65_attached_partial.
Print Assumptions C65_detached_refuted.
Print Assumptions C65_clear.
Print Assumptions C66_assign.
Print Assumptions C66_refused.
Print Assumptions C66_delete_refuted.
Print Assumptions C67_text.
Print Assumptions C67_file_refuted.
Print Assumptions C67_file_is_text.
Print Assumptions C67_messages.
Print Assumptions C70_independent_partial.
(** Calls on a history of calls with texts the parser does not stumble over
    (SpecF: [safe]) never go wrong; deleting an attribute and saving are left out
    (see C66_delete_refuted and C69_defined). *)
Theorem C67_calls_defined : forall accepts text ops w outs op, run_docs false accepts text start ops = Ok (w, outs) -> Forall op_fine ops ->
  op_fine op -> op_there w op -> exists w' r, step_doc false accepts text w op = Ok (w', r).
Proof. exact calls_defined. Qed.
Print Assumptions C67_calls_defined.

Local Open Scope string_scope. Local Open Scope list_scope.
Definition yes : list (call * bool) -> call -> bool := fun _ _ => true.
Definition same_text : logitem -> str := fun _ => S_ "m".
Definition a_group (s : string) : group :=
  match base_set_str base_create (S_ "id") (Some (S_ s)) with Ok b => mkG b [] | _ => group_create end.
Lemma a_group_ok s : gok (a_group s).
Proof.
  assert (C : gok group_create) by (split; [apply R_create|split; apply R_create]).
  unfold a_group. destruct (base_set_str base_create (S_ "id") (Some (S_ s))) as [b| |] eqn:E; try exact C.
  unfold base_set_str in E. apply bind_ok in E. destruct E as (t & E & [= <-]). split; [|split; apply R_create].
  apply (R_set _ _ _ _ _ (R_create _) E).
Qed.
Notation run_f := (run_docs false yes same_text).
Notation step_f := (step_doc false yes same_text).
Notation GR l := (DGroups l).
Definition read_edit : list dop := [ONew None; OGet 0 Groups; OEdit 0 (GR [a_group "a"])].
Example C65_case : exists w outs, run_f start read_edit = Ok (w, outs) /\ st_run 0 Groups read_edit outs = Attached /\
  doc_shows w 0 Groups (GR [a_group "a"]) /\ get_attr w 0 Groups = Ok (w, 0) /\ content w 0 = Some (GR [a_group "a"]).
Proof.
  do 2 eexists. split; [vm_compute; reflexivity|]. split; [reflexivity|]. split; [|split; reflexivity].
  do 2 eexists. split; [reflexivity|]. split; vm_compute; reflexivity.
Qed.
(** c.groups.append(g); c.clear(): c.groups still shows g, and what is appended to
    it is never written. *)
Theorem C65_clear_refuted : exists w outs, run_f start (read_edit ++ [OClear 0]) = Ok (w, outs) /\
  doc_shows w 0 Groups (GR []) /\ get_attr w 0 Groups = Ok (w, 0) /\ content w 0 = Some (GR [a_group "a"]) /\
  exists w', step_f w (OEdit 0 (GR [a_group "a"; a_group "b"])) = Ok (w', DRet VNone) /\ doc_shows w' 0 Groups (GR []).
Proof.
  do 2 eexists. split; [vm_compute; reflexivity|]. split; [|split; [reflexivity|split; [reflexivity|]]].
  - do 2 eexists. split; [reflexivity|]. split; vm_compute; reflexivity.
  - eexists. split; [vm_compute; reflexivity|]. do 2 eexists. split; [reflexivity|]. split; vm_compute; reflexivity.
Qed.
Print Assumptions C65_clear_refuted.
Example C66_case : exists w outs, run_f start [ONew None; ONew None; OGet 0 Groups; OEdit 0 (GR [a_group "a"]); OSet 1 Groups (AWrap 0)] = Ok (w, outs) /\
  doc_shows w 1 Groups (GR [a_group "a"]) /\ get_attr w 1 Groups = Ok (w, 0) /\
  step_f w (OSet 1 Categories (AWrap 0)) = Ok (w, DRaise EType) /\ step_f w (OSet 1 Groups ADel) = UB.
Proof.
  do 2 eexists. split; [vm_compute; reflexivity|]. split; [|split; [reflexivity|split; reflexivity]].
  do 2 eexists. split; [reflexivity|]. split; vm_compute; reflexivity.
Qed.
(** The two documents now share the list. *)
Theorem C70_shared_refuted : exists w outs w1 w2,
  run_f start [ONew None; ONew None; OGet 0 Groups; OSet 1 Groups (AWrap 0)] = Ok (w, outs) /\ doc_shows w 1 Groups (GR []) /\
  get_attr w 0 Groups = Ok (w1, 0) /\ step_f w1 (OEdit 0 (GR [a_group "a"])) = Ok (w2, DRet VNone) /\ doc_shows w2 1 Groups (GR [a_group "a"]).
Proof.
  do 4 eexists. split; [vm_compute; reflexivity|]. split; [|split; [reflexivity|split; [reflexivity|]]].
  - do 2 eexists. split; [reflexivity|]. split; vm_compute; reflexivity.
  - do 2 eexists. split; [reflexivity|]. split; vm_compute; reflexivity.
Qed.
Print Assumptions C70_shared_refuted.
(** An unreadable file empties the document; the same text in a str does not. *)
Definition bad_file : list feed := [([EStart (S_ "comps") []], Some (S_ "mismatched tag"))].
Theorem C67_emptied_refuted : exists w outs w1, run_f start read_edit = Ok (w, outs) /\ doc_shows w 0 Groups (GR [a_group "a"]) /\
  step_f w (OLoadFile 0 (Some bad_file) NoOpt) = Ok (w1, DRaise EParser) /\ doc_shows w1 0 Groups (GR []) /\
  step_f w (OLoadStr 0 ([EStart (S_ "comps") []], Some (S_ "mismatched tag")) NoOpt) = Ok (w, DRaise EParser).
Proof.
  do 3 eexists. split; [vm_compute; reflexivity|]. split; [|split; [vm_compute; reflexivity|split; [|vm_compute; reflexivity]]].
  - do 2 eexists. split; [reflexivity|]. split; vm_compute; reflexivity.
  - do 2 eexists. split; [reflexivity|]. split; vm_compute; reflexivity.
Qed.
Print Assumptions C67_emptied_refuted.
Definition good_text : list event :=
  [EStart (S_ "comps") []; EStart (S_ "group") []; EStart (S_ "id") []; EChars (S_ "a"); EEnd (S_ "id"); EEnd (S_ "group"); EEnd (S_ "comps")].
Example C67_case : exists w outs, run_f start [ONew None; OLoadStr 0 (good_text, None) NoOpt] = Ok (w, outs) /\ outs = [DRet (VDoc 0); DRet (VNum 1)] /\
  (exists g, doc_shows w 0 Groups (GR [g]) /\ base_get (g_base g) (S_ "id") = Ok (Some (PStr (Some (S_ "a"))))) /\
  exists o', safe [] [] good_text o'.
Proof.
  do 2 eexists. split; [vm_compute; reflexivity|]. split; [reflexivity|]. split.
  - eexists. split; [do 2 eexists; split; [reflexivity|]; split; vm_compute; reflexivity|vm_compute; reflexivity].
  - apply PropertiesF.safe_b_sound. vm_compute. reflexivity.
Qed.
(** An attribute the parser does not know is a warning. *)
Definition odd_text : list event := EStart (S_ "comps") [(S_ "x", S_ "y")] :: tl good_text.
Example C67_messages_case : exists w outs x, run_f start [ONew None; OLoadStr 0 (odd_text, None) NoOpt] = Ok (w, outs) /\ nth_error (w_docs w) 0 = Some x /\
  last_log same_text x = Ok [S_ "m"; S_ "m"; S_ "m"] /\ last_errors same_text x = Ok [S_ "m"; S_ "m"].
Proof. do 3 eexists. split; [vm_compute; reflexivity|]. split; [reflexivity|]. split; vm_compute; reflexivity. Qed.

(** * C68: options *)
(** Every option listed, and no other, is taken over if its value is True or
    False, and is at its default otherwise. *)
Theorem C68_xml_options_partial : forall l, NoDup (map fst l) -> forall k f, In (k, f) xml_table ->
  (forall b, In (k, PyBool b) l -> f (xml_opts l) = b) /\ ((forall b, ~ In (k, PyBool b) l) -> f (xml_opts l) = f default_xopts).
Proof. intros l N k f. exact (xml_opts_law l k f N). Qed.
Print Assumptions C68_xml_options_partial.
Theorem C68_nothing_else : forall l m, NoDup (map fst l) -> NoDup (map fst m) ->
  (forall k b, In k (map fst xml_table) -> (In (k, PyBool b) l <-> In (k, PyBool b) m)) -> xml_opts l = xml_opts m.
Proof. exact xml_opts_only. Qed.
Print Assumptions C68_nothing_else.
Theorem C68_def_options : forall l, NoDup (map fst l) -> forall k f, In (k, f) def_table ->
  (forall b, In (k, PyBool b) l -> f (fst (def_opts l)) = b) /\
  ((forall b, ~ In (k, PyBool b) l) -> f (fst (def_opts l)) = f default_dopts).
Proof. intros l N k f. exact (def_opts_law l k f N). Qed.
Print Assumptions C68_def_options.
(** The type of packages: a number of one of the four types, or the default; the
    flag is raised exactly for what is no number of the C type long. *)
Theorem C68_pkgtype : forall l, NoDup (map fst l) ->
  In (o_pkgtype (fst (def_opts l))) pkgtypes /\
  (forall v z, In (pkgtype_key, v) l -> number_of v z -> In z pkgtypes -> o_pkgtype (fst (def_opts l)) = z) /\
  ((forall v z, In (pkgtype_key, v) l -> number_of v z -> ~ In z pkgtypes) -> o_pkgtype (fst (def_opts l)) = o_pkgtype default_dopts) /\
  (snd (def_opts l) = true <-> exists v, In (pkgtype_key, v) l /\ forall z, number_of v z -> ~ fits_long z).
Proof. exact pkgtype_law. Qed.
Print Assumptions C68_pkgtype.
(** Options that are no dictionary: loading and saving fail with TypeError and
    change nothing; saving with dictionaries or without options never fails so. *)
Theorem C68_no_dictionary : forall strict accepts text w op w' r, step_doc strict accepts text w op = Ok (w', r) ->
  match op with
  | OSaveFile _ _ _ x o | OSaveStr _ x o => (x = OptOther \/ o = OptOther -> w' = w) /\ (x = OptOther \/ o = OptOther <-> r = DRaise EType)
  | OLoadFile _ _ o | OLoadStr _ _ o => (o = OptOther -> w' = w) /\ (o = OptOther <-> r = DRaise EType)
  | _ => True
  end.
Proof. exact no_dictionary. Qed.
Print Assumptions C68_no_dictionary.
(** libcomps.xml_default() does not give the defaults; three of its keys are
    not options, and one option is not among its keys. *)
Theorem C68_xml_default_refuted : xml_opts xml_default <> default_xopts /\
  (forall k, In k (map S_ ["empty_langpacks"; "empty_blacklist"; "empty_whiteout"]) -> In k (map fst xml_default) /\ ~ In k (map fst xml_table)) /\
  In (S_ "arch_output") (map fst xml_table) /\ ~ In (S_ "arch_output") (map fst xml_default).
Proof.
  split; [|split; [|split]].
  - vm_compute. discriminate.
  - intros k H. cbn [map In] in H. destruct H as [<-|[<-|[<-|[]]]]; (split; vm_compute; [tauto|intuition discriminate]).
  - vm_compute. tauto.
  - vm_compute. intuition discriminate.
Qed.
Print Assumptions C68_xml_default_refuted.
(** What it gives: every option is on, but for arch_output, which is off. *)
Theorem C68_xml_default : forall k f, In (k, f) xml_table -> f (xml_opts xml_default) = if list_eq_dec Ascii.ascii_dec k (S_ "arch_output") then false else true.
Proof. intros k f H. cbn [xml_table In] in H. repeat (destruct H as [[= <- <-]|H]; [vm_compute; reflexivity|]). destruct H. Qed.
Print Assumptions C68_xml_default.
(** A package type that is no int: the document is loaded or saved, and the call
    fails with a SystemError. *)
Theorem C68_pkgtype_refuted : let o := OptDict [(pkgtype_key, PyText (S_ "mandatory"))] in
  exists w outs w1 w2 ts, run_f start read_edit = Ok (w, outs) /\
  step_f w (OLoadStr 0 (good_text, None) o) = Ok (w1, DRetSet (VNum 1)) /\
  step_f w (OSaveFile 0 (S_ "f") true NoOpt o) = Ok (w2, DRetSet (VTexts ts)).
Proof. cbv zeta. do 5 eexists. split; [vm_compute; reflexivity|]. split; vm_compute; reflexivity. Qed.
Print Assumptions C68_pkgtype_refuted.
Example C68_case : let l := [(S_ "arch_output", PyBool true); (S_ "empty_groups", PyInt 0); (pkgtype_key, PyInt PK_OPTIONAL); (S_ "other", PyNone)] in
  NoDup (map fst l) /\ x_arch (xml_opts l) = true /\ x_empty_groups (xml_opts l) = x_empty_groups default_xopts /\
  o_pkgtype (fst (def_opts l)) = PK_OPTIONAL /\ snd (def_opts l) = false /\ o_pkgtype default_dopts <> PK_OPTIONAL /\ x_arch default_xopts = false.
Proof.
  cbv zeta. split; [repeat constructor; cbn; intuition discriminate|]. repeat split; try reflexivity. discriminate.
Qed.

(** * C69: saving *)
(** toxml_f writes what the library's comps2xml_f writes, keeps the log, and
    returns its texts. *)
Theorem C69_file_partial : forall strict accepts text ops w outs d fname saved x o w' r, run_docs strict accepts text start ops = Ok (w, outs) ->
  step_doc strict accepts text w (OSaveFile d fname saved x o) = Ok (w', r) ->
  match xml_arg x, def_arg o with
  | Some xo, Some (df, pending) =>
      exists y n out c y', nth_error (w_docs w) d = Some y /\ view w y = Ok n /\
        comps2xml_f accepts fname saved xo df (mkDoc (d_objs n) (named (d_enc n)) (d_name n) (d_sysid n) (d_pubid n)) (mkW [] []) = Ok (out, c) /\
        w_docs w' = set_at (w_docs w) d y' /\ pd_log y' = map FromWriter (w_log out) /\ pd_enc y' = named (pd_enc y) /\
        last_log text y' = Ok (map text (pd_log y')) /\ last_errors text y' = last_log text y' /\
        r = (if pending || (c =? -1)%Z then DRetSet (VTexts (map text (pd_log y'))) else DRet (VTexts (map text (pd_log y')))) /\
        (forall d' p v, doc_shows w' d' p v <-> doc_shows w d' p v)
  | _, _ => w' = w /\ r = DRaise EType
  end.
Proof.
  intros strict accepts text ops w outs d fname saved x o w' r R. destruct (history strict accepts text _ _ _ R) as [I _].
  exact (save_file_result accepts text w d fname saved x o w' r I).
Qed.
Print Assumptions C69_file_partial.
(** A writer that takes everything: the list names the objects left out; the call
    fails with a SystemError exactly if the option was bad, or if the number of
    the objects left out is 255 modulo 256. *)
Theorem C69_messages_refuted : forall ac text, (forall h c, ac h c = true) -> forall ops w outs d fname x o w' r y n,
  run_docs false ac text start ops = Ok (w, outs) -> Forall op_fine ops ->
  nth_error (w_docs w) d = Some y -> view w y = Ok n ->
  step_doc false ac text w (OSaveFile d fname true x o) = Ok (w', r) -> r <> DRaise EType ->
  exists xo df pending ig ic ie, xml_arg x = Some xo /\ def_arg o = Some (df, pending) /\
    ids_left (group_left_out (opt_xopts xo)) g_base (pt_groups (doc_parts n)) ig /\
    ids_left (cat_left_out (opt_xopts xo)) c_base (pt_cats (doc_parts n)) ic /\
    ids_left (env_left_out (opt_xopts xo)) e_base (pt_envs (doc_parts n)) ie /\
    let ts := map (fun v => text (FromWriter (E_PKGLIST_EMPTY, [v]))) (ig ++ ic ++ ie) in
    (pending = false /\ length ts mod 256 <> 255 -> r = DRet (VTexts ts)) /\
    (pending = true \/ length ts mod 256 = 255 -> r = DRetSet (VTexts ts)).
Proof.
  intros ac text H ops w outs d fname x o w' r y n R F. destruct (run_sound ac text ops start w outs inv_start (Forall_nil _) F R) as [I S].
  exact (save_messages ac H text w d fname x o w' r y n I S).
Qed.
Print Assumptions C69_messages_refuted.
(** A file that cannot be written: no exception; one more message. *)
Theorem C69_unwritten_refuted : forall accepts text w d fname x o w' ts, save_file accepts text w d fname true x o = Ok (w', DRet (VTexts ts)) ->
  utf8 (text (not_written fname)) = true ->
  exists w2, save_file accepts text w d fname false x o = Ok (w2, DRet (VTexts (ts ++ [text (not_written fname)]))).
Proof. exact save_unwritten. Qed.
Print Assumptions C69_unwritten_refuted.
(** toxml_str: the log of the document grows. *)
Theorem C69_text_partial : forall strict accepts text ops w outs d x o w' r, run_docs strict accepts text start ops = Ok (w, outs) ->
  step_doc strict accepts text w (OSaveStr d x o) = Ok (w', r) ->
  match xml_arg x, def_arg o with
  | Some xo, Some (df, pending) =>
      exists y n out y', nth_error (w_docs w) d = Some y /\ view w y = Ok n /\ comps2xml_str accepts xo df n (mkW [] []) = Ok (out, tt) /\
        w_docs w' = set_at (w_docs w) d y' /\ pd_log y' = pd_log y ++ map FromWriter (w_log out) /\ pd_enc y' = pd_enc y /\
        r = (if pending then DRetSet (VCalls (w_calls out)) else DRet (VCalls (w_calls out))) /\
        (forall d' p v, doc_shows w' d' p v <-> doc_shows w d' p v)
  | _, _ => w' = w /\ r = DRaise EType
  end.
Proof.
  intros strict accepts text ops w outs d x o w' r R. destruct (history strict accepts text _ _ _ R) as [I _].
  exact (save_str_result accepts w d x o w' r I).
Qed.
Print Assumptions C69_text_partial.
Theorem C69_defined : forall ac text ops w outs d fname saved x o y n,
  run_docs false ac text start ops = Ok (w, outs) -> Forall op_fine ops ->
  nth_error (w_docs w) d = Some y -> view w y = Ok n -> pd_name y <> None -> pd_sysid y <> None -> pd_pubid y <> None ->
  (forall xo, xml_arg x = Some xo -> doc_printable (opt_xopts xo) (doc_parts n)) -> (forall i, utf8 (text i) = true) ->
  exists w' r, step_doc false ac text w (OSaveFile d fname saved x o) = Ok (w', r).
Proof.
  intros ac text ops w outs d fname saved x o y n R F. destruct (run_sound ac text ops start w outs inv_start (Forall_nil _) F R) as [I S].
  exact (save_defined text ac w d fname saved x o y n I S).
Qed.
Print Assumptions C69_defined.
Example C69_case : exists w outs w' y, run_f start (read_edit ++ [OEdit 0 (GR [a_group "a"; a_group "b"])]) = Ok (w, outs) /\
  step_f w (OSaveFile 0 (S_ "f") true (OptDict [(S_ "empty_groups", PyBool false)]) NoOpt) = Ok (w', DRet (VTexts [S_ "m"; S_ "m"])) /\
  nth_error (w_docs w') 0 = Some y /\ length (pd_log y) = 2 /\
  exists w2, save_file yes same_text w 0 (S_ "f") false (OptDict [(S_ "empty_groups", PyBool false)]) NoOpt = Ok (w2, DRet (VTexts [S_ "m"; S_ "m"; S_ "m"])).
Proof.
  do 4 eexists. split; [vm_compute; reflexivity|]. split; [vm_compute; reflexivity|]. split; [reflexivity|]. split; [reflexivity|].
  eexists. vm_compute. reflexivity.
Qed.

(** * C71: validating, comparing, adding *)
Theorem C71_validate_agree : forall w x l, validate_nf w x = Ok l ->
  match l with
  | [] => validate w x = Ok (DRet VNone)
  | m :: _ => validate w x = Ok (DRaise (EValue m))
  end.
Proof. exact validate_agree. Qed.
Print Assumptions C71_validate_agree.
Theorem C71_validate : forall ac text ops w outs d x n, run_docs false ac text start ops = Ok (w, outs) -> Forall op_fine ops ->
  nth_error (w_docs w) d = Some x -> view w x = Ok n -> checkable (doc_parts n) ->
  (exists l, validate_nf w x = Ok l) /\ (validate w x = Ok (DRet VNone) <-> doc_valid (doc_parts n)).
Proof.
  intros ac text ops w outs d x n R F. destruct (run_sound ac text ops start w outs inv_start (Forall_nil _) F R) as [I S].
  exact (validate_iff w d x n I S).
Qed.
Print Assumptions C71_validate.
Theorem C71_compare : forall ac text ops w outs d e x y a b, run_docs false ac text start ops = Ok (w, outs) -> Forall op_fine ops ->
  nth_error (w_docs w) d = Some x -> nth_error (w_docs w) e = Some y -> view w x = Ok a -> view w y = Ok b ->
  exists c, compare w OpEq x (DSame y) = Ok (DAnswer c) /\ compare w OpNe x (DSame y) = Ok (DAnswer (negb c)) /\ (c = true <-> docs_same a b).
Proof.
  intros ac text ops w outs d e x y a b R F. destruct (run_sound ac text ops start w outs inv_start (Forall_nil _) F R) as [I S].
  exact (compare_iff w d e x y a b I S).
Qed.
Print Assumptions C71_compare.
(** A document compared with anything else is read as a document. *)
Theorem C71_compare_foreign_refuted : forall w x, compare w OpEq x DForeign = UB /\ compare w OpNe x DForeign = UB.
Proof. intros w x. split; reflexivity. Qed.
Print Assumptions C71_compare_foreign_refuted.
(** d + e. *)
Theorem C71_add : forall ac text ops w outs d e x y a b, run_docs false ac text start ops = Ok (w, outs) -> Forall op_fine ops ->
  nth_error (w_docs w) d = Some x -> nth_error (w_docs w) e = Some y -> view w x = Ok a -> view w y = Ok b -> pd_enc x <> None ->
  exists w' n c, step_doc false ac text w (OUnion d e) = Ok (w', DRet (VDoc (length (w_docs w)))) /\ doc_union a b = Ok n /\
    nth_error (w_docs w') (length (w_docs w)) = Some c /\ pd_log c = [] /\ pd_enc c = pd_enc x /\
    groups_merged (pt_groups (doc_parts a)) (pt_groups (doc_parts b)) (pt_groups (doc_parts n)) /\
    cats_merged (pt_cats (doc_parts a)) (pt_cats (doc_parts b)) (pt_cats (doc_parts n)) /\
    envs_merged (pt_envs (doc_parts a)) (pt_envs (doc_parts b)) (pt_envs (doc_parts n)) /\
    map_union (pt_langpacks (doc_parts a)) (pt_langpacks (doc_parts b)) (pt_langpacks (doc_parts n)) /\
    (forall p v, doc_shows w' (length (w_docs w)) p v <-> doc_part n p = Ok v) /\
    (forall d' p v, d' < length (w_docs w) -> (doc_shows w' d' p v <-> doc_shows w d' p v)) /\
    (forall wr v, content w wr = Some v -> content w' wr = Some v).
Proof.
  intros ac text ops w outs d e x y a b R F. destruct (run_sound ac text ops start w outs inv_start (Forall_nil _) F R) as [I S].
  exact (union_calls w d e x y a b I S).
Qed.
Print Assumptions C71_add.
(** 1 + d: only the right operand's type is checked. *)
Theorem C71_add_refuted : forall {A R} (un : A -> A -> res R) y,
  py_add un (NotMine false) (Mine y) = UB /\ (forall x b, py_add un (Mine x) (NotMine b) = Ok SumTypeErr).
Proof. intros. split; reflexivity. Qed.
Print Assumptions C71_add_refuted.
Example C71_case : exists w outs x y a b, run_f start (read_edit ++ [ONew None]) = Ok (w, outs) /\
  nth_error (w_docs w) 0 = Some x /\ nth_error (w_docs w) 1 = Some y /\ view w x = Ok a /\ view w y = Ok b /\
  Forall op_fine (read_edit ++ [ONew None]) /\
  compare w OpEq x (DSame y) = Ok (DAnswer false) /\ compare w OpEq x (DSame x) = Ok (DAnswer true) /\ compare w OpLt x (DSame y) = Ok DUnsupported /\
  validate w x = Ok (DRet VNone) /\ validate_nf w y = Ok [] /\ pd_enc x <> None /\
  exists w', step_f w (OUnion 0 1) = Ok (w', DRet (VDoc 2)) /\
    exists g, doc_shows w' 2 Groups (GR [g]) /\ base_get (g_base g) (S_ "id") = Ok (Some (PStr (Some (S_ "a")))).
Proof.
  do 6 eexists. split; [vm_compute; reflexivity|]. split; [reflexivity|]. split; [reflexivity|]. split; [vm_compute; reflexivity|].
  split; [vm_compute; reflexivity|]. split.
  { repeat (apply Forall_cons; [first [exact I|apply (Forall_cons _ (a_group_ok "a")), Forall_nil]|]). constructor. }
  split; [vm_compute; reflexivity|]. split; [vm_compute; reflexivity|]. split; [vm_compute; reflexivity|].
  split; [vm_compute; reflexivity|]. split; [vm_compute; reflexivity|]. split; [discriminate|].
  eexists. split; [vm_compute; reflexivity|]. eexists. split; [do 2 eexists; split; [reflexivity|]; split; vm_compute; reflexivity|vm_compute; reflexivity].
Qed.
