(** Property theorems for saving and loading in Python (C95). *)
From Coq Require Import NArith.
From Verif Require Import CStr CStrFacts HSListModel HSListFacts SetModel RTreeModel RTreeFacts RTreeFacts2 RTreeFacts3 RTreeFacts4 MRTreeModel MRTreeFacts
  ObjModel ObjFacts ObjFacts2 SpecA SpecB SpecC PropertiesC DocModel DocFacts DocFacts2 SpecD SpecD2 PropertiesD ParseModel SpecF SpecF2 SpecF3 SpecF4 XmlModel XmlFacts SpecG SpecG2 SpecG3 SpecG4 SpecG5 SpecG6 SpecG7 PropertiesG PropertiesG2
  ValidateModel PyObjModel PyDictModel PyDocModel PyDocFacts PyDocFacts2 PyDocFacts3 PyDocFacts4 PyDocFacts5 PyDocFacts6 PyDocFacts7
  TextModel TextFacts TextFacts2 TextFacts3 TextFacts4 TextFacts5 TextFacts6 TextFacts7 PropertiesP SpecR SpecR2 SpecR3 SpecR4 SpecR5 SpecR6 PropertiesR SpecT SpecV.

(** * C95 *)
(** After any history of calls, a string that xml_str returns can be given to
    fromxml_str of any Comps object with the same options: no exception is
    raised, that object's document is replaced by what was saved ([parts_read],
    see C92, with the texts squeezed, see C87), its log is empty exactly when the
    answer is 0, and nothing else changes. *)
Theorem C95_string : forall ac text ops w outs d x o w1 cs e, run_docs false ac text start ops = Ok (w, outs) -> Forall op_fine ops ->
  step_doc false ac text w (OSaveStr d x o) = Ok (w1, DRet (VCalls cs)) ->
  exists xo df y n, xml_arg x = Some xo /\ def_arg o = Some (df, false) /\ nth_error (w_docs w) d = Some y /\ view w y = Ok n /\
    (e < length (w_docs w) -> Forall (fun c => snd c = true) cs -> enc_str n = ! "UTF-8" -> doctype_ok n -> Forall xml_text (strs (map fst cs)) -> parts_fit (doc_parts n) ->
     exists b f w2 z m c, printed (map fst cs) = Some b /\ text_feed b = Some f /\ step_doc false ac text w1 (OLoadStr e f o) = Ok (w2, DRet (VNum c)) /\ replaced_by w1 w2 e z m /\
       (forall d' q v, d' <> e -> (doc_shows w2 d' q v <-> doc_shows w d' q v)) /\
       head_carried n m (Some utf8_name) /\ parts_read (RD := squeeze_reader) (opt_dopts df) (opt_xopts xo) (doc_parts n) (doc_parts m) c /\ (pd_log z = [] <-> c = 0%Z)).
Proof.
  intros ac text ops w outs d x o w1 cs e R F E. destruct (run_sound ac text ops start w outs inv_start (Forall_nil _) F R) as [I S]. exact (string_through ac text w d x o w1 cs e I S E).
Qed.
Print Assumptions C95_string.
(** The same of a file, when xml_f returns without an exception; the file is read in blocks,
    so that the texts lose some white space ([thin_reader], see C88). *)
Theorem C95_file : forall ac text ops w outs d name saved x o w1 ts e, run_docs false ac text start ops = Ok (w, outs) -> Forall op_fine ops ->
  step_doc false ac text w (OSaveFile d name saved x o) = Ok (w1, DRet (VTexts ts)) ->
  exists xo df y n out r, xml_arg x = Some xo /\ def_arg o = Some (df, false) /\ nth_error (w_docs w) d = Some y /\ view w y = Ok n /\ comps2xml_f ac name saved xo df (encoded n) w0 = Ok (out, r) /\
    (e < length (w_docs w) -> Forall (fun c => snd c = true) (w_calls out) -> enc_str (encoded n) = ! "UTF-8" -> doctype_ok n -> Forall xml_text (strs (calls out)) -> parts_fit (doc_parts n) ->
     exists b f w2 z m c, printed (calls out) = Some b /\ file_feeds b = Some f /\ step_doc false ac text w1 (OLoadFile e (Some f) o) = Ok (w2, DRet (VNum c)) /\ replaced_by w1 w2 e z m /\
       (forall d' q v, d' <> e -> (doc_shows w2 d' q v <-> doc_shows w d' q v)) /\
       head_carried n m (Some utf8_name) /\ parts_read (RD := thin_reader) (opt_dopts df) (opt_xopts xo) (doc_parts n) (doc_parts m) c /\ (pd_log z = [] <-> c = 0%Z)).
Proof.
  intros ac text ops w outs d name saved x o w1 ts e R F E. destruct (run_sound ac text ops start w outs inv_start (Forall_nil _) F R) as [I S]. exact (file_through ac text w d name saved x o w1 ts e I S E).
Qed.
Print Assumptions C95_file.
(** For a document in normal form with unharmed texts, whose booleans are given
    and that is saved with arch_output, the loaded object equals the saved one. *)
Theorem C95_equal_partial : forall ac text ops w outs d x o w1 cs e, run_docs false ac text start ops = Ok (w, outs) -> Forall op_fine ops ->
  step_doc false ac text w (OSaveStr d x o) = Ok (w1, DRet (VCalls cs)) ->
  exists xo df y n, xml_arg x = Some xo /\ def_arg o = Some (df, false) /\ nth_error (w_docs w) d = Some y /\ view w y = Ok n /\
    (e < length (w_docs w) -> e <> d -> Forall (fun c => snd c = true) cs -> d_enc n = Some (Some utf8_name) -> doctype_ok n -> Forall xml_text (strs (map fst cs)) ->
     parts_normal (opt_xopts xo) (doc_parts n) -> parts_exact (opt_xopts xo) (doc_parts n) -> Forall TextFacts5.solid (texts_of (map fst cs)) ->
     exists b f w2 y2 z, printed (map fst cs) = Some b /\ text_feed b = Some f /\ step_doc false ac text w1 (OLoadStr e f o) = Ok (w2, DRet (VNum 0)) /\
       nth_error (w_docs w2) d = Some y2 /\ nth_error (w_docs w2) e = Some z /\ pd_log z = [] /\
       compare w2 OpEq y2 (DSame z) = Ok (DAnswer true) /\ compare w2 OpEq z (DSame y2) = Ok (DAnswer true)).
Proof.
  intros ac text ops w outs d x o w1 cs e R F E. destruct (run_sound ac text ops start w outs inv_start (Forall_nil _) F R) as [I S]. exact (string_same ac text w d x o w1 cs e I S E).
Qed.
Print Assumptions C95_equal_partial.

(** A session that fills all six attributes of one Comps object and makes another. *)
Definition no_text : logitem -> str := fun _ => [].
Definition fill (p : parts) : list PyDocModel.dop :=
  [ONew None; ONew None; OGet 0 Groups; OEdit 0 (DGroups (pt_groups p)); OGet 0 Categories; OEdit 1 (DCats (pt_cats p)); OGet 0 Environments; OEdit 2 (DEnvs (pt_envs p));
   OGet 0 Langpacks; OEdit 3 (DDict (pt_langpacks p)); OGet 0 Blacklist; OEdit 4 (DMdict (pt_blacklist p)); OGet 0 Whiteout; OEdit 5 (DMdict (pt_whiteout p))].
Definition world_of (ops : list PyDocModel.dop) : world := match run_docs false always_ok no_text start ops with Ok (w, _) => w | _ => start end.
Definition outs_of (ops : list PyDocModel.dop) := match run_docs false always_ok no_text start ops with Ok (_, l) => l | _ => [] end.
Definition full_session := fill (doc_parts rt_doc).
Definition arch_opt : optarg := OptDict [(S_ "arch_output", PyBool true)].
Lemma fill_fine d : docwf d -> Forall op_fine (fill (doc_parts d)).
Proof.
  intros W. destruct (parts_wf d W) as (H1 & H2 & H3 & H4 & H5 & H6). unfold fill. repeat (apply Forall_cons; [cbn [op_fine sound]; auto|]). constructor.
Qed.
Definition step_y := step_doc false always_ok no_text.
Definition save_out (s : list PyDocModel.dop) (x : optarg) := match step_y (world_of s) (OSaveStr 0 x NoOpt) with Ok (w1, DRet (VCalls cs)) => (w1, cs) | _ => (start, []) end.
Definition seen_doc (w : world) (d : nat) : doc := match nth_error (w_docs w) d with Some x => match view w x with Ok n => n | _ => rt_doc end | None => rt_doc end.
Example C95_case : run_docs false always_ok no_text start full_session = Ok (world_of full_session, outs_of full_session) /\ Forall op_fine full_session /\
  step_y (world_of full_session) (OSaveStr 0 arch_opt NoOpt) = Ok (fst (save_out full_session arch_opt), DRet (VCalls (snd (save_out full_session arch_opt)))) /\
  1 < length (w_docs (world_of full_session)) /\ 1 <> 0 /\ Forall (fun c => snd c = true) (snd (save_out full_session arch_opt)) /\
  doc_parts (seen_doc (world_of full_session) 0) = doc_parts rt_doc /\ d_enc (seen_doc (world_of full_session) 0) = Some (Some utf8_name) /\ doctype_ok (seen_doc (world_of full_session) 0) /\
  Forall xml_text (strs (map fst (snd (save_out full_session arch_opt)))) /\ parts_normal with_arch (doc_parts rt_doc) /\ parts_exact with_arch (doc_parts rt_doc) /\ xml_arg arch_opt = Some (Some with_arch) /\
  Forall TextFacts5.solid (texts_of (map fst (snd (save_out full_session arch_opt)))).
Proof.
  assert (Hw : docwf rt_doc) by (apply dreach_wf, rt_doc_ok). pose proof C28_case as (_ & _ & Hn & He & _).
  split; [vm_compute; reflexivity|]. split; [now apply fill_fine|]. split; [vm_compute; reflexivity|]. split; [vm_compute; repeat constructor|]. split; [discriminate|].
  split; [apply Forall_forall; apply forallb_forall; vm_compute; reflexivity|]. split; [vm_compute; reflexivity|]. split; [vm_compute; reflexivity|].
  split; [apply default_type; vm_compute; reflexivity|]. split; [apply plainb_xml; vm_compute; reflexivity|]. split; [exact Hn|]. split; [exact He|]. split; [vm_compute; reflexivity|].
  apply solidb_ok. vm_compute. reflexivity.
Qed.

(** A group with its id, name and description as Python makes it: the answer is 0
    and the loaded document is different, because a boolean that was never set is
    there after loading. *)
Definition plain_doc : doc := doc_of [OAddGroup (mkG (named_base "g" [str_p "name" "n"; str_p "desc" "d"]) [mkp "p" 0])].
Definition plain_session := fill (doc_parts plain_doc).
Theorem C95_equal_refuted : exists w outs w1 cs b f w2 y z, run_docs false always_ok no_text start plain_session = Ok (w, outs) /\ Forall op_fine plain_session /\
  step_y w (OSaveStr 0 arch_opt NoOpt) = Ok (w1, DRet (VCalls cs)) /\ Forall (fun c => snd c = true) cs /\ printed (map fst cs) = Some b /\ text_feed b = Some f /\
  step_y w1 (OLoadStr 1 f NoOpt) = Ok (w2, DRet (VNum 0)) /\ nth_error (w_docs w2) 0 = Some y /\ nth_error (w_docs w2) 1 = Some z /\ compare w2 OpEq y (DSame z) = Ok (DAnswer false).
Proof.
  assert (Hw : docwf plain_doc) by (apply dreach_wf, doc_of_ok; repeat constructor; apply named_base_ok).
  eexists _, _, _, _, _, _, _, _, _. split; [vm_compute; reflexivity|]. split; [now apply fill_fine|]. split; [vm_compute; reflexivity|].
  split; [apply Forall_forall; apply forallb_forall; vm_compute; reflexivity|]. split; [vm_compute; reflexivity|]. split; [vm_compute; reflexivity|].
  split; [vm_compute; reflexivity|]. split; [reflexivity|]. split; [reflexivity|]. vm_compute. reflexivity.
Qed.
Print Assumptions C95_equal_refuted.
