(** Property theorems for the texts of messages (C94). *)
From Coq Require Import NArith.
From Verif Require Import CStr CStrFacts HSListModel RTreeModel ObjModel ObjFacts2 Dec StrModel StrFacts SpecC PropertiesC DocModel DocFacts DocFacts2 SpecD SpecD2 PropertiesD
  ParseModel ParseFacts LogModel SpecE XmlModel XmlFacts SpecG PropertiesG SpecU.

(** * C94 *)
(** Whatever file or string is read, through whatever events, by a parser whose
    log holds such messages (a new one holds none): every entry of the log has
    one of the eleven texts, with the place, and the text is printed whole. *)
Theorem C94_load_file : forall strict st f o st' z, parse_file strict st f o = Ok (st', z) -> Forall fine (ps_log st) -> Forall fine (ps_log st') /\ Forall readable (ps_log st').
Proof. intros strict st f o st' z E F. pose proof (file_fine _ _ _ _ _ _ E F) as H. split; [exact H|]. eapply Forall_impl; [|exact H]. exact fine_readable. Qed.
Print Assumptions C94_load_file.
Theorem C94_load_string : forall strict st f o st' z, parse_str strict st f o = Ok (st', z) -> Forall fine (ps_log st) -> Forall fine (ps_log st') /\ Forall readable (ps_log st').
Proof. intros strict st f o st' z E F. pose proof (str_fine _ _ _ _ _ _ E F) as H. split; [exact H|]. eapply Forall_impl; [|exact H]. exact fine_readable. Qed.
Print Assumptions C94_load_string.
(** A save in which the writer accepts every call leaves one line for every
    object left out, then one if the file was not written. *)
Theorem C94_save_partial : forall ac name saved x df d w' r, docwf d -> comps2xml_f ac name saved x df d w0 = Ok (w', r) -> Forall (fun c => snd c = true) (w_calls w') -> text_ids (doc_parts d) ->
  exists ig ic ie,
    ids_left (group_left_out (opt_xopts x)) g_base (pt_groups (doc_parts d)) ig /\
    ids_left (cat_left_out (opt_xopts x)) c_base (pt_cats (doc_parts d)) ic /\
    ids_left (env_left_out (opt_xopts x)) e_base (pt_envs (doc_parts d)) ie /\
    Forall2 reads_as (w_log w') (map left_out_text (ig ++ ic ++ ie) ++ (if saved then [] else [S_ "Can't write file " ++ name ++ NL])).
Proof. exact save_texts. Qed.
Print Assumptions C94_save_partial.
(** Finding: a category or environment left out is called a group without
    packages, also if no group has its id. *)
Theorem C94_object_refuted : exists d w' r, dreach d /\ pt_groups (doc_parts d) = [] /\ save_with always_ok d = Ok (w', r) /\
  Forall2 reads_as (w_log w') [S_ "Group with id apps has no packages.skipping xml output" ++ NL; S_ "Group with id desk has no packages.skipping xml output" ++ NL].
Proof.
  exists (doc_of [OAddCat (ct "apps" []); OAddEnv (en "desk" [])]). eexists. eexists. split; [apply doc_of_ok; repeat constructor; apply named_base_ok|]. split; [vm_compute; reflexivity|]. split; [vm_compute; reflexivity|].
  constructor; [|constructor; [|constructor]]; eexists; (split; [vm_compute; reflexivity|split; vm_compute; reflexivity]).
Qed.
Print Assumptions C94_object_refuted.
Definition c94_events : list event :=
  [EStart (S_ "comps") []; EStart (S_ "group") [(S_ "colour", S_ "red")]; EStart (S_ "id") []; EEnd (S_ "id"); EStart (S_ "default") []; EChars (S_ "maybe"); EEnd (S_ "default"); EStart (S_ "packagelist") []; EEnd (S_ "packagelist");
   EEnd (S_ "group"); EStart (S_ "packagereq") []; EEnd (S_ "packagereq"); EEnd (S_ "comps")].
Definition at_3_7 (e : pentry) : str := match entry_str (log_of 3 7 e) with Ok t => t | _ => [] end.
Example C94_case : rmap (fun r => map at_3_7 (ps_log (fst r))) (parse_str false (parsed_init (Some (S_ "UTF-8"))) (c94_events, Some (S_ "mismatched tag")) None) =
  Ok [S_ "WARNING: Unknown attribute 'colour' in element 'group' at line:3 col: 7" ++ NL;
      S_ "<id> content missing at line:3 column:7" ++ NL;
      S_ "WARNING: Wrong default param value 'maybe' at line:3 col:7" ++ NL;
      S_ "packagelist is empty at line:3 column :7" ++ NL;
      S_ "Element id is required at line:3 column :7 but missing" ++ NL;
      S_ "Element name is required at line:3 column :7 but missing" ++ NL;
      S_ "Element description is required at line:3 column :7 but missing" ++ NL;
      S_ "ERROR: <packagereq> found with no suitable parent at line:3 col:7" ++ NL;
      S_ "ERROR: Parser error at line:3 col:7" ++ NL ++ S_ "    mismatched tag" ++ NL].
Proof. vm_compute. reflexivity. Qed.
Example C94_save_case : exists w', save_with always_ok ex_doc = Ok (w', 2%Z) /\ text_ids (doc_parts ex_doc) /\
  Forall2 reads_as (w_log w') [S_ "Group with id empty has no packages.skipping xml output" ++ NL; S_ "Group with id none has no packages.skipping xml output" ++ NL].
Proof.
  eexists. split; [vm_compute; reflexivity|]. split.
  - split; [|split]; vm_compute; repeat (constructor; [intros v E; inversion E; eauto|]); constructor.
  - constructor; [|constructor; [|constructor]]; eexists; (split; [vm_compute; reflexivity|split; vm_compute; reflexivity]).
Qed.
