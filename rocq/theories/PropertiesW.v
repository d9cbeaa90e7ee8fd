(** Property theorems for the validation and the texts of single objects in
    Python, for what the lists take, and for the queries of a document
    (C96-C98). *)
From Coq Require Import NArith.
From Verif Require Import CStr CStrFacts HSListModel HSListFacts SetModel RTreeModel RTreeFacts RTreeFacts2 RTreeFacts3 RTreeFacts4 MRTreeModel MRTreeFacts
  ObjModel ObjFacts ObjFacts2 SpecA SpecB SpecC PropertiesC DocModel DocFacts DocFacts2 SpecD SpecD2 PropertiesD Dec StrModel StrFacts ValidateModel ValidateFacts SpecE
  ObjListModel ObjListFacts PySeqModel PySeqFacts PySeqFacts2 SpecI PyItemModel SpecW.
From Verif Require PyDictModel PyDocModel PyDocFacts PyDocFacts5 PropertiesG PropertiesV SpecW2.

(** * C96: the lists hold validated objects *)
(** Any history of calls on a list of groups, categories or environments: an
    object in the list was there before, or passed its validation when it was
    added, or was the value of an item or slice assignment. *)
Theorem C96_origin : forall (A : Type) same kind key valid (cs : list (@sop A)) o o' rs,
  idl_run same kind key valid o cs = Ok (o', rs) ->
  forall x, In (Some x) (oitems o') -> In (Some x) (oitems o) \/ valid x = true \/ exists c, In c cs /\ unasked c x.
Proof. intros A same kind key valid cs o o' rs. exact (idl_origin same kind key valid cs o o' rs). Qed.
Print Assumptions C96_origin.
(** So, without such assignments, every group of a list has an id and pairwise
    different packages; the same for categories and environments.  Missing:
    assignments, see below. *)
Definition no_assignment {A} (cs : list (@sop A)) : Prop := forall c, In c cs -> forall x, ~ unasked c x.
Definition gchecked (g : group) := id_string (g_base g) /\ SpecE.small (g_pkgs g).
Definition cchecked (c : category) := id_string (c_base c) /\ SpecE.small (c_gids c).
Definition echecked (e : env) := id_string (e_base e) /\ SpecE.small (e_groups e) /\ SpecE.small (e_options e).
Theorem C96_valid_partial :
  (forall same kind key cs o' rs, idl_run same kind key (accepts group_rules) ol_create cs = Ok (o', rs) -> no_assignment cs ->
     forall g, In (Some g) (oitems o') -> gchecked g -> group_valid g) /\
  (forall same kind key cs o' rs, idl_run same kind key (accepts category_rules) ol_create cs = Ok (o', rs) -> no_assignment cs ->
     forall c, In (Some c) (oitems o') -> cchecked c -> category_valid c) /\
  (forall same kind key cs o' rs, idl_run same kind key (accepts env_rules) ol_create cs = Ok (o', rs) -> no_assignment cs ->
     forall e, In (Some e) (oitems o') -> echecked e -> env_valid e).
Proof.
  split; [|split]; intros same kind key cs o' rs E N x Hx Hc;
    (destruct (C96_origin _ same kind key _ cs _ o' rs E x Hx) as [[]|[Ha|(c & Hi & Hu)]]; [|destruct (N c Hi x Hu)]).
  - destruct Hc as [H1 H2]. destruct (group_answer x H1 H2) as (ms & _ & _ & H). now apply H.
  - destruct Hc as [H1 H2]. destruct (category_answer x H1 H2) as (ms & _ & _ & H). now apply H.
  - destruct Hc as (H1 & H2 & H3). destruct (env_answer x H1 H2 H3) as (ms & _ & _ & H). now apply H.
Qed.
Print Assumptions C96_valid_partial.
(** Lists of packages and of group ids: after every history of calls, each
    object has a name that is not empty. *)
Theorem C96_members : forall extra,
  (forall same key cs o' rs, mem_run same ByName key (accepts pkg_rules) extra ol_create cs = Ok (o', rs) ->
     forall p, In (Some p) (oitems o') -> name_given (p_name p)) /\
  (forall same key cs o' rs, mem_run same NoId key (accepts gid_rules) extra ol_create cs = Ok (o', rs) ->
     forall i, In (Some i) (oitems o') -> name_given (gi_name i)).
Proof.
  intros extra. split; intros same key cs o' rs E x Hx.
  - destruct (mem_origin same ByName key _ extra cs _ o' rs ltac:(discriminate) E x Hx) as [[]|Ha].
    destruct (package_answer x) as (ms & _ & _ & H). now apply H.
  - destruct (mem_origin same NoId key _ extra cs _ o' rs ltac:(discriminate) E x Hx) as [[]|Ha].
    destruct (gid_answer x) as (ms & _ & _ & H). now apply H.
Qed.
Print Assumptions C96_members.
(** A refused object leaves the list as it was. *)
Theorem C96_refused : forall (A : Type) kind key valid (o : ol (option A)) x, valid x = false ->
  seq_append valid o (Some x) = Ok (o, Raise EInvalid) /\
  (forall i, seq_insert valid o i (Some x) = Ok (o, Raise EInvalid)) /\
  (forall i, exists e, seq_setitem valid o i (Some x) = (o, Raise e)) /\
  (forall o' r, seq_append_unique kind key valid o (Some x) = Ok (o', r) -> o' = o /\ (r = Raise EInvalid \/ r = Raise EKey)).
Proof.
  intros A kind key valid o x H. unfold seq_append, seq_insert, seq_setitem, seq_append_unique. rewrite H.
  split; [reflexivity|]. split; [reflexivity|]. split; [intros i; destruct (idx_beyond o i); eauto|].
  intros o' r. destruct (uniq_check kind key o (Some x)) as [[|]| |]; cbn [bind]; try discriminate; intros [= <- <-]; auto.
Qed.
Print Assumptions C96_refused.
Definition gkey (g : group) : option str := match rt_get (b_props (g_base g)) (S_ "id") with Ok (Some (PStr s)) => s | _ => None end.
Definition noid : group := mkG base_create [].
Definition ga : group := mkG (named_base "a" []) [mkp "x" 0; mkp "y" 0].
Definition twice : group := mkG (named_base "b" []) [mkp "x" 0; mkp "x" 0].
Definition never (a b : group) : bool := false.
Definition run_groups := idl_run never ById gkey (accepts group_rules) ol_create.
Example C96_case :
  no_assignment [SAppend (Some ga); SAppend (Some noid); SInsert 0 (Some twice); SDel 5; SInsert 0 (Some ga)] /\
  run_groups [SAppend (Some ga); SAppend (Some noid); SInsert 0 (Some twice); SDel 5; SInsert 0 (Some ga)] =
    Ok (mkOL [Some ga; Some ga] (TAt 1) 2, [Ret tt; Raise EInvalid; Raise EInvalid; Raise EIndex; Ret tt]) /\
  mem_run (fun _ _ => false) ByName (fun p : pkg => match p_name p with Some s => s | None => None end) (accepts pkg_rules) true ol_create [SAppend (Some (mkp "x" 0)); SAppend (Some (mkPkg None None None 0 None)); SInsert 0 (Some (mkp "y" 0))] =
    Ok (mkOL [Some (mkp "y" 0); Some (mkp "x" 0)] (TAt 1) 2, [Ret tt; Raise EInvalid; Ret tt]).
Proof.
  split; [|split; vm_compute; reflexivity]. intros c Hc x. repeat (destruct Hc as [<-|Hc]; [intros []|]). destruct Hc.
Qed.
(** Finding: item assignment and slice assignment in lists of groups, categories
    and environments do not validate (pycomps_sequence.c:164-192, 332-378). *)
Theorem C96_assign_refuted : exists cs o' rs, run_groups cs = Ok (o', rs) /\ rs = [Ret tt; Ret tt] /\
  In (Some noid) (oitems o') /\ gchecked noid /\ ~ group_valid noid /\ py_validate group_rules noid = Ok (Some (S_ "Group id check: attr not set")).
Proof.
  exists [SAppend (Some ga); SSet 0 (Some noid)]. do 2 eexists. split; [vm_compute; reflexivity|]. split; [reflexivity|]. split; [now left|].
  split; [split; [intros v E; vm_compute in E; discriminate|unfold SpecE.small; cbn; lia]|]. split; [|vm_compute; reflexivity].
  intros [(s & E & _) _]. vm_compute in E. discriminate.
Qed.
Print Assumptions C96_assign_refuted.
Theorem C96_slice_refuted : exists cs o' rs, run_groups cs = Ok (o', rs) /\ rs = [Ret tt] /\
  In (Some twice) (oitems o') /\ py_validate group_rules twice = Ok (Some (S_ "Group unique package list check: Duplicate items at 0 and 1")).
Proof.
  exists [SSetSlice (mkSlice None None None) (Some [Some twice])]. do 2 eexists. split; [vm_compute; reflexivity|]. split; [reflexivity|].
  split; [now left|]. vm_compute. reflexivity.
Qed.
Print Assumptions C96_slice_refuted.

(** * C97: validate(), str() and repr() of one object *)
(** validate() of a group, category, environment returns nothing or raises the
    first of the messages of C37; it returns exactly if the object has an id that
    is not empty and no duplicate members. *)
Theorem C97_validate :
  (forall g, gchecked g -> exists ms, group_says g ms /\ py_validate group_rules g = Ok (hd_error ms) /\ (py_validate group_rules g = Ok None <-> group_valid g)) /\
  (forall c, cchecked c -> exists ms, category_says c ms /\ py_validate category_rules c = Ok (hd_error ms) /\ (py_validate category_rules c = Ok None <-> category_valid c)) /\
  (forall e, echecked e -> exists ms, env_says e ms /\ py_validate env_rules e = Ok (hd_error ms) /\ (py_validate env_rules e = Ok None <-> env_valid e)) /\
  (forall p, exists ms, package_says p ms /\ py_validate pkg_rules p = Ok (hd_error ms) /\ (py_validate pkg_rules p = Ok None <-> name_given (p_name p))) /\
  (forall i, exists ms, gid_says i ms /\ py_validate gid_rules i = Ok (hd_error ms) /\ (py_validate gid_rules i = Ok None <-> name_given (gi_name i))).
Proof.
  assert (K : forall (A : Type) (rules : list (rule A)) x (Q : Prop), (accepts rules x = true <-> Q) -> (py_validate rules x = Ok None <-> Q)).
  { intros A rules x Q H. rewrite <- H. unfold accepts. destruct (py_validate rules x) as [[m|]| |]; split; congruence. }
  split; [|split; [|split; [|split]]].
  - intros g [H1 H2]. destruct (group_answer g H1 H2) as (ms & Hm & E & H). exists ms. auto.
  - intros c [H1 H2]. destruct (category_answer c H1 H2) as (ms & Hm & E & H). exists ms. auto.
  - intros e (H1 & H2 & H3). destruct (env_answer e H1 H2 H3) as (ms & Hm & E & H). exists ms. auto.
  - intros p. destruct (package_answer p) as (ms & Hm & E & H). exists ms. auto.
  - intros i. destruct (gid_answer i) as (ms & Hm & E & H). exists ms. auto.
Qed.
Print Assumptions C97_validate.
Example C97_validate_case : gchecked ga /\ gchecked twice /\ py_validate group_rules ga = Ok None /\
  py_validate group_rules twice = Ok (Some (S_ "Group unique package list check: Duplicate items at 0 and 1")) /\
  py_validate pkg_rules (mkPkg None None None 0 None) = Ok (Some (S_ "Package name check: attr not set")) /\
  py_validate gid_rules (mki "" true) = Ok (Some (S_ "GroupId name check: attr empty")).
Proof.
  split; [split; [intros v E; vm_compute in E; injection E as <-; eauto|unfold SpecE.small; cbn; lia]|].
  split; [split; [intros v E; vm_compute in E; injection E as <-; eauto|unfold SpecE.small; cbn; lia]|].
  vm_compute. repeat split; reflexivity.
Qed.
(** str() of a group, category, environment is its id, nothing if it has none, of
    a package its name; repr() shows the same text.  [replaced] is CPython's
    decoding, which leaves valid UTF-8 alone. *)
Theorem C97_str : forall replaced addr, (forall s, PyDictModel.utf8 s = true -> replaced s = s) ->
  (forall g, id_string (g_base g) -> exists s, id_text (g_base g) s /\ group_str replaced g = Ok (replaced s) /\
     group_repr replaced addr g = Ok (S_ "<libcomps.Group object '" ++ replaced s ++ S_ "' at " ++ addr ++ S_ ">") /\
     (PyDictModel.utf8 s = true -> group_str replaced g = Ok s)) /\
  (forall c, id_string (c_base c) -> exists s, id_text (c_base c) s /\ category_str replaced c = Ok (replaced s) /\
     category_repr replaced addr c = Ok (S_ "<libcomps.Category object '" ++ replaced s ++ S_ "' at " ++ addr ++ S_ ">") /\
     (PyDictModel.utf8 s = true -> category_str replaced c = Ok s)) /\
  (forall e, id_string (e_base e) -> exists s, id_text (e_base e) s /\ env_str replaced e = Ok (replaced s) /\
     env_repr replaced addr e = Ok (S_ "<libcomps.Environment object '" ++ replaced s ++ S_ "' at " ++ addr ++ S_ ">") /\
     (PyDictModel.utf8 s = true -> env_str replaced e = Ok s)) /\
  (forall p s, p_name p = Some (Some s) -> package_repr replaced addr p = S_ "<libcomps.Package object '" ++ replaced s ++ S_ "' at " ++ addr ++ S_ ">" /\
     (PyDictModel.utf8 s = true -> package_str replaced p = s)).
Proof.
  intros replaced addr R. split; [|split; [|split]].
  - intros g H. destruct (base_str_is replaced (g_base g) H) as (s & Hs & E). exists s. unfold group_repr, group_str. rewrite E.
    repeat split; try exact Hs. intros U. now rewrite (R s U).
  - intros g H. destruct (base_str_is replaced (c_base g) H) as (s & Hs & E). exists s. unfold category_repr, category_str. rewrite E.
    repeat split; try exact Hs. intros U. now rewrite (R s U).
  - intros g H. destruct (base_str_is replaced (e_base g) H) as (s & Hs & E). exists s. unfold env_repr, env_str. rewrite E.
    repeat split; try exact Hs. intros U. now rewrite (R s U).
  - intros p s E. unfold package_repr, package_str. rewrite E. split; [reflexivity|]. intros U. exact (R s U).
Qed.
Print Assumptions C97_str.
Example C97_str_case : (forall s, PyDictModel.utf8 s = true -> (fun s : str => s) s = s) /\ id_string (g_base ga) /\ id_string (g_base noid) /\
  group_str (fun s => s) ga = Ok (S_ "a") /\ group_str (fun s => s) noid = Ok [] /\
  group_repr (fun s => s) (S_ "0x10") ga = Ok (S_ "<libcomps.Group object 'a' at 0x10>").
Proof.
  split; [auto|]. split; [intros v E; vm_compute in E; injection E as <-; eauto|]. split; [intros v E; vm_compute in E; discriminate|].
  repeat split; vm_compute; reflexivity.
Qed.
(** str() of a group id shows the whole object; a name that is not UTF-8 makes it
    raise. *)
Theorem C97_gid_str : forall i,
  gid_str i = Ok (if PyDictModel.utf8 (ostr_tostr (gi_name i))
                  then PyDictModel.Ret (S_ "<COMPS_DocGroupId name='" ++ ostr_tostr (gi_name i) ++ S_ "' default='" ++ (if gi_def i then S_ "True" else S_ "False") ++ S_ "'>")
                  else PyDictModel.Raise PyDictModel.UnicodeError).
Proof. exact gid_str_is. Qed.
Print Assumptions C97_gid_str.
(** Finding: unlike that of the other four types, it is not the object's name. *)
Theorem C97_gid_str_refuted : exists i, name_given (gi_name i) /\ forall s, gi_name i = Some (Some s) -> gid_str i <> Ok (PyDictModel.Ret s).
Proof.
  exists (mki "a" true). split; [now exists (Some (S_ "a"))|]. intros s [= <-] E. vm_compute in E. discriminate.
Qed.
Print Assumptions C97_gid_str_refuted.
Example C97_gid_case : gid_str (mki "a" true) = Ok (PyDictModel.Ret (S_ "<COMPS_DocGroupId name='a' default='True'>")).
Proof. vm_compute. reflexivity. Qed.

(** * C98: groups_match, categories_match, environments_match *)
(** After any history of calls of the Python layer, a query gives the matching
    objects of the document, in order ([wanted], see C22); [fnm] is fnmatch. *)
Theorem C98_categories : forall fnm ac text ops w outs d x n q, PyDocModel.run_docs false ac text PyDocModel.start ops = Ok (w, outs) -> Forall PyDocFacts5.op_fine ops ->
  nth_error (PyDocModel.w_docs w) d = Some x -> PyDocModel.view w x = Ok n -> Forall (fun c => texts_proper (c_base c)) (pt_cats (doc_parts n)) ->
  exists want, (forall c, want c = true <-> wanted fnm (q_id q) (q_name q) (q_desc q) (q_lang q) (q_flags q) (c_base c)) /\
    categories_match fnm w x q = Ok (filter want (pt_cats (doc_parts n))).
Proof.
  intros fnm ac text ops w outs d x n q R F X V. destruct (PyDocFacts5.run_sound ac text ops PyDocModel.start w outs PyDocFacts.inv_start (Forall_nil _) F R) as [I S].
  exact (SpecW2.categories_found fnm w d x n I S X V q).
Qed.
Print Assumptions C98_categories.
Theorem C98_environments : forall fnm ac text ops w outs d x n q, PyDocModel.run_docs false ac text PyDocModel.start ops = Ok (w, outs) -> Forall PyDocFacts5.op_fine ops ->
  nth_error (PyDocModel.w_docs w) d = Some x -> PyDocModel.view w x = Ok n -> Forall (fun e => texts_proper (e_base e)) (pt_envs (doc_parts n)) ->
  exists want, (forall e, want e = true <-> wanted fnm (q_id q) (q_name q) (q_desc q) (q_lang q) (q_flags q) (e_base e)) /\
    environments_match fnm w x q = Ok (filter want (pt_envs (doc_parts n))).
Proof.
  intros fnm ac text ops w outs d x n q R F X V. destruct (PyDocFacts5.run_sound ac text ops PyDocModel.start w outs PyDocFacts.inv_start (Forall_nil _) F R) as [I S].
  exact (SpecW2.environments_found fnm w d x n I S X V q).
Qed.
Print Assumptions C98_environments.
(** Groups: missing is the case where both [lang] and [desc] are given, see
    C98_groups_actual and C98_groups_refuted. *)
Theorem C98_groups_partial : forall fnm ac text ops w outs d x n q, PyDocModel.run_docs false ac text PyDocModel.start ops = Ok (w, outs) -> Forall PyDocFacts5.op_fine ops ->
  nth_error (PyDocModel.w_docs w) d = Some x -> PyDocModel.view w x = Ok n -> Forall (fun g => texts_proper (g_base g)) (pt_groups (doc_parts n)) -> q_lang q = None \/ q_desc q = None ->
  exists want, (forall g, want g = true <-> wanted fnm (q_id q) (q_name q) (q_desc q) (q_lang q) (q_flags q) (g_base g)) /\
    groups_match fnm w x q = Ok (filter want (pt_groups (doc_parts n))).
Proof.
  intros fnm ac text ops w outs d x n q R F X V. destruct (PyDocFacts5.run_sound ac text ops PyDocModel.start w outs PyDocFacts.inv_start (Forall_nil _) F R) as [I S].
  exact (SpecW2.groups_found_plain fnm w d x n I S X V q).
Qed.
Print Assumptions C98_groups_partial.
Theorem C98_groups_actual : forall fnm ac text ops w outs d x n q, PyDocModel.run_docs false ac text PyDocModel.start ops = Ok (w, outs) -> Forall PyDocFacts5.op_fine ops ->
  nth_error (PyDocModel.w_docs w) d = Some x -> PyDocModel.view w x = Ok n -> Forall (fun g => texts_proper (g_base g)) (pt_groups (doc_parts n)) ->
  exists want, (forall g, want g = true <-> wanted_either fnm (q_id q) (q_name q) (q_desc q) (q_lang q) (q_flags q) (g_base g)) /\
    groups_match fnm w x q = Ok (filter want (pt_groups (doc_parts n))).
Proof.
  intros fnm ac text ops w outs d x n q R F X V. destruct (PyDocFacts5.run_sound ac text ops PyDocModel.start w outs PyDocFacts.inv_start (Forall_nil _) F R) as [I S].
  exact (SpecW2.groups_found fnm w d x n I S X V q).
Qed.
Print Assumptions C98_groups_actual.
Definition described : group := mkG (named_base "a" [str_p "name" "A"; str_p "desc" "text"]) [].
Definition session : list PyDocModel.dop := [PyDocModel.ONew None; PyDocModel.OGet 0 PyDocModel.Groups; PyDocModel.OEdit 0 (DGroups [described; ga])].
Definition session_world := PropertiesV.world_of session.
Definition session_doc := nth 0 (PyDocModel.w_docs session_world) (PyDocModel.mkPD PyDocModel.none None None None None [] PyDocModel.none).
Definition ask id name desc lang := mkQ (option_map S_ id) (option_map S_ name) (option_map S_ desc) (option_map S_ lang) 0.
Lemma texts_ok_b l : forallb (fun g => texts_b (g_base g)) l = true -> (forall g, In g l -> b_names (g_base g) = rt_create /\ b_descs (g_base g) = rt_create) ->
  Forall (fun g => texts_proper (g_base g)) l.
Proof.
  intros H K. rewrite forallb_forall in H. apply Forall_forall. intros g Hg. destruct (K g Hg) as [K1 K2]. now apply texts_b_ok; [apply H| |].
Qed.
Lemma session_fine : Forall PyDocFacts5.op_fine session.
Proof.
  apply Forall_cons; [exact Logic.I|]. apply Forall_cons; [exact Logic.I|]. apply Forall_cons; [|constructor].
  apply Forall_cons; [apply named_base_ok|]. apply Forall_cons; [apply named_base_ok|constructor].
Qed.
Example C98_case : exists w outs x n, PyDocModel.run_docs false PropertiesG.always_ok PropertiesV.no_text PyDocModel.start session = Ok (w, outs) /\ Forall PyDocFacts5.op_fine session /\
  nth_error (PyDocModel.w_docs w) 0 = Some x /\ PyDocModel.view w x = Ok n /\ Forall (fun g => texts_proper (g_base g)) (pt_groups (doc_parts n)) /\
  rmap (map gkey) (groups_match exact_match w x (ask (Some "a"%string) None None None)) = Ok [Some (S_ "a"); Some (S_ "a")] /\
  rmap (@length group) (groups_match exact_match w x (ask None (Some "A"%string) None None)) = Ok 1 /\
  rmap (@length category) (categories_match exact_match w x (ask (Some "a"%string) None None None)) = Ok 0.
Proof.
  do 4 eexists. split; [vm_compute; reflexivity|]. split; [exact session_fine|]. split; [reflexivity|]. split; [vm_compute; reflexivity|].
  split; [|repeat split; vm_compute; reflexivity].
  apply texts_ok_b; [vm_compute; reflexivity|]. intros g Hg. vm_compute in Hg. destruct Hg as [<-|[<-|[]]]; split; reflexivity.
Qed.
Theorem C98_groups_refuted : exists w outs x n out, PyDocModel.run_docs false PropertiesG.always_ok PropertiesV.no_text PyDocModel.start session = Ok (w, outs) /\
  nth_error (PyDocModel.w_docs w) 0 = Some x /\ PyDocModel.view w x = Ok n /\
  groups_match exact_match w x (ask None None (Some "text"%string) (Some "cs"%string)) = Ok out /\ In described out /\
  ~ wanted exact_match None None (Some (S_ "text")) (Some (S_ "cs")) 0 (g_base described).
Proof.
  do 5 eexists. split; [vm_compute; reflexivity|]. split; [reflexivity|]. split; [vm_compute; reflexivity|].
  split; [vm_compute; reflexivity|]. split; [left; vm_compute; reflexivity|].
  intros (_ & _ & (s & E & _)). vm_compute in E. discriminate.
Qed.
Print Assumptions C98_groups_refuted.
