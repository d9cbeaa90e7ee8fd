(** Property theorems for loading what was saved (C28, C40).

    [heard [] cs es] (SpecG2): an expat parser fed with what libxml2 writes for the
    calls [cs] may report the events [es]: white space anywhere, every text in one
    or more pieces, none of them blank.  [parts_normal o p] (SpecG2 to SpecG5) is
    the normal form: ids, names and descriptions present and not blank, display
    orders not negative, basearchonly absent or 1, architectures words, no empty
    package or group list that is written, dictionaries that list their texts. *)
From Verif Require Import CStr CStrFacts HSListModel HSListFacts RTreeModel RTreeFacts RTreeFacts2 RTreeFacts3 RTreeFacts4 MRTreeModel MRTreeFacts MRTreeFacts2
  ObjModel ObjFacts ObjFacts2 Dec StrModel StrFacts DocModel DocFacts DocFacts2 SpecA SpecB SpecC PropertiesC SpecD SpecD2 PropertiesD SpecE ParseModel ParseFacts SpecF SpecF2 SpecF3 SpecF4
  XmlModel XmlFacts SpecG SpecG2 SpecG3 SpecG4 SpecG5 SpecG6 SpecG7 PropertiesG.

(** A document with every kind of part. *)
Definition tree_of (kvs : list (str * ostr)) : rtree ostr := match rt_sets rt_create kvs with Ok t => t | _ => rt_create end.
Lemma tree_of_ok kvs : reach ostr_copy (tree_of kvs).
Proof. unfold tree_of. destruct (rt_sets rt_create kvs) as [t| |] eqn:E; [exact (reach_sets _ _ _ E)|constructor|constructor]. Qed.
Definition mtree_of (kvs : list (str * ostr)) : mtree ostr := match mt_sets mt_create kvs with Ok t => t | _ => mt_create end.
Lemma mtree_of_ok kvs : nonempty_keys kvs -> mreach (mtree_of kvs).
Proof. intros H. unfold mtree_of. destruct (mt_sets mt_create kvs) as [t| |] eqn:E; [apply (mreach_sets kvs t mt_create); [constructor|exact H|exact E]|constructor|constructor]. Qed.
Definition so (s : string) : ostr := Some (S_ s).
Definition full_base (id name : string) (more : list (str * pval)) (ns : list (str * ostr)) : base :=
  mkB (b_props (named_base id (str_p "name" name :: str_p "desc" "some tools" :: more))) (tree_of ns) (tree_of []).
Lemma full_base_ok id name more ns : breach (full_base id name more ns).
Proof. split; [apply named_base_ok|]. split; apply tree_of_ok. Qed.
Definition flags (d u b : Z) : list (str * pval) := [(S_ "def", PNum d); (S_ "uservisible", PNum u); (S_ "biarchonly", PNum b)].
Definition rt_group : group :=
  mkG (full_base "core" "Core" ((S_ "display_order", PNum 12) :: str_p "langonly" "cs" :: flags 1 0 0) [(S_ "cs", so "Jadro"); (S_ "de", so "Kern")]) [ex_pkg; mkp "sed" 0; mkp "awk" 3].
Definition rt_ops : list dop :=
  [OAddGroup rt_group; OAddCat (mkC (full_base "cat" "Category" [(S_ "arches", PList [so "x86_64"; so "arm"])] []) [mki "core" true]);
   OAddEnv (mkE (full_base "env" "Environment" [] []) [mki "core" false] [mki "opt" true]);
   OSetLangpacks (tree_of [(S_ "firefox", so "firefox-cs"); (S_ "libre", so "libre-cs")]);
   OSetBlacklist (mtree_of [(S_ "p", so "arm"); (S_ "pax", so "i386"); (S_ "p", so "ppc")]); OSetWhiteout (mtree_of [(S_ "x", so "y")])].
Definition rt_doc : doc := doc_of rt_ops.
Lemma rt_doc_ok : dreach rt_doc.
Proof.
  apply doc_of_ok. repeat (constructor; [first [apply full_base_ok|apply tree_of_ok|apply mtree_of_ok, nonempty_keys_b; vm_compute; reflexivity]|]). constructor.
Qed.
(** Architectures written, everything else as by default. *)
Definition with_arch : xopts := mkXO false false false false false false false false false false false true.

(** * C28 *)
(** Every document in normal form saved to a file, under any options, and loaded
    back with the same defaults, by any parser, fed in any blocks: success, an
    empty log, the document's head and the same objects with the same contents, in
    order, without those left out. *)
Theorem C28_round_trip_partial : forall ac name saved x df d w' r st fs, docwf d -> parts_normal (opt_xopts x) (doc_parts d) ->
  comps2xml_f ac name saved x df d w0 = Ok (w', r) -> Forall (fun c => snd c = true) (w_calls w') ->
  heard [] (calls w') (concat (map fst fs)) -> Forall (fun f => snd f = None) fs -> ready st ->
  exists st' d', parse_file false st (Some fs) df = Ok (st', 0%Z) /\ ps_log st' = [] /\ ps_doc st' = PLive d' /\ ready st' /\ docwf d' /\
    head_carried d d' (ps_enc st) /\ parts_carried (opt_dopts df) (opt_xopts x) (doc_parts d) (doc_parts d').
Proof. exact round_file. Qed.
Print Assumptions C28_round_trip_partial.
(** The same through a string. *)
Theorem C28_string_partial : forall ac x df d w' en f, docwf d -> parts_normal (opt_xopts x) (doc_parts d) ->
  comps2xml_str ac x df d w0 = Ok (w', tt) -> Forall (fun c => snd c = true) (w_calls w') ->
  heard [] (calls w') (fst f) -> snd f = None ->
  exists st' d', parse_str false (parsed_init en) f df = Ok (st', 0%Z) /\ ps_log st' = [] /\ ps_doc st' = PLive d' /\ docwf d' /\
    head_carried d d' en /\ parts_carried (opt_dopts df) (opt_xopts x) (doc_parts d) (doc_parts d').
Proof. exact round_str. Qed.
Print Assumptions C28_string_partial.
(** If besides architectures are written, nothing is left out, the booleans are
    all set and no property is foreign, the loaded document compares equal. *)
Theorem C28_compare_partial : forall ac name saved x df d w' r st fs en, docwf d -> parts_normal (opt_xopts x) (doc_parts d) ->
  parts_exact (opt_xopts x) (doc_parts d) -> d_enc d = Some en -> ps_enc st = en ->
  comps2xml_f ac name saved x df d w0 = Ok (w', r) -> Forall (fun c => snd c = true) (w_calls w') ->
  heard [] (calls w') (concat (map fst fs)) -> Forall (fun f => snd f = None) fs -> ready st ->
  exists st' d' a b, parse_file false st (Some fs) df = Ok (st', 0%Z) /\ ps_log st' = [] /\ ps_doc st' = PLive d' /\ doc_cmp d d' = Ok (a, b, true).
Proof.
  intros ac name saved x df d w' r st fs en Hw Hn Hx He Hs E Ha Hh Hf Hr.
  destruct (round_file ac name saved x df d w' r st fs Hw Hn E Ha Hh Hf Hr) as (st' & d' & P & L & D & _ & Hd' & Hh' & Hp).
  destruct (doc_cmp_spec d d' Hw Hd') as (a & b & c & Ec & Hc & _). exists st', d', a, b. split; [exact P|]. split; [exact L|]. split; [exact D|].
  rewrite Hs in Hh'. assert (c = true) by (apply Hc; exact (carried_same _ _ d d' en Hx He Hh' Hp)). now subst c.
Qed.
Print Assumptions C28_compare_partial.
(** A reader may cut texts anywhere if they hold no white space. *)
Theorem C28_any_pieces : forall o cs es, heard_any o cs es -> no_white cs -> heard o cs es.
Proof. exact heard_any_heard. Qed.
Print Assumptions C28_any_pieces.
(** Such events exist for every saved document without blank texts. *)
Theorem C28_readers : forall ac name saved x df d w' r, comps2xml_f ac name saved x df d w0 = Ok (w', r) ->
  Forall (fun c => snd c = true) (w_calls w') -> no_blanks (calls w') -> exists es, heard [] (calls w') es.
Proof. exact saved_heard. Qed.
Print Assumptions C28_readers.
(** The document above meets every hypothesis. *)
Definition saved_of (x : option xopts) (d : doc) : wst := match comps2xml_f always_ok (S_ "f") true x None d w0 with Ok (w, _) => w | _ => w0 end.
Definition no_blanksb (cs : list call) : bool := forallb (fun s => match s with [] => true | _ => negb (blankb s) end) (texts_of cs).
Lemma no_blanksb_ok cs : no_blanksb cs = true -> no_blanks cs.
Proof. apply forallb_Forall. intros [|c s] H; [now left|right]. now apply blankb_free. Qed.
Example C28_case : dreach rt_doc /\ docwf rt_doc /\ parts_normal with_arch (doc_parts rt_doc) /\ parts_exact with_arch (doc_parts rt_doc) /\
  d_enc rt_doc = Some (so "UTF-8") /\
  exists w', comps2xml_f always_ok (S_ "f") true (Some with_arch) None rt_doc w0 = Ok (w', 0%Z) /\ Forall (fun c => snd c = true) (w_calls w') /\
    length (calls w') = 124 /\ exists es, heard [] (calls w') es.
Proof.
  assert (Hw : docwf rt_doc) by (apply dreach_wf, rt_doc_ok).
  assert (E : comps2xml_f always_ok (S_ "f") true (Some with_arch) None rt_doc w0 = Ok (saved_of (Some with_arch) rt_doc, 0%Z)) by (vm_compute; reflexivity).
  assert (Ha : Forall (fun c => snd c = true) (w_calls (saved_of (Some with_arch) rt_doc))) by (apply Forall_forall; apply forallb_forall; vm_compute; reflexivity).
  split; [exact rt_doc_ok|]. split; [exact Hw|]. split; [apply partsnb_normal; [exact Hw|vm_compute; reflexivity]|].
  split; [apply partsxb_exact; [exact Hw|vm_compute; reflexivity]|]. split; [vm_compute; reflexivity|].
  exists (saved_of (Some with_arch) rt_doc). split; [exact E|]. split; [exact Ha|]. split; [vm_compute; reflexivity|].
  apply (saved_heard _ _ _ _ _ _ _ _ E Ha). apply no_blanksb_ok. vm_compute. reflexivity.
Qed.
(** expat reports a line break as a piece of its own; the parser drops blank
    pieces, so the line break is lost, without a message. *)
Definition two_lines : str := S_ "a" ++ "010"%char :: S_ "b".
Definition lf_doc : doc :=
  doc_of [OAddGroup (mkG (named_base "g" [(S_ "name", PStr (Some two_lines)); str_p "desc" "d"]) [mkp "p" 0])].
Definition the_tree (x : option xopts) (d : doc) : xml := match doc_tree (opt_xopts x) (opt_dopts None) d with Ok t => fst t | _ => Text [] end.
Definition the_events (cut : str -> list str) (x : option xopts) (d : doc) : list event :=
  match d_name d, d_pubid d, d_sysid d with Some n, Some p, Some s => doc_events cut n p s (the_tree x d) | _, _, _ => [] end.
Definition prop_of (k : string) (g : group) : res (option pval) := base_get (g_base g) (S_ k).
Theorem C28_line_break_refuted : exists d w' es st' d', dreach d /\ parts_normal (opt_xopts None) (doc_parts d) /\
  comps2xml_f always_ok (S_ "f") true None None d w0 = Ok (w', 0%Z) /\ Forall (fun c => snd c = true) (w_calls w') /\ heard_any [] (calls w') es /\
  parse_file false (parsed_init (so "UTF-8")) (Some [(es, None)]) None = Ok (st', 0%Z) /\ ps_log st' = [] /\ ps_doc st' = PLive d' /\
  map (prop_of "name") (pt_groups (doc_parts d)) = [Ok (Some (PStr (Some two_lines)))] /\
  map (prop_of "name") (pt_groups (doc_parts d')) = [Ok (Some (PStr (so "ab")))].
Proof.
  assert (Hd : dreach lf_doc) by (apply doc_of_ok; repeat constructor; apply named_base_ok).
  exists lf_doc, (saved_of None lf_doc), (the_events lines None lf_doc). eexists _, _. split; [exact Hd|].
  split; [apply partsnb_normal; [now apply dreach_wf|vm_compute; reflexivity]|]. split; [vm_compute; reflexivity|].
  split; [apply Forall_forall; apply forallb_forall; vm_compute; reflexivity|]. split.
  - assert (Ec : calls (saved_of None lf_doc) = WStartDoc (enc_str lf_doc) :: dtd_calls (Some default_doctype_name) (Some default_doctype_pubid) (Some default_doctype_sysid) ++ ser (the_tree None lf_doc) ++ [WEndDoc])
      by (vm_compute; reflexivity).
    assert (Ee : the_events lines None lf_doc = doc_events lines (Some default_doctype_name) (Some default_doctype_pubid) (Some default_doctype_sysid) (the_tree None lf_doc)) by (vm_compute; reflexivity).
    rewrite Ec, Ee. apply doc_heard_any; intros y; apply lines_concat.
  - split; [vm_compute; reflexivity|]. split; [vm_compute; reflexivity|]. split; [vm_compute; reflexivity|]. split; vm_compute; reflexivity.
Qed.
Print Assumptions C28_line_break_refuted.
(** A copied dictionary has length 0, so its entries are not written. *)
Theorem C28_copied_dictionary_refuted : exists d w', dreach d /\ rt_get (pt_langpacks (doc_parts d)) (S_ "a") = Ok (Some (so "b")) /\
  comps2xml_f always_ok (S_ "f") true None None d w0 = Ok (w', 0%Z) /\ Forall (fun c => snd c = true) (w_calls w') /\ ~ In (WStart (S_ "langpacks")) (calls w').
Proof.
  set (d := doc_of [OSetLangpacks (rt_copy ostr_copy (tree_of [(S_ "a", so "b")]))]). exists d, (saved_of None d).
  split; [apply doc_of_ok; constructor; [apply R_copy, tree_of_ok|constructor]|]. split; [vm_compute; reflexivity|]. split; [vm_compute; reflexivity|].
  split; [apply Forall_forall; apply forallb_forall; vm_compute; reflexivity|]. vm_compute. intuition discriminate.
Qed.
Print Assumptions C28_copied_dictionary_refuted.
(** Two blacklisted names with a common prefix: one architecture is written
    with brackets around it. *)
Theorem C28_blacklist_refuted : exists d w', dreach d /\
  d = doc_of [OSetBlacklist (mtree_of [(S_ "abc", so "x"); (S_ "abd", so "y")])] /\
  comps2xml_f always_ok (S_ "f") true None None d w0 = Ok (w', 0%Z) /\ Forall (fun c => snd c = true) (w_calls w') /\
  In (WAttr (S_ "arch") (S_ "[x]")) (calls w') /\ ~ In (WAttr (S_ "arch") (S_ "x")) (calls w').
Proof.
  set (d := doc_of [OSetBlacklist (mtree_of [(S_ "abc", so "x"); (S_ "abd", so "y")])]). exists d, (saved_of None d).
  split; [apply doc_of_ok; constructor; [apply mtree_of_ok, nonempty_keys_b; vm_compute; reflexivity|constructor]|]. split; [reflexivity|]. split; [vm_compute; reflexivity|].
  split; [apply Forall_forall; apply forallb_forall; vm_compute; reflexivity|]. split; [vm_compute; tauto|]. vm_compute. intuition discriminate.
Qed.
Print Assumptions C28_blacklist_refuted.
(** With basearchonly written explicitly, a package with the value 0 is written
    with "true" and read back with 1. *)
Definition with_bao : xopts := mkXO false false false false false false false false false false true false.
Definition bao_doc : doc := doc_of [OAddGroup (mkG (named_base "g" [str_p "name" "n"; str_p "desc" "d"]) [mkPkg (Some (so "p")) None (Some 0%Z) PK_DEFAULT None])].
Theorem C28_basearchonly_refuted : exists d w' es st' d', dreach d /\
  comps2xml_f always_ok (S_ "f") true (Some with_bao) None d w0 = Ok (w', 0%Z) /\ Forall (fun c => snd c = true) (w_calls w') /\ heard [] (calls w') es /\
  parse_file false (parsed_init (so "UTF-8")) (Some [(es, None)]) None = Ok (st', 0%Z) /\ ps_log st' = [] /\ ps_doc st' = PLive d' /\
  map (fun g => map p_bao (g_pkgs g)) (pt_groups (doc_parts d)) = [[Some 0%Z]] /\ map (fun g => map p_bao (g_pkgs g)) (pt_groups (doc_parts d')) = [[Some 1%Z]].
Proof.
  assert (Hd : dreach bao_doc) by (apply doc_of_ok; repeat constructor; apply named_base_ok).
  exists bao_doc, (saved_of (Some with_bao) bao_doc), (the_events whole (Some with_bao) bao_doc). eexists _, _. split; [exact Hd|]. split; [vm_compute; reflexivity|].
  split; [apply Forall_forall; apply forallb_forall; vm_compute; reflexivity|]. split.
  - assert (Ec : calls (saved_of (Some with_bao) bao_doc) = WStartDoc (enc_str bao_doc) :: dtd_calls (Some default_doctype_name) (Some default_doctype_pubid) (Some default_doctype_sysid) ++ ser (the_tree (Some with_bao) bao_doc) ++ [WEndDoc])
      by (vm_compute; reflexivity).
    assert (Ee : the_events whole (Some with_bao) bao_doc = doc_events whole (Some default_doctype_name) (Some default_doctype_pubid) (Some default_doctype_sysid) (the_tree (Some with_bao) bao_doc)) by (vm_compute; reflexivity).
    rewrite Ec, Ee. apply doc_heard; [intros y; apply whole_concat|]. intros y Hy. apply whole_blank.
    assert (Hn : no_blanks (ser (the_tree (Some with_bao) bao_doc))) by (apply no_blanksb_ok; vm_compute; reflexivity). unfold no_blanks in Hn. rewrite Forall_forall in Hn. auto.
  - split; [vm_compute; reflexivity|]. split; [vm_compute; reflexivity|]. split; [vm_compute; reflexivity|]. split; vm_compute; reflexivity.
Qed.
Print Assumptions C28_basearchonly_refuted.

(** * C40 *)
(** Under any options and defaults, the booleans of a group mean the same after
    saving and loading, and are then set explicitly. *)
Definition same_booleans (df : dopts) (g g' : group) : Prop :=
  forall k dflt, In (k, dflt) [("def"%string, o_default df); ("uservisible"%string, o_uservisible df); ("biarchonly"%string, o_biarchonly df)] ->
    exists b : bool, prop_of k g' = Ok (Some (PNum (if b then 1 else 0))) /\
      (b = true <-> match prop_of k g with Ok (Some (PNum z)) => z <> 0%Z | _ => dflt = true end).
Theorem C40_booleans_partial : forall ac name saved x df d w' r st fs, docwf d -> parts_normal (opt_xopts x) (doc_parts d) ->
  comps2xml_f ac name saved x df d w0 = Ok (w', r) -> Forall (fun c => snd c = true) (w_calls w') ->
  heard [] (calls w') (concat (map fst fs)) -> Forall (fun f => snd f = None) fs -> ready st ->
  exists st' d' gs, parse_file false st (Some fs) df = Ok (st', 0%Z) /\ ps_doc st' = PLive d' /\
    kept (group_left_out (opt_xopts x)) (pt_groups (doc_parts d)) gs /\ Forall2 (same_booleans (opt_dopts df)) gs (pt_groups (doc_parts d')).
Proof.
  intros ac name saved x df d w' r st fs Hw Hn E Ha Hh Hf Hr.
  destruct (round_file ac name saved x df d w' r st fs Hw Hn E Ha Hh Hf Hr) as (st' & d' & P & _ & D & _ & _ & _ & ((gs & K & F) & _)).
  exists st', d', gs. split; [exact P|]. split; [exact D|]. split; [exact K|]. eapply Forall2_imp; [|exact F].
  intros g g' (_ & _ & _ & B1 & B2 & B3 & _) k dflt Hi.
  assert (Hm : forall b : res (option pval), meaning b dflt = true <-> match b with Ok (Some (PNum z)) => z <> 0%Z | _ => dflt = true end).
  { intros [[[|z|]|]| |]; cbn; try tauto. rewrite negb_true_iff, Z.eqb_neq. tauto. }
  cbn [In] in Hi. destruct Hi as [Hi|[Hi|[Hi|[]]]]; apply pair_equal_spec in Hi; destruct Hi as [<- <-]; eexists.
  - split; [exact B1|apply Hm].
  - split; [exact B2|apply Hm].
  - split; [exact B3|apply Hm].
Qed.
Print Assumptions C40_booleans_partial.
(** The document of C28 has a group with the booleans 1, 0, 0.  One with none set,
    saved with every default turned round: loaded with the same defaults, it has
    those; with the library's, the others. *)
Definition plain_doc : doc := doc_of [OAddGroup (mkG (named_base "g" [str_p "name" "n"; str_p "desc" "d"]) [mkp "p" 0])].
Definition opposite : dopts := mkDO false true true PK_OPTIONAL.
Definition booleans_after (df : dopts) : list (list (res (option pval))) :=
  match doc_tree (opt_xopts None) opposite plain_doc with
  | Ok t => match parse_file false (parsed_init (so "UTF-8")) (Some [(doc_events whole (so "comps") (so "p") (so "s") (fst t), None)]) (Some df) with
            | Ok (st, _) => match ps_doc st with PLive d => map (fun g => [prop_of "def" g; prop_of "uservisible" g; prop_of "biarchonly" g]) (pt_groups (doc_parts d)) | _ => [] end
            | _ => [] end
  | _ => [] end.
Example C40_case : parts_normal (opt_xopts None) (doc_parts plain_doc) /\
  booleans_after opposite = [[Ok (Some (PNum 1)); Ok (Some (PNum 0)); Ok (Some (PNum 1))]] /\
  booleans_after default_dopts = [[Ok (Some (PNum 0)); Ok (Some (PNum 1)); Ok (Some (PNum 0))]].
Proof.
  split; [apply partsnb_normal; [apply dreach_wf, doc_of_ok; repeat constructor; apply named_base_ok|vm_compute; reflexivity]|]. split; vm_compute; reflexivity.
Qed.
