(** Property theorems for documents (C18-C20, C22, C23, C44).

    [dreach d]: the document was produced by some history of the library's
    document operations.  [doc_parts d] reads the six parts of a document off its
    dictionary; C23_getters ties it to what the getter functions return. *)
From Verif Require Import CStr CStrFacts HSListModel HSListFacts SetModel SetFacts
  RTreeModel RTreeFacts RTreeFacts2 RTreeFacts3 RTreeFacts4 MRTreeModel MRTreeFacts MRTreeFacts2
  SpecA SpecB ObjModel ObjFacts ObjFacts2 SpecC PropertiesC DocModel DocFacts DocFacts2 SpecD SpecD2.

(** Concrete documents for the examples. *)
Definition utf8 : option (option ostr) := Some (Some (Some (S_ "UTF-8"))).
Definition doc0 : doc := match doc_create utf8 with Ok d => d | _ => mkDoc rt_create None None None None end.
Lemma doc0_ok : dreach doc0 /\ d_enc doc0 <> None.
Proof. split; [apply (D_create utf8); reflexivity|discriminate]. Qed.
Definition doc_of (os : list dop) : doc := match dop_runs doc0 os with Ok d => d | _ => doc0 end.
Lemma doc_of_ok os : Forall dop_ok os -> dreach (doc_of os) /\ d_enc (doc_of os) = d_enc doc0.
Proof.
  intros H. destruct (histories doc0 os (proj1 doc0_ok) H) as (d & E & Hd & Hh & _). unfold doc_of. rewrite E.
  split; [exact Hd|apply Hh].
Qed.
Definition named_base (id : string) (more : list (str * pval)) : base :=
  match props_of ((S_ "id", PStr (Some (S_ id))) :: more) with Ok b => b | _ => base_create end.
Definition str_p (k v : string) : str * pval := (S_ k, PStr (Some (S_ v))).
Lemma named_base_ok id more : breach (named_base id more).
Proof.
  unfold named_base. destruct (props_of _) as [b| |] eqn:E; [exact (props_of_breach _ _ E)| |];
  (split; [constructor|split; constructor]).
Qed.
Definition gr (id : string) (ps : list pkg) : group := mkG (named_base id []) ps.
Definition ct (id : string) (ps : list gid) : category := mkC (named_base id []) ps.
Definition en (id : string) (ps : list gid) : env := mkE (named_base id []) ps [].

(** * C18 *)
(** Every id exactly once; an object is the union of all objects with its id (the
    first one of the first document, then those of the second in order). *)
Theorem C18_doc_union : forall d1 d2, dreach d1 -> dreach d2 -> d_enc d1 <> None ->
  exists d, doc_union d1 d2 = Ok d /\ dreach d /\ fresh_head (d_enc d1) d /\
    groups_merged (pt_groups (doc_parts d1)) (pt_groups (doc_parts d2)) (pt_groups (doc_parts d)) /\
    cats_merged (pt_cats (doc_parts d1)) (pt_cats (doc_parts d2)) (pt_cats (doc_parts d)) /\
    envs_merged (pt_envs (doc_parts d1)) (pt_envs (doc_parts d2)) (pt_envs (doc_parts d)) /\
    map_union (pt_langpacks (doc_parts d1)) (pt_langpacks (doc_parts d2)) (pt_langpacks (doc_parts d)).
Proof. exact union_dreach. Qed.
Print Assumptions C18_doc_union.
(** With unique ids in both documents: the ids in their exact order, and each
    object the union of the two or a copy of the only one. *)
Theorem C18_doc_union_unique : forall d1 d2, dreach d1 -> dreach d2 -> d_enc d1 <> None -> unique_ids d1 -> unique_ids d2 ->
  exists d, doc_union d1 d2 = Ok d /\ unique_ids d /\
    groups_united (pt_groups (doc_parts d1)) (pt_groups (doc_parts d2)) (pt_groups (doc_parts d)) /\
    cats_united (pt_cats (doc_parts d1)) (pt_cats (doc_parts d2)) (pt_cats (doc_parts d)) /\
    envs_united (pt_envs (doc_parts d1)) (pt_envs (doc_parts d2)) (pt_envs (doc_parts d)) /\
    map_union (pt_langpacks (doc_parts d1)) (pt_langpacks (doc_parts d2)) (pt_langpacks (doc_parts d)).
Proof. intros d1 d2 H1 H2. exact (doc_union_unique d1 d2 (dreach_wf _ H1) (dreach_wf _ H2)). Qed.
Print Assumptions C18_doc_union_unique.
Definition ex_d1 : doc := doc_of [OAddGroup (gr "a" [mkp "x" 0]); OAddGroup (gr "b" [mkp "y" 0]); OAddCat (ct "c" [mki "a" true])].
Definition ex_d2 : doc := doc_of [OAddGroup (gr "c" [mkp "z" 3]); OAddGroup (gr "a" [mkp "w" 3; mkp "x" 3])].
Lemma ex_d1_ok : dreach ex_d1 /\ d_enc ex_d1 <> None.
Proof.
  destruct (doc_of_ok [OAddGroup (gr "a" [mkp "x" 0]); OAddGroup (gr "b" [mkp "y" 0]); OAddCat (ct "c" [mki "a" true])]) as [H E].
  - constructor; [apply named_base_ok|]. constructor; [apply named_base_ok|]. constructor; [apply named_base_ok|constructor].
  - split; [exact H|]. unfold ex_d1. rewrite E. apply doc0_ok.
Qed.
Lemma ex_d2_ok : dreach ex_d2 /\ d_enc ex_d2 <> None.
Proof.
  destruct (doc_of_ok [OAddGroup (gr "c" [mkp "z" 3]); OAddGroup (gr "a" [mkp "w" 3; mkp "x" 3])]) as [H E].
  - constructor; [apply named_base_ok|]. constructor; [apply named_base_ok|constructor].
  - split; [exact H|]. unfold ex_d2. rewrite E. apply doc0_ok.
Qed.
Definition unique_b {A} (dec : forall a b : A, {a = b} + {a <> b}) (l : list A) : bool :=
  if list_eq_dec dec (nodup dec l) l then true else false.
Lemma unique_b_ok {A} (dec : forall a b : A, {a = b} + {a <> b}) l : unique_b dec l = true -> NoDup l.
Proof. unfold unique_b. destruct (list_eq_dec dec (nodup dec l) l) as [E|]; [intros _|discriminate]. rewrite <- E. apply NoDup_nodup. Qed.
Example C18_case :
  dreach ex_d1 /\ dreach ex_d2 /\ d_enc ex_d1 <> None /\ unique_ids ex_d1 /\ unique_ids ex_d2 /\
  (d <- doc_union ex_d1 ex_d2 ;; Ok (map (fun g => (group_id g, g_pkgs g)) (pt_groups (doc_parts d)))) =
  Ok [(Some (PStr (Some (S_ "b"))), [mkp "y" 0]); (Some (PStr (Some (S_ "c"))), [mkp "z" 3]);
      (Some (PStr (Some (S_ "a"))), [mkp "x" 3; mkp "w" 3])].
Proof.
  split; [apply ex_d1_ok|]. split; [apply ex_d2_ok|]. split; [apply ex_d1_ok|].
  split; [split; [|split]; apply (unique_b_ok oid_dec); vm_compute; reflexivity|].
  split; [split; [|split]; apply (unique_b_ok oid_dec); vm_compute; reflexivity|]. vm_compute. reflexivity.
Qed.
(** Blacklist and whiteout are not carried over (union, intersection, filter),
    langpacks only by the union. *)
Theorem C18_parts_dropped : forall d1 d2 arches d, dreach d1 -> dreach d2 ->
  (doc_union d1 d2 = Ok d \/ doc_intersect d1 d2 = Ok d \/ (doc_arches_proper d1 /\ doc_arch_filter d1 arches = Ok d)) ->
  pt_blacklist (doc_parts d) = mt_create /\ pt_whiteout (doc_parts d) = mt_create /\
  (doc_union d1 d2 = Ok d \/ pt_langpacks (doc_parts d) = rt_create).
Proof. exact parts_dropped. Qed.
Print Assumptions C18_parts_dropped.
(** A document created without an encoding: the three operations read through a
    null pointer. *)
Theorem C18_no_encoding_refuted : exists d, dreach d /\ d_enc d = None /\
  forall d2 arches, doc_union d d2 = UB /\ doc_intersect d d2 = UB /\ doc_arch_filter d arches = UB.
Proof.
  destruct (doc_create None) as [d| |] eqn:E; try discriminate. exists d.
  assert (Hd : dreach d) by exact (D_create None d E).
  assert (He : d_enc d = None) by (inversion E; reflexivity).
  split; [exact Hd|]. split; [exact He|]. intros d2 arches. exact (no_encoding d d2 arches (dreach_wf _ Hd) He).
Qed.
Print Assumptions C18_no_encoding_refuted.

(** * C19 *)
Theorem C19_doc_intersect : forall d1 d2, dreach d1 -> dreach d2 -> d_enc d1 <> None ->
  exists d, doc_intersect d1 d2 = Ok d /\ dreach d /\ fresh_head (d_enc d1) d /\
    groups_common (pt_groups (doc_parts d1)) (pt_groups (doc_parts d2)) (pt_groups (doc_parts d)) /\
    cats_common (pt_cats (doc_parts d1)) (pt_cats (doc_parts d2)) (pt_cats (doc_parts d)) /\
    envs_common (pt_envs (doc_parts d1)) (pt_envs (doc_parts d2)) (pt_envs (doc_parts d)).
Proof. exact intersect_dreach. Qed.
Print Assumptions C19_doc_intersect.
Example C19_case :
  dreach ex_d1 /\ dreach ex_d2 /\ d_enc ex_d1 <> None /\
  (d <- doc_intersect ex_d1 ex_d2 ;; Ok (map (fun g => (group_id g, g_pkgs g)) (pt_groups (doc_parts d)))) =
  Ok [(Some (PStr (Some (S_ "a"))), [mkp "x" 0])].
Proof. split; [apply ex_d1_ok|]. split; [apply ex_d2_ok|]. split; [apply ex_d1_ok|]. vm_compute. reflexivity. Qed.

(** * C20 *)
Theorem C20_doc_filter : forall d arches, dreach d -> d_enc d <> None -> doc_arches_proper d ->
  exists d', doc_arch_filter d arches = Ok d' /\ dreach d' /\ fresh_head (d_enc d) d' /\
    objs_filtered g_base (group_filtered arches) arches (pt_groups (doc_parts d)) (pt_groups (doc_parts d')) /\
    objs_filtered c_base (category_filtered arches) arches (pt_cats (doc_parts d)) (pt_cats (doc_parts d')) /\
    objs_filtered e_base (env_filtered arches) arches (pt_envs (doc_parts d)) (pt_envs (doc_parts d')).
Proof. exact filter_dreach. Qed.
Print Assumptions C20_doc_filter.
Theorem C20_doc_filter_idempotent : forall d arches d', dreach d -> doc_arches_proper d -> doc_arch_filter d arches = Ok d' ->
  exists d'', doc_arch_filter d' arches = Ok d'' /\
    Forall2 group_equal (pt_groups (doc_parts d'')) (pt_groups (doc_parts d')) /\
    Forall2 category_equal (pt_cats (doc_parts d'')) (pt_cats (doc_parts d')) /\
    Forall2 env_equal (pt_envs (doc_parts d'')) (pt_envs (doc_parts d')).
Proof. intros d arches d' H. exact (filter_idempotent d arches d' (dreach_wf _ H)). Qed.
Print Assumptions C20_doc_filter_idempotent.
Theorem C20_doc_filter_monotone : forall d a1 a2 d1 d2, dreach d -> doc_arches_proper d -> incl a1 a2 ->
  doc_arch_filter d a1 = Ok d1 -> doc_arch_filter d a2 = Ok d2 ->
  (forall g1, In g1 (pt_groups (doc_parts d1)) -> exists g2, In g2 (pt_groups (doc_parts d2)) /\
     same_base (g_base g1) (g_base g2) /\ incl (g_pkgs g1) (g_pkgs g2)) /\
  (forall c1, In c1 (pt_cats (doc_parts d1)) -> exists c2, In c2 (pt_cats (doc_parts d2)) /\
     same_base (c_base c1) (c_base c2) /\ incl (c_gids c1) (c_gids c2)) /\
  (forall e1, In e1 (pt_envs (doc_parts d1)) -> exists e2, In e2 (pt_envs (doc_parts d2)) /\
     same_base (e_base e1) (e_base e2) /\ incl (e_groups e1) (e_groups e2) /\ incl (e_options e1) (e_options e2)).
Proof. intros d a1 a2 d1 d2 H. exact (filter_monotone d a1 a2 d1 d2 (dreach_wf _ H)). Qed.
Print Assumptions C20_doc_filter_monotone.
Definition ex_arches (l : list string) : str * pval := (S_ "arches", PList (map (fun s => Some (S_ s)) l)).
Definition ex_d3_ops : list dop :=
  [OAddGroup (mkG (named_base "a" [ex_arches ["x86_64"%string]]) [mkp "x" 0]);
   OAddGroup (mkG (named_base "b" [ex_arches ["ppc"%string]]) [mkp "y" 0]); OAddGroup (gr "c" [])].
Example C20_doc_case : let d := doc_of ex_d3_ops in
  dreach d /\ d_enc d <> None /\ doc_arches_proper d /\
  (d' <- doc_arch_filter d [Some (S_ "x86_64")] ;; Ok (map group_id (pt_groups (doc_parts d')))) =
  Ok [Some (PStr (Some (S_ "a"))); Some (PStr (Some (S_ "c")))].
Proof.
  assert (Ho : Forall dop_ok ex_d3_ops).
  { constructor; [apply named_base_ok|]. constructor; [apply named_base_ok|]. constructor; [apply named_base_ok|constructor]. }
  destruct (doc_of_ok _ Ho) as [H E]. split; [exact H|]. split; [rewrite E; apply doc0_ok|]. split; [|vm_compute; reflexivity].
  destruct (histories doc0 ex_d3_ops (proj1 doc0_ok) Ho) as (d & Ed & _ & _ & P). unfold doc_of, doc_arches_proper. rewrite Ed, P.
  rewrite (proj2 (create_wf utf8 doc0 eq_refl)).
  cbn [ex_d3_ops fold_left dop_effect with_groups pt_groups pt_cats pt_envs no_parts app].
  split; [|split; constructor]. constructor; [|constructor; [|constructor; [|constructor]]]; intros v Ev; vm_compute in Ev; inversion Ev; eauto.
Qed.

(** * C22 *)
(** The pattern matcher [fnm] (fnmatch) is arbitrary. *)
Theorem C22_get_categories : forall fnm d id name desc lang flags, dreach d ->
  Forall (fun x => texts_proper (c_base x)) (pt_cats (doc_parts d)) ->
  exists want, (forall x, want x = true <-> wanted fnm id name desc lang flags (c_base x)) /\
    doc_get_categories fnm d id name desc lang flags = Ok (filter want (pt_cats (doc_parts d))).
Proof. exact get_categories_spec. Qed.
Print Assumptions C22_get_categories.
Theorem C22_get_envs : forall fnm d id name desc lang flags, dreach d ->
  Forall (fun x => texts_proper (e_base x)) (pt_envs (doc_parts d)) ->
  exists want, (forall x, want x = true <-> wanted fnm id name desc lang flags (e_base x)) /\
    doc_get_envs fnm d id name desc lang flags = Ok (filter want (pt_envs (doc_parts d))).
Proof. exact get_envs_spec. Qed.
Print Assumptions C22_get_envs.
(** Groups: missing is the case where both [lang] and [desc] are given. *)
Theorem C22_get_groups_partial : forall fnm d id name desc lang flags, dreach d ->
  Forall (fun x => texts_proper (g_base x)) (pt_groups (doc_parts d)) -> lang = None \/ desc = None ->
  exists want, (forall x, want x = true <-> wanted fnm id name desc lang flags (g_base x)) /\
    doc_get_groups fnm d id name desc lang flags = Ok (filter want (pt_groups (doc_parts d))).
Proof. exact get_groups_plain. Qed.
Print Assumptions C22_get_groups_partial.
(** What the group query does in all cases: the untranslated description counts
    even if a language is given. *)
Theorem C22_get_groups_actual : forall fnm d id name desc lang flags, dreach d ->
  Forall (fun x => texts_proper (g_base x)) (pt_groups (doc_parts d)) ->
  exists want, (forall x, want x = true <-> wanted_either fnm id name desc lang flags (g_base x)) /\
    doc_get_groups fnm d id name desc lang flags = Ok (filter want (pt_groups (doc_parts d))).
Proof. exact get_groups_spec. Qed.
Print Assumptions C22_get_groups_actual.
Definition exact_match (p s : str) (_ : Z) : bool := streq p s.
Definition texts_b (b : base) : bool :=
  forallb (fun k => match rt_get (b_props b) k with Ok (Some (PStr (Some _))) | Ok None => true | _ => false end) [S_ "id"; S_ "name"; S_ "desc"].
Lemma texts_b_ok b : texts_b b = true -> b_names b = rt_create -> b_descs b = rt_create -> texts_proper b.
Proof.
  unfold texts_b. rewrite forallb_forall. intros H E1 E2. split; [|split].
  - intros k v Hk E. specialize (H k Hk). rewrite E in H. destruct v as [[s|]| |]; try discriminate. eauto.
  - intros l. rewrite E1, rt_get_look. cbn [rt_create troot]. rewrite look_empty. discriminate.
  - intros l. rewrite E2, rt_get_look. cbn [rt_create troot]. rewrite look_empty. discriminate.
Qed.
Definition ex_d4_ops : list dop :=
  [OAddGroup (mkG (named_base "a" [str_p "name" "A"; str_p "desc" "text"]) []); OAddGroup (mkG (named_base "b" [str_p "name" "A"]) [])].
Lemma ex_d4 : dreach (doc_of ex_d4_ops) /\ Forall (fun x => texts_proper (g_base x)) (pt_groups (doc_parts (doc_of ex_d4_ops))).
Proof.
  assert (Ho : Forall dop_ok ex_d4_ops).
  { constructor; [apply named_base_ok|]. constructor; [apply named_base_ok|constructor]. }
  destruct (doc_of_ok _ Ho) as [H E]. split; [exact H|].
  destruct (histories doc0 ex_d4_ops (proj1 doc0_ok) Ho) as (d & Ed & _ & _ & P). unfold doc_of. rewrite Ed, P.
  rewrite (proj2 (create_wf utf8 doc0 eq_refl)).
  cbn [ex_d4_ops fold_left dop_effect with_groups pt_groups no_parts app].
  constructor; [apply texts_b_ok; vm_compute; reflexivity|]. constructor; [apply texts_b_ok; vm_compute; reflexivity|constructor].
Qed.
Example C22_case : let d := doc_of ex_d4_ops in
  dreach d /\ Forall (fun x => texts_proper (g_base x)) (pt_groups (doc_parts d)) /\
  rmap (map group_id) (doc_get_groups exact_match d None (Some (S_ "A")) None None 0) =
    Ok [Some (PStr (Some (S_ "a"))); Some (PStr (Some (S_ "b")))] /\
  rmap (map group_id) (doc_get_groups exact_match d (Some (S_ "b")) (Some (S_ "A")) None None 0) = Ok [Some (PStr (Some (S_ "b")))] /\
  rmap (map group_id) (doc_get_groups exact_match d None (Some (S_ "A")) (Some (S_ "text")) None 0) = Ok [Some (PStr (Some (S_ "a")))].
Proof. destruct ex_d4 as [H1 H2]. split; [exact H1|]. split; [exact H2|]. vm_compute. repeat split; reflexivity. Qed.
Theorem C22_get_groups_refuted : exists d desc lang g out, dreach d /\
  Forall (fun x => texts_proper (g_base x)) (pt_groups (doc_parts d)) /\
  doc_get_groups exact_match d None None (Some desc) (Some lang) 0 = Ok out /\ In g out /\
  ~ wanted exact_match None None (Some desc) (Some lang) 0 (g_base g).
Proof.
  destruct ex_d4 as [H1 H2].
  exists (doc_of ex_d4_ops), (S_ "text"), (S_ "cs"), (mkG (named_base "a" [str_p "name" "A"; str_p "desc" "text"]) []).
  eexists. split; [exact H1|]. split; [exact H2|]. split; [vm_compute; reflexivity|]. split; [left; vm_compute; reflexivity|].
  intros (_ & _ & (s & E & _)). vm_compute in E. discriminate.
Qed.
Print Assumptions C22_get_groups_refuted.

(** * C23 *)
Theorem C23_getters : forall d, dreach d ->
  (exists d', doc_groups d = Ok (d', pt_groups (doc_parts d)) /\ dreach d' /\ doc_parts d' = doc_parts d) /\
  (exists d', doc_cats d = Ok (d', pt_cats (doc_parts d)) /\ dreach d' /\ doc_parts d' = doc_parts d) /\
  (exists d', doc_envs d = Ok (d', pt_envs (doc_parts d)) /\ dreach d' /\ doc_parts d' = doc_parts d) /\
  (exists d', doc_langpacks d = Ok (d', pt_langpacks (doc_parts d)) /\ dreach d' /\ doc_parts d' = doc_parts d) /\
  (exists d', doc_blacklist d = Ok (d', pt_blacklist (doc_parts d)) /\ dreach d' /\ doc_parts d' = doc_parts d) /\
  (exists d', doc_whiteout d = Ok (d', pt_whiteout (doc_parts d)) /\ dreach d' /\ doc_parts d' = doc_parts d).
Proof. exact getters. Qed.
Print Assumptions C23_getters.
(** Any history of setters, adders and getters, in any order, of the six parts
    (missing: the part "lang", see below). *)
Theorem C23_histories_partial : forall d os, dreach d -> Forall dop_ok os ->
  exists d', dop_runs d os = Ok d' /\ dreach d' /\ same_head d d' /\
    doc_parts d' = fold_left (fun p o => dop_effect o p) os (doc_parts d).
Proof. exact histories. Qed.
Print Assumptions C23_histories_partial.
Example C23_case :
  Forall dop_ok [OSetLangpacks rt_create; OAddGroup (gr "a" []); OSetGroups [gr "b" []]; OSetCats []; OAddGroup (gr "c" [])] /\
  map group_id (pt_groups (doc_parts (doc_of [OSetLangpacks rt_create; OAddGroup (gr "a" []); OSetGroups [gr "b" []]; OSetCats []; OAddGroup (gr "c" [])]))) =
  [Some (PStr (Some (S_ "b"))); Some (PStr (Some (S_ "c")))].
Proof.
  split; [|vm_compute; reflexivity].
  constructor; [apply R_create|]. constructor; [apply named_base_ok|].
  constructor; [constructor; [apply named_base_ok|constructor]|]. constructor; [constructor|]. constructor; [apply named_base_ok|constructor].
Qed.
(** Setting the document's language loses other parts (here the groups). *)
Theorem C23_lang_refuted : exists d, dreach d /\ exists d', doc_set_lang d (Some (Some (S_ "cs"))) = Ok d' /\
  pt_groups (doc_parts d) <> [] /\ pt_groups (doc_parts d') = [].
Proof.
  exists (doc_of [OSetGroups [gr "a" []]; OSetLangpacks rt_create]). split.
  - apply doc_of_ok. constructor; [constructor; [apply named_base_ok|constructor]|]. constructor; [apply R_create|constructor].
  - eexists. split; [vm_compute; reflexivity|]. split; [vm_compute; discriminate|vm_compute; reflexivity].
Qed.
Print Assumptions C23_lang_refuted.
(** The setters of the doctype's system and public id change its name instead. *)
Theorem C23_doctype_ids_refuted : exists d v, dreach d /\
  d_sysid (doc_doctype_sysid_set d v) <> v /\ d_name (doc_doctype_sysid_set d v) <> d_name d /\
  d_pubid (doc_doctype_pubid_set d v) <> v /\ d_name (doc_doctype_pubid_set d v) <> d_name d.
Proof.
  exists doc0, (Some (Some (S_ "x"))). split; [apply doc0_ok|]. repeat split; vm_compute; discriminate.
Qed.
Print Assumptions C23_doctype_ids_refuted.

(** * C44 *)
Theorem C44_doc_cmp : forall a b, dreach a -> dreach b ->
  exists a' b' c, doc_cmp a b = Ok (a', b', c) /\ (c = true <-> docs_same a b) /\
    doc_parts a' = doc_parts a /\ doc_parts b' = doc_parts b.
Proof. exact doc_cmp_dreach. Qed.
Print Assumptions C44_doc_cmp.
Theorem C44_doc_cmp_equivalence : (forall a, docs_same a a) /\ (forall a b, docs_same a b -> docs_same b a) /\
  (forall a b c, docs_same a b -> docs_same b c -> docs_same a c).
Proof. exact docs_same_equiv. Qed.
Print Assumptions C44_doc_cmp_equivalence.
Example C44_case : dreach ex_d1 /\ dreach ex_d2 /\
  rmap snd (doc_cmp ex_d1 ex_d1) = Ok true /\ rmap snd (doc_cmp ex_d1 ex_d2) = Ok false.
Proof. split; [apply ex_d1_ok|]. split; [apply ex_d2_ok|]. vm_compute. split; reflexivity. Qed.
(** Documents with different blacklist entries compare equal. *)
Definition ex_bl (arch : string) : mtree ostr :=
  match mt_sets mt_create [(S_ "bash", Some (S_ arch))] with Ok t => t | _ => mt_create end.
Lemma ex_bl_ok arch : mreach (ex_bl arch).
Proof.
  unfold ex_bl. destruct (mt_sets _ _) as [t| |] eqn:E; [|constructor|constructor].
  exact (mreach_sets [(S_ "bash", Some (S_ arch))] t mt_create MR_create (nonempty_keys_b [(S_ "bash", Some (S_ arch))] eq_refl) E).
Qed.
Theorem C44_values_ignored_refuted : exists a b, dreach a /\ dreach b /\
  mt_get (pt_blacklist (doc_parts a)) (S_ "bash") <> mt_get (pt_blacklist (doc_parts b)) (S_ "bash") /\
  rmap snd (doc_cmp a b) = Ok true.
Proof.
  exists (doc_of [OSetBlacklist (ex_bl "x86_64")]), (doc_of [OSetBlacklist (ex_bl "ppc")]).
  split; [apply doc_of_ok; constructor; [apply ex_bl_ok|constructor]|].
  split; [apply doc_of_ok; constructor; [apply ex_bl_ok|constructor]|].
  split; [vm_compute; discriminate|vm_compute; reflexivity].
Qed.
Print Assumptions C44_values_ignored_refuted.
