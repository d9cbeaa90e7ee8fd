(** Property theorems for the document objects (C15-C17, C20, C21, C24-C26).

    [breach b]: the three dictionaries of the object were produced by some
    history of dictionary operations (create, set, unset, clear, clone, copy,
    unite, union) that did not run into undefined behaviour. *)
From Verif Require Import CStr CStrFacts HSListModel SetModel RTreeModel RTreeFacts RTreeFacts2 RTreeFacts3 RTreeFacts4
  SpecA ObjModel ObjFacts ObjFacts2 SpecC.

(** Concrete objects for the examples. *)
Definition mkp (n : string) (t : Z) : pkg := mkPkg (Some (Some (S_ n))) None None t None.
Definition mki (n : string) (d : bool) : gid := mkGid (Some (Some (S_ n))) d None.
Definition props_of (kvs : list (str * pval)) : res base :=
  t <- rt_sets rt_create kvs ;; Ok (mkB t rt_create rt_create).
Lemma props_of_breach kvs b : props_of kvs = Ok b -> breach b.
Proof.
  unfold props_of. intros E. apply bind_ok in E. destruct E as (t & Et & E). inversion E; subst.
  split; [exact (reach_sets _ _ _ Et)|split; constructor].
Qed.
Definition ex_base1 : base := match props_of [(S_ "id", PStr (Some (S_ "g"))); (S_ "name", PStr (Some (S_ "A")))] with Ok b => b | _ => base_create end.
Definition ex_base2 : base := match props_of [(S_ "id", PStr (Some (S_ "g"))); (S_ "name", PStr (Some (S_ "B")))] with Ok b => b | _ => base_create end.
Lemma ex_base1_ok : breach ex_base1.
Proof. apply (props_of_breach [(S_ "id", PStr (Some (S_ "g"))); (S_ "name", PStr (Some (S_ "A")))]). vm_compute. reflexivity. Qed.
Lemma ex_base2_ok : breach ex_base2.
Proof. apply (props_of_breach [(S_ "id", PStr (Some (S_ "g"))); (S_ "name", PStr (Some (S_ "B")))]). vm_compute. reflexivity. Qed.

(** * C15 *)
Theorem C15_group_union : forall g1 g2, breach (g_base g1) -> breach (g_base g2) ->
  exists g, group_union g1 g2 = Ok g /\ breach (g_base g) /\
    bases_united (g_base g1) (g_base g2) (g_base g) /\
    members_merged p_name (g_pkgs g1) (g_pkgs g2) (g_pkgs g).
Proof. exact group_union_ok. Qed.
Print Assumptions C15_group_union.
Example C15_case :
  let g1 := mkG ex_base1 [mkp "a" 0; mkp "b" 0; mkp "a" 1] in
  let g2 := mkG ex_base2 [mkp "c" 3; mkp "a" 3; mkp "c" 2; mkp "a" 2] in
  breach (g_base g1) /\ breach (g_base g2) /\
  rmap g_pkgs (group_union g1 g2) = Ok [mkp "a" 3; mkp "b" 0; mkp "a" 1; mkp "c" 3; mkp "c" 2].
Proof. split; [exact ex_base1_ok|]. split; [exact ex_base2_ok|]. vm_compute. reflexivity. Qed.

(** * C16 *)
Theorem C16_group_intersect : forall g1 g2, breach (g_base g1) -> breach (g_base g2) ->
  exists g, group_intersect g1 g2 = Ok g /\ breach (g_base g) /\
    props_common (g_base g1) (g_base g2) (g_base g) /\
    g_pkgs g = named_in p_name (g_pkgs g1) (g_pkgs g2).
Proof. exact group_intersect_ok. Qed.
Print Assumptions C16_group_intersect.
Theorem C16_category_intersect : forall c1 c2, breach (c_base c1) -> breach (c_base c2) ->
  exists c, category_intersect c1 c2 = Ok c /\ breach (c_base c) /\
    props_common (c_base c1) (c_base c2) (c_base c) /\
    c_gids c = named_in gi_name (c_gids c1) (c_gids c2).
Proof. exact category_intersect_ok. Qed.
Print Assumptions C16_category_intersect.
(** Environments keep only the first of equally named members. *)
Theorem C16_env_intersect_partial : forall e1 e2, breach (e_base e1) -> breach (e_base e2) ->
  exists e, env_intersect e1 e2 = Ok e /\ breach (e_base e) /\
    props_common (e_base e1) (e_base e2) (e_base e) /\
    first_of_each gi_name (named_in gi_name (e_groups e1) (e_groups e2)) (e_groups e) /\
    first_of_each gi_name (named_in gi_name (e_options e1) (e_options e2)) (e_options e).
Proof. exact env_intersect_ok. Qed.
Print Assumptions C16_env_intersect_partial.
Theorem C16_env_intersect_refuted : exists e1 e2, breach (e_base e1) /\ breach (e_base e2) /\
  exists e, env_intersect e1 e2 = Ok e /\ e_options e <> named_in gi_name (e_options e1) (e_options e2).
Proof.
  exists (mkE ex_base1 [] [mki "x" false]), (mkE ex_base2 [] [mki "x" false; mki "x" true]).
  split; [exact ex_base1_ok|]. split; [exact ex_base2_ok|]. eexists. split; [vm_compute; reflexivity|].
  vm_compute. discriminate.
Qed.
Print Assumptions C16_env_intersect_refuted.
Example C16_case :
  let g1 := mkG ex_base1 [mkp "a" 0; mkp "b" 0] in
  let g2 := mkG ex_base2 [mkp "c" 3; mkp "b" 3; mkp "b" 2] in
  breach (g_base g1) /\ breach (g_base g2) /\
  (g <- group_intersect g1 g2 ;; rt_pairs (b_props (g_base g))) = Ok [(S_ "id", PStr (Some (S_ "g")))] /\
  rmap g_pkgs (group_intersect g1 g2) = Ok [mkp "b" 3; mkp "b" 2].
Proof. split; [exact ex_base1_ok|]. split; [exact ex_base2_ok|]. vm_compute. split; reflexivity. Qed.
(** All translations are lost. *)
Theorem C16_translations_dropped : forall g1 g2 g, breach (g_base g1) -> breach (g_base g2) ->
  group_intersect g1 g2 = Ok g ->
  (forall k, rt_get (b_names (g_base g)) k = Ok None) /\ (forall k, rt_get (b_descs (g_base g)) k = Ok None).
Proof. exact intersect_translations. Qed.
Print Assumptions C16_translations_dropped.

(** * C17 *)
Theorem C17_category_union : forall c1 c2, breach (c_base c1) -> breach (c_base c2) ->
  exists c, category_union c1 c2 = Ok c /\ breach (c_base c) /\
    bases_united (c_base c1) (c_base c2) (c_base c) /\
    members_merged gi_name (c_gids c1) (c_gids c2) (c_gids c).
Proof. exact category_union_ok. Qed.
Print Assumptions C17_category_union.
Theorem C17_env_union : forall e1 e2, breach (e_base e1) -> breach (e_base e2) ->
  exists e, env_union e1 e2 = Ok e /\ breach (e_base e) /\
    bases_united (e_base e1) (e_base e2) (e_base e) /\
    members_merged gi_name (e_groups e1) (e_groups e2) (e_groups e) /\
    members_merged gi_name (e_options e1) (e_options e2) (e_options e).
Proof. exact env_union_ok. Qed.
Print Assumptions C17_env_union.
Example C17_case :
  let e1 := mkE ex_base1 [mki "x" false; mki "y" false] [mki "o" false; mki "o" true] in
  let e2 := mkE ex_base2 [mki "z" true; mki "x" true] [mki "o" true; mki "p" false] in
  breach (e_base e1) /\ breach (e_base e2) /\
  rmap (fun e => (e_groups e, e_options e)) (env_union e1 e2) =
    Ok ([mki "x" true; mki "y" false; mki "z" true], [mki "o" true; mki "o" true; mki "p" false]).
Proof. split; [exact ex_base1_ok|]. split; [exact ex_base2_ok|]. vm_compute. reflexivity. Qed.

(** * C20 (members of groups, categories, environments) *)
Theorem C20_members_filtered : forall arches,
  (forall g, breach (g_base g) -> same_base (g_base (group_arch_filter g arches)) (g_base g) /\
     arch_filtered p_arches arches (g_pkgs g) (g_pkgs (group_arch_filter g arches))) /\
  (forall c, breach (c_base c) -> same_base (c_base (category_arch_filter c arches)) (c_base c) /\
     arch_filtered gi_arches arches (c_gids c) (c_gids (category_arch_filter c arches))) /\
  (forall e, breach (e_base e) -> same_base (e_base (env_arch_filter e arches)) (e_base e) /\
     arch_filtered gi_arches arches (e_groups e) (e_groups (env_arch_filter e arches)) /\
     arch_filtered gi_arches arches (e_options e) (e_options (env_arch_filter e arches))).
Proof. exact members_filter. Qed.
Print Assumptions C20_members_filtered.
Theorem C20_members_idempotent : forall arches,
  (forall g, breach (g_base g) -> let f := group_arch_filter g arches in
     same_base (g_base (group_arch_filter f arches)) (g_base f) /\ g_pkgs (group_arch_filter f arches) = g_pkgs f) /\
  (forall c, breach (c_base c) -> let f := category_arch_filter c arches in
     same_base (c_base (category_arch_filter f arches)) (c_base f) /\ c_gids (category_arch_filter f arches) = c_gids f) /\
  (forall e, breach (e_base e) -> let f := env_arch_filter e arches in
     same_base (e_base (env_arch_filter f arches)) (e_base f) /\
     e_groups (env_arch_filter f arches) = e_groups f /\ e_options (env_arch_filter f arches) = e_options f).
Proof. exact members_filter_idem. Qed.
Print Assumptions C20_members_idempotent.
Theorem C20_members_monotone : forall a1 a2, incl a1 a2 ->
  (forall g p, In p (g_pkgs (group_arch_filter g a1)) -> In p (g_pkgs (group_arch_filter g a2))) /\
  (forall c i, In i (c_gids (category_arch_filter c a1)) -> In i (c_gids (category_arch_filter c a2))) /\
  (forall e i, In i (e_groups (env_arch_filter e a1)) -> In i (e_groups (env_arch_filter e a2))) /\
  (forall e i, In i (e_options (env_arch_filter e a1)) -> In i (e_options (env_arch_filter e a2))).
Proof. exact members_filter_mono. Qed.
Print Assumptions C20_members_monotone.
Example C20_members_case :
  let ar l := Some (map (fun s => Some (S_ s)) l) in
  let p n l := mkPkg (Some (Some (S_ n))) None None 3 l in
  let g := mkG ex_base1 [p "a"%string None; p "b"%string (ar ["x86_64"%string; "i386"%string]); p "c"%string (ar ["ppc"%string]); p "d"%string (ar [])] in
  breach (g_base g) /\ incl [Some (S_ "i386")] [Some (S_ "s390"); Some (S_ "i386")] /\
  map p_name (g_pkgs (group_arch_filter g [Some (S_ "s390"); Some (S_ "i386")])) = [Some (Some (S_ "a")); Some (Some (S_ "b"))].
Proof. split; [exact ex_base1_ok|]. split; [intros x [<-|[]]; right; now left|]. vm_compute. reflexivity. Qed.

(** * C21 *)
Theorem C21_get_packages : forall g name type,
  exists want, (forall p, want p = true <-> pkg_wanted name type p) /\
    group_get_packages g name type = filter want (g_pkgs g).
Proof. exact get_packages_spec. Qed.
Print Assumptions C21_get_packages.
Example C21_case :
  let g := mkG base_create [mkp "a" 0; mkp "b" 3; mkp "a" 3] in
  group_get_packages g (Some (S_ "a")) 3 = [mkp "a" 3] /\
  group_get_packages g None 3 = [mkp "b" 3; mkp "a" 3] /\
  group_get_packages g None PK_UNKNOWN = g_pkgs g.
Proof. vm_compute. repeat split. Qed.

(** * C24 *)
Theorem C24_setters_independent : forall ks b o,
  (ks = group_keys \/ ks = category_keys \/ ks = env_keys) -> built ks b -> In (setter_key o) ks ->
  exists b', apply_setter b o = Ok b' /\ built ks b' /\
    (forall v, setter_effect o = Some v -> base_get b' (setter_key o) = Ok v) /\
    (setter_effect o = None -> base_get b' (setter_key o) = base_get b (setter_key o)) /\
    (forall k, k <> setter_key o -> base_get b' k = base_get b k) /\
    b_names b' = b_names b /\ b_descs b' = b_descs b.
Proof. intros ks b o [->|[->| ->]]; apply setters_independent; vm_compute; reflexivity. Qed.
Print Assumptions C24_setters_independent.
Theorem C24_setter_histories : forall ks os,
  (ks = group_keys \/ ks = category_keys \/ ks = env_keys) -> (forall o, In o os -> In (setter_key o) ks) ->
  exists b, apply_setters base_create os = Ok b /\ forall k, base_get b k = Ok (last_value os k).
Proof. intros ks os [->|[->| ->]]; apply setters_history; vm_compute; reflexivity. Qed.
Print Assumptions C24_setter_histories.
Example C24_case :
  let os := [SetStr (S_ "desc") (Some (S_ "d")); SetNum (S_ "def") (Some 1%Z); SetStr (S_ "id") (Some (S_ "i"));
             SetNum (S_ "def") None; SetStr (S_ "id") None; SetArches (Some [])] in
  (forall o, In o os -> In (setter_key o) group_keys) /\
  last_value os (S_ "def") = None /\ last_value os (S_ "id") = Some (PStr (Some (S_ "i"))) /\
  last_value os (S_ "desc") = Some (PStr (Some (S_ "d"))).
Proof. split; [|vm_compute; repeat split]. intros o H. repeat destruct H as [<-|H]; vm_compute; tauto. Qed.

(** * C25 *)
Theorem C25_cmp_equivalence :
  cmp_equivalence (fun _ => True) (fun a b => Ok (pkg_cmp a b)) pkg_copy /\
  cmp_equivalence (fun _ => True) (fun a b => Ok (gid_cmp a b)) gid_copy /\
  cmp_equivalence (fun g => breach (g_base g)) group_cmp group_copy /\
  cmp_equivalence (fun c => breach (c_base c)) category_cmp category_copy /\
  cmp_equivalence (fun e => breach (e_base e)) env_cmp env_copy.
Proof. exact (conj pkg_equivalence (conj gid_equivalence (conj group_equivalence (conj category_equivalence env_equivalence)))). Qed.
Print Assumptions C25_cmp_equivalence.
(** What comparison means: equal maps and pairwise equal members. *)
Theorem C25_cmp_meaning :
  (forall a b, breach (g_base a) -> breach (g_base b) -> exists c, group_cmp a b = Ok c /\ (c = true <-> group_same a b)) /\
  (forall a b, breach (c_base a) -> breach (c_base b) -> exists c, category_cmp a b = Ok c /\ (c = true <-> category_same a b)) /\
  (forall a b, breach (e_base a) -> breach (e_base b) -> exists c, env_cmp a b = Ok c /\ (c = true <-> env_same a b)).
Proof. exact (conj group_cmp_spec (conj category_cmp_spec env_cmp_spec)). Qed.
Print Assumptions C25_cmp_meaning.
Example C25_case : breach ex_base1 /\ breach ex_base2 /\
  group_cmp (mkG ex_base1 [mkp "a" 0]) (group_copy (mkG ex_base1 [mkp "a" 0])) = Ok true /\
  group_cmp (mkG ex_base1 [mkp "a" 0]) (mkG ex_base2 [mkp "a" 0]) = Ok false.
Proof. split; [exact ex_base1_ok|]. split; [exact ex_base2_ok|]. vm_compute. split; reflexivity. Qed.

(** * C26 *)
(** Basearchonly and the architectures are not compared. *)
Theorem C26_pkg_cmp_refuted : exists a b, pkg_cmp a b = true /\ p_bao a <> p_bao b /\ p_arches a <> p_arches b.
Proof.
  exists (mkPkg (Some (Some (S_ "a"))) None (Some 1%Z) 0 (Some [Some (S_ "x86_64")])), (mkp "a" 0).
  vm_compute. split; [reflexivity|]. split; discriminate.
Qed.
Print Assumptions C26_pkg_cmp_refuted.
Theorem C26_pkg_cmp_partial : forall a b,
  pkg_cmp a b = true <-> p_name a = p_name b /\ p_requires a = p_requires b /\ p_type a = p_type b.
Proof. exact pkg_cmp_iff. Qed.
Print Assumptions C26_pkg_cmp_partial.
Theorem C26_gid_cmp_partial : forall a b, gid_cmp a b = true <-> gi_name a = gi_name b /\ gi_def a = gi_def b.
Proof. exact gid_cmp_iff. Qed.
Print Assumptions C26_gid_cmp_partial.
Example C26_case : pkg_cmp (mkp "a" 0) (mkp "a" 0) = true /\ pkg_cmp (mkp "a" 0) (mkp "a" 1) = false.
Proof. split; reflexivity. Qed.
