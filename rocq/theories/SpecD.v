(** Specifications for documents and the lemmas connecting them to the model. *)
From Verif Require Import CStr CStrFacts HSListModel HSListFacts SetModel SetFacts
  RTreeModel RTreeFacts RTreeFacts2 RTreeFacts3 RTreeFacts4 MRTreeModel MRTreeFacts MRTreeFacts2
  SpecA SpecB ObjModel ObjFacts ObjFacts2 SpecC DocModel DocFacts DocFacts2.

(** ** Objects inside a document *)
(** The id of an object ([None] if it has none). *)
Definition obj_id (b : base) : option pval := match rt_get (b_props b) (S_ "id") with Ok v => v | _ => None end.
Lemma pval_dec (a b : pval) : {a = b} + {a <> b}.
Proof.
  assert (forall x y : ostr, {x = y} + {x <> y}) as H by (intros; decide equality; apply str_eq_dec).
  decide equality; [apply Z.eq_dec|apply (list_eq_dec H)].
Defined.
Definition oid_dec (a b : option pval) : {a = b} + {a <> b}.
Proof. decide equality. apply pval_dec. Defined.

Definition group_id (g : group) := obj_id (g_base g).
Definition category_id (c : category) := obj_id (c_base c).
Definition env_id (e : env) := obj_id (e_base e).

Definition group_equal (a b : group) : Prop := same_base (g_base a) (g_base b) /\ g_pkgs a = g_pkgs b.
Definition category_equal (a b : category) : Prop := same_base (c_base a) (c_base b) /\ c_gids a = c_gids b.
Definition env_equal (a b : env) : Prop :=
  same_base (e_base a) (e_base b) /\ e_groups a = e_groups b /\ e_options a = e_options b.
Definition group_united (a b u : group) : Prop :=
  bases_united (g_base a) (g_base b) (g_base u) /\ members_merged p_name (g_pkgs a) (g_pkgs b) (g_pkgs u).
Definition category_united (a b u : category) : Prop :=
  bases_united (c_base a) (c_base b) (c_base u) /\ members_merged gi_name (c_gids a) (c_gids b) (c_gids u).
Definition env_united (a b u : env) : Prop :=
  bases_united (e_base a) (e_base b) (e_base u) /\
  members_merged gi_name (e_groups a) (e_groups b) (e_groups u) /\
  members_merged gi_name (e_options a) (e_options b) (e_options u).
Definition group_common (a b u : group) : Prop :=
  props_common (g_base a) (g_base b) (g_base u) /\ g_pkgs u = named_in p_name (g_pkgs a) (g_pkgs b).
Definition category_common (a b u : category) : Prop :=
  props_common (c_base a) (c_base b) (c_base u) /\ c_gids u = named_in gi_name (c_gids a) (c_gids b).
Definition env_common (a b u : env) : Prop :=
  props_common (e_base a) (e_base b) (e_base u) /\
  first_of_each gi_name (named_in gi_name (e_groups a) (e_groups b)) (e_groups u) /\
  first_of_each gi_name (named_in gi_name (e_options a) (e_options b)) (e_options u).

Lemma idcmp_by_iff {A} (base_of : A -> base) a b :
  idcmp_by base_of a b = true <-> obj_id (base_of a) = obj_id (base_of b).
Proof.
  unfold idcmp_by, base_idcmp, base_get, obj_id. rewrite !rt_get_look. cbn [bind]. apply obj_cmp_iff. apply pval_cmp_iff.
Qed.
Lemma obj_id_same a b : same_base a b -> obj_id a = obj_id b.
Proof. intros (H & _). unfold obj_id. now rewrite H. Qed.
Lemma obj_id_united a b u : bases_united a b u -> obj_id a = obj_id b -> obj_id u = obj_id b.
Proof.
  intros (H & _) E. unfold obj_id in *. rewrite H. rewrite !rt_get_look in *.
  destruct (look (troot (b_props b)) (S_ "id")); [reflexivity|exact E].
Qed.
Lemma bases_united_same a a' b u : same_base a a' -> bases_united a b u -> bases_united a' b u.
Proof.
  intros (S1 & S2 & S3) (H1 & H2 & H3). split; [|split]; intros k.
  - rewrite H1, (S1 k). reflexivity.
  - rewrite H2, (S2 k). reflexivity.
  - rewrite H3, (S3 k). reflexivity.
Qed.

Lemma group_cp g : gok g -> gok (group_copy g) /\ group_equal (group_copy g) g /\ group_id (group_copy g) = group_id g.
Proof.
  intros H. destruct (base_copy_spec _ H) as [H1 H2]. split; [exact H1|]. split; [split; [exact H2|apply map_pkg_copy]|].
  now apply obj_id_same.
Qed.
Lemma category_cp g : cok g -> cok (category_copy g) /\ category_equal (category_copy g) g /\ category_id (category_copy g) = category_id g.
Proof.
  intros H. destruct (base_copy_spec _ H) as [H1 H2]. split; [exact H1|]. split; [split; [exact H2|apply map_gid_copy]|].
  now apply obj_id_same.
Qed.
Lemma env_cp g : eok g -> eok (env_copy g) /\ env_equal (env_copy g) g /\ env_id (env_copy g) = env_id g.
Proof.
  intros H. destruct (base_copy_spec _ H) as [H1 H2]. split; [exact H1|].
  split; [split; [exact H2|split; apply map_gid_copy]|]. now apply obj_id_same.
Qed.
Lemma group_un a b : gok a -> gok b -> group_id a = group_id b ->
  exists u, group_union a b = Ok u /\ gok u /\ group_united a b u /\ group_id u = group_id b.
Proof.
  intros Ha Hb E. destruct (group_union_ok a b Ha Hb) as (u & Eu & Hu & H1 & H2). exists u.
  split; [exact Eu|]. split; [exact Hu|]. split; [split; assumption|]. exact (obj_id_united _ _ _ H1 E).
Qed.
Lemma category_un a b : cok a -> cok b -> category_id a = category_id b ->
  exists u, category_union a b = Ok u /\ cok u /\ category_united a b u /\ category_id u = category_id b.
Proof.
  intros Ha Hb E. destruct (category_union_ok a b Ha Hb) as (u & Eu & Hu & H1 & H2). exists u.
  split; [exact Eu|]. split; [exact Hu|]. split; [split; assumption|]. exact (obj_id_united _ _ _ H1 E).
Qed.
Lemma env_un a b : eok a -> eok b -> env_id a = env_id b ->
  exists u, env_union a b = Ok u /\ eok u /\ env_united a b u /\ env_id u = env_id b.
Proof.
  intros Ha Hb E. destruct (env_union_ok a b Ha Hb) as (u & Eu & Hu & H1 & H2 & H3). exists u.
  split; [exact Eu|]. split; [exact Hu|]. split; [split; [assumption|split; assumption]|]. exact (obj_id_united _ _ _ H1 E).
Qed.

(** ** Histories of a document *)
Inductive dop :=
| OSetGroups (l : list group) | OSetCats (l : list category) | OSetEnvs (l : list env)
| OSetLangpacks (t : rtree ostr) | OSetBlacklist (t : mtree ostr) | OSetWhiteout (t : mtree ostr)
| OAddGroup (g : group) | OAddCat (c : category) | OAddEnv (e : env)
| OGetGroups | OGetCats | OGetEnvs | OGetLangpacks | OGetBlacklist | OGetWhiteout.
Definition dop_ok (o : dop) : Prop :=
  match o with
  | OSetGroups l => Forall gok l | OSetCats l => Forall cok l | OSetEnvs l => Forall eok l
  | OSetLangpacks t => reach ostr_copy t | OSetBlacklist t | OSetWhiteout t => mreach t
  | OAddGroup g => gok g | OAddCat c => cok c | OAddEnv e => eok e
  | _ => True
  end.
Definition dop_run (d : doc) (o : dop) : res doc :=
  match o with
  | OSetGroups l => doc_set_groups d (Some l) | OSetCats l => doc_set_cats d (Some l) | OSetEnvs l => doc_set_envs d (Some l)
  | OSetLangpacks t => doc_set_langpacks d (Some t)
  | OSetBlacklist t => doc_set_blacklist d (Some t) | OSetWhiteout t => doc_set_whiteout d (Some t)
  | OAddGroup g => doc_add_group d g | OAddCat c => doc_add_cat d c | OAddEnv e => doc_add_env d e
  | OGetGroups => rmap fst (doc_groups d) | OGetCats => rmap fst (doc_cats d) | OGetEnvs => rmap fst (doc_envs d)
  | OGetLangpacks => rmap fst (doc_langpacks d) | OGetBlacklist => rmap fst (doc_blacklist d)
  | OGetWhiteout => rmap fst (doc_whiteout d)
  end.
(** What a call does to the six parts. *)
Definition dop_effect (o : dop) (p : parts) : parts :=
  match o with
  | OSetGroups l => with_groups p l | OSetCats l => with_cats p l | OSetEnvs l => with_envs p l
  | OSetLangpacks t => with_langpacks p t | OSetBlacklist t => with_blacklist p t | OSetWhiteout t => with_whiteout p t
  | OAddGroup g => with_groups p (pt_groups p ++ [g])
  | OAddCat c => with_cats p (pt_cats p ++ [c])
  | OAddEnv e => with_envs p (pt_envs p ++ [e])
  | _ => p
  end.
Definition no_parts : parts := mkParts [] [] [] rt_create mt_create mt_create.
Fixpoint dop_runs (d : doc) (os : list dop) : res doc :=
  match os with [] => Ok d | o :: r => d' <- dop_run d o ;; dop_runs d' r end.
(** Documents made by the library's operations. *)
Inductive dreach : doc -> Prop :=
| D_create a d : doc_create a = Ok d -> dreach d
| D_op d o d' : dreach d -> dop_ok o -> dop_run d o = Ok d' -> dreach d'
| D_name d v : dreach d -> dreach (doc_doctype_name_set d v)
| D_union d1 d2 d : dreach d1 -> dreach d2 -> doc_union d1 d2 = Ok d -> dreach d
| D_intersect d1 d2 d : dreach d1 -> dreach d2 -> doc_intersect d1 d2 = Ok d -> dreach d
| D_filter d arches d' : dreach d -> doc_arch_filter d arches = Ok d' -> dreach d'.

Lemma dop_spec d o : docwf d -> dop_ok o ->
  exists d', dop_run d o = Ok d' /\ docwf d' /\ same_head d d' /\ doc_parts d' = dop_effect o (doc_parts d).
Proof.
  intros Hd Ho. destruct o; cbn [dop_run dop_ok dop_effect] in *.
  - apply (doc_put_parts d k_groups (DGroups l) (fun p => with_groups p l)); auto using pset_groups. split; auto.
  - apply (doc_put_parts d k_cats (DCats l) (fun p => with_cats p l)); auto using pset_cats. split; auto.
  - apply (doc_put_parts d k_envs (DEnvs l) (fun p => with_envs p l)); auto using pset_envs. split; auto.
  - apply (doc_put_parts d k_langpacks (DDict t) (fun p => with_langpacks p t)); auto using pset_langpacks. split; auto.
  - apply (doc_put_parts d k_blacklist (DMdict t) (fun p => with_blacklist p t)); auto using pset_blacklist. split; auto.
  - apply (doc_put_parts d k_whiteout (DMdict t) (fun p => with_whiteout p t)); auto using pset_whiteout. split; auto.
  - now apply doc_add_group_ok.
  - now apply doc_add_cat_ok.
  - now apply doc_add_env_ok.
  - destruct (doc_groups_ok d Hd) as (d' & -> & H). cbn. eauto.
  - destruct (doc_cats_ok d Hd) as (d' & -> & H). cbn. eauto.
  - destruct (doc_envs_ok d Hd) as (d' & -> & H). cbn. eauto.
  - destruct (doc_langpacks_ok d Hd) as (d' & -> & H). cbn. eauto.
  - destruct (doc_blacklist_ok d Hd) as (d' & -> & H). cbn. eauto.
  - destruct (doc_whiteout_ok d Hd) as (d' & -> & H). cbn. eauto.
Qed.
Lemma dop_runs_spec os : forall d, docwf d -> Forall dop_ok os ->
  exists d', dop_runs d os = Ok d' /\ docwf d' /\ same_head d d' /\ doc_parts d' = fold_left (fun p o => dop_effect o p) os (doc_parts d).
Proof.
  induction os as [|o os IH]; intros d Hd Ho; cbn [dop_runs fold_left].
  - exists d. auto using same_head_refl.
  - inversion Ho; subst. destruct (dop_spec d o Hd) as (d1 & -> & Hd1 & Hh & Hp); auto. cbn [bind].
    destruct (IH d1 Hd1) as (d2 & -> & Hd2 & Hh2 & Hp2); auto. exists d2. rewrite <- Hp. eauto using same_head_trans.
Qed.

Definition fresh_head (e : option ostr) (d : doc) : Prop :=
  d_enc d = e /\ d_name d = Some (Some default_doctype_name) /\
  d_sysid d = Some (Some default_doctype_sysid) /\ d_pubid d = Some (Some default_doctype_pubid).
Lemma create_spec e : exists d, doc_create (Some (Some e)) = Ok d /\ docwf d /\ doc_parts d = no_parts /\ fresh_head (Some e) d.
Proof.
  unfold doc_create. cbn [bind]. eexists; split; [reflexivity|]. split; [|split; [|repeat split]].
  - split; [apply within_create|]. intros k v H. cbn [d_objs rt_create troot] in H. rewrite look_empty in H. discriminate.
  - unfold doc_parts. cbn [d_objs rt_create troot]. unfold parts_of. now rewrite !look_empty.
Qed.
Lemma create_wf a d : doc_create a = Ok d -> docwf d /\ doc_parts d = no_parts.
Proof.
  unfold doc_create. destruct a as [[e|]|]; cbn [bind]; intros E; inversion E; subst;
  (split; [split; [apply within_create|intros k v H; cbn [d_objs rt_create troot] in H; rewrite look_empty in H; discriminate]|]);
  unfold doc_parts; cbn [d_objs rt_create troot]; unfold parts_of; now rewrite !look_empty.
Qed.
Lemma fresh_same e d d' : fresh_head e d -> same_head d d' -> fresh_head e d'.
Proof. unfold fresh_head, same_head. intuition congruence. Qed.

(** ** Union *)
Definition groups_merged := lists_merged oid_dec group_id group_equal group_united.
Definition cats_merged := lists_merged oid_dec category_id category_equal category_united.
Definition envs_merged := lists_merged oid_dec env_id env_equal env_united.

Lemma doc_union_wf d1 d2 e : docwf d1 -> docwf d2 -> d_enc d1 = Some e ->
  exists d, doc_union d1 d2 = Ok d /\ docwf d /\ fresh_head (Some e) d /\
    groups_merged (pt_groups (doc_parts d1)) (pt_groups (doc_parts d2)) (pt_groups (doc_parts d)) /\
    cats_merged (pt_cats (doc_parts d1)) (pt_cats (doc_parts d2)) (pt_cats (doc_parts d)) /\
    envs_merged (pt_envs (doc_parts d1)) (pt_envs (doc_parts d2)) (pt_envs (doc_parts d)) /\
    map_union (pt_langpacks (doc_parts d1)) (pt_langpacks (doc_parts d2)) (pt_langpacks (doc_parts d)) /\
    pt_blacklist (doc_parts d) = mt_create /\ pt_whiteout (doc_parts d) = mt_create.
Proof.
  intros H1 H2 He. unfold doc_union.
  destruct (parts_wf d1 H1) as (G1 & C1 & E1 & L1 & _). destruct (parts_wf d2 H2) as (G2 & C2 & E2 & L2 & _).
  destruct (doc_groups_ok d1 H1) as (a1 & -> & Ha1 & _ & Pa1). cbn [bind fst snd].
  destruct (doc_cats_ok a1 Ha1) as (a2 & -> & Ha2 & _ & Pa2). cbn [bind fst snd].
  destruct (doc_envs_ok a2 Ha2) as (a3 & -> & Ha3 & _ & Pa3). cbn [bind fst snd].
  rewrite He. destruct (create_spec e) as (r0 & -> & Hr0 & Pr0 & Hh0). cbn [bind].
  destruct (doc_groups_ok d2 H2) as (b1 & -> & Hb1 & _ & Pb1). cbn [bind fst snd].
  destruct (merge_lists_spec (idcmp_by g_base) group_copy group_union oid_dec group_id gok group_equal group_united
              (idcmp_by_iff g_base) group_cp group_un _ _ G1 G2) as (gs & -> & Gok & Gm). cbn [bind].
  destruct (doc_add_group_all gs r0 Hr0 Gok) as (r1 & -> & Hr1 & Hh1 & Pr1). cbn [bind].
  destruct (doc_cats_ok b1 Hb1) as (b2 & -> & Hb2 & _ & Pb2). cbn [bind fst snd].
  rewrite Pa1, Pb1.
  destruct (merge_lists_spec (idcmp_by c_base) category_copy category_union oid_dec category_id cok category_equal category_united
              (idcmp_by_iff c_base) category_cp category_un _ _ C1 C2) as (cs & -> & Cok & Cm). cbn [bind].
  destruct (doc_add_cat_all cs r1 Hr1 Cok) as (r2 & -> & Hr2 & Hh2 & Pr2). cbn [bind].
  destruct (doc_envs_ok b2 Hb2) as (b3 & -> & Hb3 & _ & Pb3). cbn [bind fst snd].
  rewrite Pa2, Pa1, Pb2, Pb1.
  destruct (merge_lists_spec (idcmp_by e_base) env_copy env_union oid_dec env_id eok env_equal env_united
              (idcmp_by_iff e_base) env_cp env_un _ _ E1 E2) as (es & -> & Eok & Em). cbn [bind].
  destruct (doc_add_env_all es r2 Hr2 Eok) as (r3 & -> & Hr3 & Hh3 & Pr3). cbn [bind].
  destruct (doc_langpacks_ok a3 Ha3) as (a4 & -> & Ha4 & _ & Pa4). cbn [bind fst snd].
  destruct (doc_langpacks_ok b3 Hb3) as (b4 & -> & Hb4 & _ & Pb4). cbn [bind fst snd].
  rewrite Pa3, Pa2, Pa1, Pb3, Pb2, Pb1.
  destruct (union_obs_id ostr_copy _ _ ostr_copy_id L1 L2) as (t & -> & Rt & Ht). cbn [bind].
  destruct (doc_put_parts r3 k_langpacks (DDict t) (fun p => with_langpacks p t) Hr3) as (r4 & E4 & Hr4 & Hh4 & Pr4);
    [split; auto|apply pset_langpacks|].
  unfold doc_set_langpacks. cbn [option_map]. rewrite E4. exists r4. split; [reflexivity|]. split; [exact Hr4|].
  split; [eapply fresh_same; [eapply fresh_same; [eapply fresh_same; [eapply fresh_same; [exact Hh0|]|]|]|]; eassumption|].
  rewrite Pr4, Pr3, Pr2, Pr1, Pr0. cbn. split; [exact Gm|]. split; [exact Cm|]. split; [exact Em|]. split; [exact Ht|auto].
Qed.

(** ** Intersection *)
Definition groups_common := lists_common oid_dec group_id group_common.
Definition cats_common := lists_common oid_dec category_id category_common.
Definition envs_common := lists_common oid_dec env_id env_common.
Lemma group_it a b : gok a -> gok b -> group_id a = group_id b -> exists u, group_intersect a b = Ok u /\ gok u /\ group_common a b u.
Proof. intros Ha Hb _. destruct (group_intersect_ok a b Ha Hb) as (u & E & Hu & H). exists u. auto. Qed.
Lemma category_it a b : cok a -> cok b -> category_id a = category_id b -> exists u, category_intersect a b = Ok u /\ cok u /\ category_common a b u.
Proof. intros Ha Hb _. destruct (category_intersect_ok a b Ha Hb) as (u & E & Hu & H). exists u. auto. Qed.
Lemma env_it a b : eok a -> eok b -> env_id a = env_id b -> exists u, env_intersect a b = Ok u /\ eok u /\ env_common a b u.
Proof. intros Ha Hb _. destruct (env_intersect_ok a b Ha Hb) as (u & E & Hu & H). exists u. auto. Qed.

Lemma doc_intersect_wf d1 d2 e : docwf d1 -> docwf d2 -> d_enc d1 = Some e ->
  exists d, doc_intersect d1 d2 = Ok d /\ docwf d /\ fresh_head (Some e) d /\
    groups_common (pt_groups (doc_parts d1)) (pt_groups (doc_parts d2)) (pt_groups (doc_parts d)) /\
    cats_common (pt_cats (doc_parts d1)) (pt_cats (doc_parts d2)) (pt_cats (doc_parts d)) /\
    envs_common (pt_envs (doc_parts d1)) (pt_envs (doc_parts d2)) (pt_envs (doc_parts d)) /\
    pt_langpacks (doc_parts d) = rt_create /\ pt_blacklist (doc_parts d) = mt_create /\ pt_whiteout (doc_parts d) = mt_create.
Proof.
  intros H1 H2 He. unfold doc_intersect.
  destruct (parts_wf d1 H1) as (G1 & C1 & E1 & _). destruct (parts_wf d2 H2) as (G2 & C2 & E2 & _).
  destruct (doc_groups_ok d1 H1) as (a1 & -> & Ha1 & _ & Pa1). cbn [bind fst snd].
  destruct (doc_cats_ok a1 Ha1) as (a2 & -> & Ha2 & _ & Pa2). cbn [bind fst snd].
  destruct (doc_envs_ok a2 Ha2) as (a3 & -> & Ha3 & _ & Pa3). cbn [bind fst snd].
  rewrite He. destruct (create_spec e) as (r0 & -> & Hr0 & Pr0 & Hh0). cbn [bind].
  destruct (doc_groups_ok d2 H2) as (b1 & -> & Hb1 & _ & Pb1). cbn [bind fst snd].
  destruct (common_lists_spec (idcmp_by g_base) group_intersect oid_dec group_id gok group_common
              (idcmp_by_iff g_base) group_it _ _ G1 G2) as (gs & -> & Gok & Gm). cbn [bind].
  destruct (doc_add_group_all gs r0 Hr0 Gok) as (r1 & -> & Hr1 & Hh1 & Pr1). cbn [bind].
  destruct (doc_cats_ok b1 Hb1) as (b2 & -> & Hb2 & _ & Pb2). cbn [bind fst snd].
  rewrite Pa1, Pb1.
  destruct (common_lists_spec (idcmp_by c_base) category_intersect oid_dec category_id cok category_common
              (idcmp_by_iff c_base) category_it _ _ C1 C2) as (cs & -> & Cok & Cm). cbn [bind].
  destruct (doc_add_cat_all cs r1 Hr1 Cok) as (r2 & -> & Hr2 & Hh2 & Pr2). cbn [bind].
  destruct (doc_envs_ok b2 Hb2) as (b3 & -> & Hb3 & _ & Pb3). cbn [bind fst snd].
  rewrite Pa2, Pa1, Pb2, Pb1.
  destruct (common_lists_spec (idcmp_by e_base) env_intersect oid_dec env_id eok env_common
              (idcmp_by_iff e_base) env_it _ _ E1 E2) as (es & -> & Eok & Em). cbn [bind].
  destruct (doc_add_env_all es r2 Hr2 Eok) as (r3 & -> & Hr3 & Hh3 & Pr3). cbn [bind].
  exists r3. split; [reflexivity|]. split; [exact Hr3|].
  split; [eapply fresh_same; [eapply fresh_same; [eapply fresh_same; [exact Hh0|]|]|]; eassumption|].
  rewrite Pr3, Pr2, Pr1, Pr0. cbn. split; [exact Gm|]. split; [exact Cm|]. split; [exact Em|auto].
Qed.

(** ** Architecture filter *)
(** The architectures of an object, when the property is a list or missing. *)
Definition obj_arches (b : base) : option (list ostr) :=
  match rt_get (b_props b) (S_ "arches") with Ok (Some (PList l)) => Some l | _ => None end.
Definition arches_proper (b : base) : Prop :=
  forall v, rt_get (b_props b) (S_ "arches") = Ok (Some v) -> exists l, v = PList l.
Definition group_filtered arches (x u : group) : Prop :=
  same_base (g_base u) (g_base x) /\ arch_filtered p_arches arches (g_pkgs x) (g_pkgs u).
Definition category_filtered arches (x u : category) : Prop :=
  same_base (c_base u) (c_base x) /\ arch_filtered gi_arches arches (c_gids x) (c_gids u).
Definition env_filtered arches (x u : env) : Prop :=
  same_base (e_base u) (e_base x) /\ arch_filtered gi_arches arches (e_groups x) (e_groups u) /\
  arch_filtered gi_arches arches (e_options x) (e_options u).
(** [out] has, for every wanted object of [l] and in that order, the object with
    its members filtered. *)
Definition objs_filtered {A} (base_of : A -> base) (rel : A -> A -> Prop) (arches : list ostr) (l out : list A) : Prop :=
  exists keep, (forall x, keep x = true <-> arch_wanted arches (obj_arches (base_of x))) /\ Forall2 rel (filter keep l) out.

Lemma base_arches_ok b : arches_proper b -> base_arches b = Ok (obj_arches b).
Proof.
  unfold arches_proper, base_arches, obj_arches, base_get. rewrite rt_get_look. cbn [bind]. intros H.
  destruct (look (troot (b_props b)) (S_ "arches")) as [v|]; [|reflexivity]. destruct (H v eq_refl) as (l & ->). reflexivity.
Qed.
Lemma filter_objs_ok {A} (base_of : A -> base) (flt : A -> list ostr -> A) arches l :
  Forall (fun x => arches_proper (base_of x)) l ->
  filter_objs base_of flt arches l =
  Ok (map (fun x => flt x arches) (filter (fun x => arch_ok arches (obj_arches (base_of x))) l)).
Proof.
  induction 1 as [|x l Hx Hl IH]; cbn [filter_objs filter map]; [reflexivity|].
  rewrite (base_arches_ok _ Hx). cbn [bind]. rewrite IH. cbn [bind]. now destruct (arch_ok arches (obj_arches (base_of x))).
Qed.
Definition doc_arches_proper (d : doc) : Prop :=
  Forall (fun g => arches_proper (g_base g)) (pt_groups (doc_parts d)) /\
  Forall (fun c => arches_proper (c_base c)) (pt_cats (doc_parts d)) /\
  Forall (fun e => arches_proper (e_base e)) (pt_envs (doc_parts d)).
Definition keepf {A} (base_of : A -> base) arches (x : A) := arch_ok arches (obj_arches (base_of x)).
Lemma doc_filter_wf d e arches : docwf d -> d_enc d = Some e -> doc_arches_proper d ->
  exists d', doc_arch_filter d arches = Ok d' /\ docwf d' /\ fresh_head (Some e) d' /\
    doc_parts d' = mkParts
      (map (fun x => group_arch_filter x arches) (filter (keepf g_base arches) (pt_groups (doc_parts d))))
      (map (fun x => category_arch_filter x arches) (filter (keepf c_base arches) (pt_cats (doc_parts d))))
      (map (fun x => env_arch_filter x arches) (filter (keepf e_base arches) (pt_envs (doc_parts d))))
      rt_create mt_create mt_create.
Proof.
  intros Hd He (A1 & A2 & A3). unfold doc_arch_filter. rewrite He.
  destruct (parts_wf d Hd) as (G & C & E & _).
  destruct (create_spec e) as (r0 & -> & Hr0 & Pr0 & Hh0). cbn [bind].
  destruct (doc_cats_ok d Hd) as (a1 & -> & Ha1 & _ & Pa1). cbn [bind fst snd].
  rewrite filter_objs_ok by exact A2. cbn [bind].
  assert (Hfilt : forall A (P Q : A -> Prop) (f : A -> A) (k : A -> bool) l, Forall P l -> (forall x, P x -> Q (f x)) -> Forall Q (map f (filter k l))).
  { intros A P Q f k l HP HPQ. apply Forall_forall. intros y Hy. apply in_map_iff in Hy. destruct Hy as (x & <- & Hx).
    apply filter_In in Hx. rewrite Forall_forall in HP. apply HPQ, HP, Hx. }
  edestruct (doc_add_cat_all _ r0 Hr0 (Hfilt _ cok cok (fun x => category_arch_filter x arches) (keepf c_base arches) _ C (fun x Hx => proj1 (base_copy_spec _ Hx))))
    as (r1 & E1 & Hr1 & Hh1 & Pr1). unfold keepf in E1 at 1. rewrite E1. cbn [bind].
  destruct (doc_groups_ok a1 Ha1) as (a2 & -> & Ha2 & _ & Pa2). cbn [bind fst snd]. rewrite Pa1.
  rewrite filter_objs_ok by exact A1. cbn [bind].
  edestruct (doc_add_group_all _ r1 Hr1 (Hfilt _ gok gok (fun x => group_arch_filter x arches) (keepf g_base arches) _ G (fun x Hx => proj1 (base_copy_spec _ Hx))))
    as (r2 & E2 & Hr2 & Hh2 & Pr2). unfold keepf in E2 at 1. rewrite E2. cbn [bind].
  destruct (doc_envs_ok a2 Ha2) as (a3 & -> & Ha3 & _ & Pa3). cbn [bind fst snd]. rewrite Pa2, Pa1.
  rewrite filter_objs_ok by exact A3. cbn [bind].
  edestruct (doc_add_env_all _ r2 Hr2 (Hfilt _ eok eok (fun x => env_arch_filter x arches) (keepf e_base arches) _ E (fun x Hx => proj1 (base_copy_spec _ Hx))))
    as (r3 & E3 & Hr3 & Hh3 & Pr3). unfold keepf in E3 at 1. rewrite E3.
  exists r3. split; [reflexivity|]. split; [exact Hr3|].
  split; [eapply fresh_same; [eapply fresh_same; [eapply fresh_same; [exact Hh0|]|]|]; eassumption|].
  rewrite Pr3, Pr2, Pr1, Pr0. reflexivity.
Qed.

Lemma no_encoding d1 d2 arches : docwf d1 -> d_enc d1 = None ->
  doc_union d1 d2 = UB /\ doc_intersect d1 d2 = UB /\ doc_arch_filter d1 arches = UB.
Proof.
  intros H1 He. unfold doc_union, doc_intersect, doc_arch_filter.
  destruct (doc_groups_ok d1 H1) as (a1 & -> & Ha1 & _ & Pa1). cbn [bind fst snd].
  destruct (doc_cats_ok a1 Ha1) as (a2 & -> & Ha2 & _ & Pa2). cbn [bind fst snd].
  destruct (doc_envs_ok a2 Ha2) as (a3 & -> & Ha3 & _ & Pa3). cbn [bind fst snd].
  rewrite He. auto.
Qed.

Lemma filter_wf d arches d' : docwf d -> doc_arch_filter d arches = Ok d' -> docwf d'.
Proof.
  intros Hd E. unfold doc_arch_filter in E.
  destruct (d_enc d) as [e|]; [|discriminate].
  destruct (parts_wf d Hd) as (G & C & En & _).
  destruct (create_spec e) as (r0 & E0 & Hr0 & _). rewrite E0 in E. cbn [bind] in E.
  assert (Hf : forall A (base_of : A -> base) flt l out (P : A -> Prop), filter_objs base_of flt arches l = Ok out ->
             Forall P l -> (forall x, P x -> P (flt x arches)) -> Forall P out).
  { intros A base_of flt l. induction l as [|x l IH]; intros out P Ef HP Hst; cbn [filter_objs] in Ef.
    - inversion Ef; constructor.
    - apply bind_ok in Ef. destruct Ef as (a & _ & Ef). apply bind_ok in Ef. destruct Ef as (out' & E' & Ef).
      inversion HP; subst. inversion Ef; subst. specialize (IH out' P E'). destruct (arch_ok arches a); auto. }
  destruct (doc_cats_ok d Hd) as (a1 & E1 & Ha1 & _ & Pa1). rewrite E1 in E. cbn [bind fst snd] in E.
  apply bind_ok in E. destruct E as (cs & Ec & E).
  pose proof (Hf _ _ _ _ _ cok Ec C (fun x Hx => proj1 (base_copy_spec _ Hx))) as Cs.
  destruct (doc_add_cat_all cs r0 Hr0 Cs) as (r1 & E1' & Hr1 & _). rewrite E1' in E. cbn [bind] in E.
  destruct (doc_groups_ok a1 Ha1) as (a2 & E2 & Ha2 & _ & Pa2). rewrite E2 in E. cbn [bind fst snd] in E.
  apply bind_ok in E. destruct E as (gs & Eg & E). rewrite Pa1 in Eg.
  pose proof (Hf _ _ _ _ _ gok Eg G (fun x Hx => proj1 (base_copy_spec _ Hx))) as Gs.
  destruct (doc_add_group_all gs r1 Hr1 Gs) as (r2 & E2' & Hr2 & _). rewrite E2' in E. cbn [bind] in E.
  destruct (doc_envs_ok a2 Ha2) as (a3 & E3 & Ha3 & _ & Pa3). rewrite E3 in E. cbn [bind fst snd] in E.
  apply bind_ok in E. destruct E as (es & Ee & E). rewrite Pa2, Pa1 in Ee.
  pose proof (Hf _ _ _ _ _ eok Ee En (fun x Hx => proj1 (base_copy_spec _ Hx))) as Es.
  destruct (doc_add_env_all es r2 Hr2 Es) as (r3 & E3' & Hr3 & _). congruence.
Qed.
Lemma dreach_wf d : dreach d -> docwf d.
Proof.
  induction 1 as [a d E|d o d' _ IH Ho E|d v _ IH|d1 d2 d _ IH1 _ IH2 E|d1 d2 d _ IH1 _ IH2 E|d ar d' _ IH E].
  - now apply create_wf in E.
  - destruct (dop_spec d o IH Ho) as (d1 & E1 & H & _). congruence.
  - exact IH.
  - destruct (d_enc d1) as [e|] eqn:Ee.
    + destruct (doc_union_wf d1 d2 e IH1 IH2 Ee) as (r & Er & H & _). congruence.
    + rewrite (proj1 (no_encoding d1 d2 [] IH1 Ee)) in E. discriminate.
  - destruct (d_enc d1) as [e|] eqn:Ee.
    + destruct (doc_intersect_wf d1 d2 e IH1 IH2 Ee) as (r & Er & H & _). congruence.
    + rewrite (proj1 (proj2 (no_encoding d1 d2 [] IH1 Ee))) in E. discriminate.
  - exact (filter_wf _ _ _ IH E).
Qed.
