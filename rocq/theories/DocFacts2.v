(** Facts about the document model, continued: the parts of a document. *)
From Verif Require Import CStr CStrFacts HSListModel HSListFacts SetModel SetFacts
  RTreeModel RTreeFacts RTreeFacts2 RTreeFacts3 RTreeFacts4 MRTreeModel MRTreeFacts MRTreeFacts2
  SpecA SpecB ObjModel ObjFacts ObjFacts2 SpecC DocModel DocFacts.

(** ** Well-formed documents *)
Definition doc_keys : list str := [k_groups; k_cats; k_envs; k_langpacks; k_blacklist; k_whiteout].
Lemma doc_keys_ok : ~ In [] doc_keys /\ forall a b, In a doc_keys -> In b doc_keys -> ~ proper_prefix a b.
Proof. apply prefix_free_b_spec. vm_compute. reflexivity. Qed.
Definition gok (g : group) : Prop := breach (g_base g).
Definition cok (c : category) : Prop := breach (c_base c).
Definition eok (e : env) : Prop := breach (e_base e).
Definition typed (k : str) (v : dval) : Prop :=
  match v with
  | DGroups l => k = k_groups /\ Forall gok l
  | DCats l => k = k_cats /\ Forall cok l
  | DEnvs l => k = k_envs /\ Forall eok l
  | DDict t => k = k_langpacks /\ reach ostr_copy t
  | DMdict t => (k = k_blacklist \/ k = k_whiteout) /\ mreach t
  | DStr _ => False
  end.
Definition docwf (d : doc) : Prop :=
  within (fun k => In k doc_keys) (d_objs d) /\ forall k v, look (troot (d_objs d)) k = Some v -> typed k v.
Definition same_head (d d' : doc) : Prop :=
  d_enc d' = d_enc d /\ d_name d' = d_name d /\ d_sysid d' = d_sysid d /\ d_pubid d' = d_pubid d.
Lemma same_head_refl d : same_head d d.
Proof. repeat split. Qed.
Lemma same_head_trans a b c : same_head a b -> same_head b c -> same_head a c.
Proof. unfold same_head. intuition congruence. Qed.

Lemma typed_key k v : typed k v -> In k doc_keys.
Proof. destruct v; cbn [typed]; unfold doc_keys; cbn [In]; intuition (subst; auto 10). Qed.

Lemma doc_put_ok d k o : docwf d -> In k doc_keys -> (forall v, o = Some v -> typed k v) ->
  exists d', doc_put d k o = Ok d' /\ docwf d' /\ same_head d d' /\
    forall k', look (troot (d_objs d')) k' = if streq k' k then o else look (troot (d_objs d)) k'.
Proof.
  intros [Hw Ht] Hk Ho. destruct doc_keys_ok as [K1 K2].
  destruct (within_set _ K1 K2 (d_objs d) k o Hw Hk) as (t & E & Hw' & Hl).
  unfold doc_put. rewrite E. cbn [bind]. eexists; split; [reflexivity|]. cbn [with_objs d_objs].
  split; [|split; [repeat split|exact Hl]]. split; [exact Hw'|]. cbn [with_objs d_objs].
  intros k' v. rewrite Hl. destruct (streq_spec k' k) as [->|_]; [auto|apply Ht].
Qed.

(** ** The parts *)
Record parts := mkParts {
  pt_groups : list group; pt_cats : list category; pt_envs : list env;
  pt_langpacks : rtree ostr; pt_blacklist : mtree ostr; pt_whiteout : mtree ostr }.
Definition parts_of (f : str -> option dval) : parts :=
  mkParts (match f k_groups with Some (DGroups l) => l | _ => [] end)
          (match f k_cats with Some (DCats l) => l | _ => [] end)
          (match f k_envs with Some (DEnvs l) => l | _ => [] end)
          (match f k_langpacks with Some (DDict t) => t | _ => rt_create end)
          (match f k_blacklist with Some (DMdict t) => t | _ => mt_create end)
          (match f k_whiteout with Some (DMdict t) => t | _ => mt_create end).
Definition doc_parts (d : doc) : parts := parts_of (look (troot (d_objs d))).
Lemma parts_ext f g : (forall k, f k = g k) -> parts_of f = parts_of g.
Proof. intros H. unfold parts_of. now rewrite !H. Qed.
Definition pset (f : str -> option dval) (k : str) (o : option dval) : str -> option dval :=
  fun k' => if streq k' k then o else f k'.

Lemma parts_wf d : docwf d ->
  Forall gok (pt_groups (doc_parts d)) /\ Forall cok (pt_cats (doc_parts d)) /\ Forall eok (pt_envs (doc_parts d)) /\
  reach ostr_copy (pt_langpacks (doc_parts d)) /\ mreach (pt_blacklist (doc_parts d)) /\ mreach (pt_whiteout (doc_parts d)).
Proof.
  intros [_ Ht]. unfold doc_parts, parts_of. cbn [pt_groups pt_cats pt_envs pt_langpacks pt_blacklist pt_whiteout].
  assert (H : forall k v, look (troot (d_objs d)) k = Some v -> typed k v) by exact Ht. clear Ht.
  split; [|split; [|split; [|split; [|split]]]].
  - destruct (look (troot (d_objs d)) k_groups) as [[]|] eqn:E; try constructor. apply H in E. apply E.
  - destruct (look (troot (d_objs d)) k_cats) as [[]|] eqn:E; try constructor. apply H in E. apply E.
  - destruct (look (troot (d_objs d)) k_envs) as [[]|] eqn:E; try constructor. apply H in E. apply E.
  - destruct (look (troot (d_objs d)) k_langpacks) as [[]|] eqn:E; try constructor. apply H in E. apply E.
  - destruct (look (troot (d_objs d)) k_blacklist) as [[]|] eqn:E; try constructor. apply H in E. apply E.
  - destruct (look (troot (d_objs d)) k_whiteout) as [[]|] eqn:E; try constructor. apply H in E. apply E.
Qed.

(** ** Getters *)
Lemma doc_get_ok {A} (pick : dval -> res A) (wrap : A -> dval) (dflt : A) (k : str) (proj : parts -> A) d :
  docwf d -> typed k (wrap dflt) ->
  (forall v, typed k v -> exists a, pick v = Ok a /\ v = wrap a) ->
  (forall f, (forall v, f k = Some v -> typed k v) -> proj (parts_of f) = match f k with Some v => match pick v with Ok a => a | _ => dflt end | None => dflt end) ->
  (forall f, f k = None -> parts_of (pset f k (Some (wrap dflt))) = parts_of f) ->
  exists d', doc_get pick wrap dflt k d = Ok (d', proj (doc_parts d)) /\ docwf d' /\ same_head d d' /\ doc_parts d' = doc_parts d.
Proof.
  intros Hd Hk Hp Hpr Hs. unfold doc_get. rewrite rt_get_look. cbn [bind].
  assert (Epr : proj (doc_parts d) = match look (troot (d_objs d)) k with Some v => match pick v with Ok a => a | _ => dflt end | None => dflt end).
  { apply Hpr. apply Hd. }
  rewrite Epr.
  destruct (look (troot (d_objs d)) k) as [v|] eqn:E.
  - destruct (Hp v (proj2 Hd k v E)) as (a & Ea & _). rewrite Ea. cbn [bind].
    exists d. split; [reflexivity|]. split; [exact Hd|]. split; [apply same_head_refl|reflexivity].
  - destruct (doc_put_ok d k (Some (wrap dflt)) Hd (typed_key _ _ Hk)) as (d' & -> & Hd' & Hh & Hl).
    { intros v Ev. inversion Ev; subst. exact Hk. }
    cbn [bind]. exists d'. split; [reflexivity|]. split; [exact Hd'|]. split; [exact Hh|].
    unfold doc_parts. rewrite <- (Hs _ E). apply parts_ext. exact Hl.
Qed.

Ltac getter :=
  intros; apply doc_get_ok; auto;
  [ cbn [typed]; auto using MR_create, R_create
  | intros [] Hv; cbn [typed] in Hv; try (now eexists; split; reflexivity);
    exfalso; repeat match goal with H : _ /\ _ |- _ => destruct H | H : _ \/ _ |- _ => destruct H end; try discriminate; auto
  | intros f Hf; unfold parts_of; cbn [pt_groups pt_cats pt_envs pt_langpacks pt_blacklist pt_whiteout];
    match goal with |- context [f ?k] => destruct (f k) as [[]|] eqn:?; reflexivity end
  | intros f Hf; unfold parts_of, pset;
    repeat match goal with |- context [streq ?a ?b] => let r := eval vm_compute in (streq a b) in change (streq a b) with r end;
    cbv iota; rewrite Hf; reflexivity ].
Lemma doc_groups_ok d : docwf d -> exists d', doc_groups d = Ok (d', pt_groups (doc_parts d)) /\ docwf d' /\ same_head d d' /\ doc_parts d' = doc_parts d.
Proof. getter. Qed.
Lemma doc_cats_ok d : docwf d -> exists d', doc_cats d = Ok (d', pt_cats (doc_parts d)) /\ docwf d' /\ same_head d d' /\ doc_parts d' = doc_parts d.
Proof. getter. Qed.
Lemma doc_envs_ok d : docwf d -> exists d', doc_envs d = Ok (d', pt_envs (doc_parts d)) /\ docwf d' /\ same_head d d' /\ doc_parts d' = doc_parts d.
Proof. getter. Qed.
Lemma doc_langpacks_ok d : docwf d -> exists d', doc_langpacks d = Ok (d', pt_langpacks (doc_parts d)) /\ docwf d' /\ same_head d d' /\ doc_parts d' = doc_parts d.
Proof. getter. Qed.
Lemma doc_blacklist_ok d : docwf d -> exists d', doc_blacklist d = Ok (d', pt_blacklist (doc_parts d)) /\ docwf d' /\ same_head d d' /\ doc_parts d' = doc_parts d.
Proof. getter. Qed.
Lemma doc_whiteout_ok d : docwf d -> exists d', doc_whiteout d = Ok (d', pt_whiteout (doc_parts d)) /\ docwf d' /\ same_head d d' /\ doc_parts d' = doc_parts d.
Proof. getter. Qed.

(** ** Adding objects *)
Definition with_groups (p : parts) (l : list group) := mkParts l (pt_cats p) (pt_envs p) (pt_langpacks p) (pt_blacklist p) (pt_whiteout p).
Definition with_cats (p : parts) (l : list category) := mkParts (pt_groups p) l (pt_envs p) (pt_langpacks p) (pt_blacklist p) (pt_whiteout p).
Definition with_envs (p : parts) (l : list env) := mkParts (pt_groups p) (pt_cats p) l (pt_langpacks p) (pt_blacklist p) (pt_whiteout p).
Definition with_langpacks (p : parts) (t : rtree ostr) := mkParts (pt_groups p) (pt_cats p) (pt_envs p) t (pt_blacklist p) (pt_whiteout p).
Definition with_blacklist (p : parts) (t : mtree ostr) := mkParts (pt_groups p) (pt_cats p) (pt_envs p) (pt_langpacks p) t (pt_whiteout p).
Definition with_whiteout (p : parts) (t : mtree ostr) := mkParts (pt_groups p) (pt_cats p) (pt_envs p) (pt_langpacks p) (pt_blacklist p) t.

Ltac put_parts :=
  intros f; unfold parts_of, pset;
  repeat match goal with |- context [streq ?a ?b] => let r := eval vm_compute in (streq a b) in change (streq a b) with r end;
  cbv iota; reflexivity.
Lemma pset_groups l : forall f, parts_of (pset f k_groups (Some (DGroups l))) = with_groups (parts_of f) l.
Proof. put_parts. Qed.
Lemma pset_cats l : forall f, parts_of (pset f k_cats (Some (DCats l))) = with_cats (parts_of f) l.
Proof. put_parts. Qed.
Lemma pset_envs l : forall f, parts_of (pset f k_envs (Some (DEnvs l))) = with_envs (parts_of f) l.
Proof. put_parts. Qed.
Lemma pset_langpacks t : forall f, parts_of (pset f k_langpacks (Some (DDict t))) = with_langpacks (parts_of f) t.
Proof. put_parts. Qed.
Lemma pset_blacklist t : forall f, parts_of (pset f k_blacklist (Some (DMdict t))) = with_blacklist (parts_of f) t.
Proof. put_parts. Qed.
Lemma pset_whiteout t : forall f, parts_of (pset f k_whiteout (Some (DMdict t))) = with_whiteout (parts_of f) t.
Proof. put_parts. Qed.

Lemma doc_put_parts d k v (w : parts -> parts) : docwf d -> typed k v ->
  (forall f, parts_of (pset f k (Some v)) = w (parts_of f)) ->
  exists d', doc_put d k (Some v) = Ok d' /\ docwf d' /\ same_head d d' /\ doc_parts d' = w (doc_parts d).
Proof.
  intros Hd Hv Hw. destruct (doc_put_ok d k (Some v) Hd (typed_key _ _ Hv)) as (d' & E & Hd' & Hh & Hl).
  { intros v' E. inversion E; now subst. }
  exists d'. split; [exact E|]. split; [exact Hd'|]. split; [exact Hh|]. unfold doc_parts. rewrite <- Hw. apply parts_ext. exact Hl.
Qed.
Lemma doc_add_group_ok d x : docwf d -> gok x ->
  exists d', doc_add_group d x = Ok d' /\ docwf d' /\ same_head d d' /\ doc_parts d' = with_groups (doc_parts d) (pt_groups (doc_parts d) ++ [x]).
Proof.
  intros Hd Hx. unfold doc_add_group. destruct (doc_groups_ok d Hd) as (d1 & -> & Hd1 & Hh1 & Hp1). cbn [bind fst snd].
  destruct (doc_put_parts d1 k_groups (DGroups (pt_groups (doc_parts d) ++ [x])) (fun p => with_groups p (pt_groups (doc_parts d) ++ [x])) Hd1) with (2 := pset_groups (pt_groups (doc_parts d) ++ [x]))
    as (d2 & -> & Hd2 & Hh2 & Hp2).
  { split; [reflexivity|]. apply Forall_app. split; [apply (parts_wf d Hd)|constructor; [exact Hx|constructor]]. }
  exists d2. split; [reflexivity|]. split; [exact Hd2|]. split; [exact (same_head_trans _ _ _ Hh1 Hh2)|]. now rewrite Hp2, Hp1.
Qed.
Lemma doc_add_group_all l : forall d, docwf d -> Forall gok l ->
  exists d', add_all doc_add_group d l = Ok d' /\ docwf d' /\ same_head d d' /\ doc_parts d' = with_groups (doc_parts d) (pt_groups (doc_parts d) ++ l).
Proof.
  induction l as [|x l IH]; intros d Hd Hl; cbn [add_all].
  - exists d. rewrite app_nil_r. split; [reflexivity|]. split; [exact Hd|]. split; [apply same_head_refl|].
    now destruct (doc_parts d).
  - inversion Hl; subst. destruct (doc_add_group_ok d x Hd) as (d1 & -> & Hd1 & Hh1 & Hp1); auto. cbn [bind].
    destruct (IH d1 Hd1) as (d2 & -> & Hd2 & Hh2 & Hp2); auto. exists d2. split; [reflexivity|]. split; [exact Hd2|].
    split; [exact (same_head_trans _ _ _ Hh1 Hh2)|]. rewrite Hp2, Hp1. cbn [with_groups pt_groups pt_groups pt_cats pt_envs pt_langpacks pt_blacklist pt_whiteout].
    rewrite <- app_assoc. reflexivity.
Qed.
Lemma doc_add_cat_ok d x : docwf d -> cok x ->
  exists d', doc_add_cat d x = Ok d' /\ docwf d' /\ same_head d d' /\ doc_parts d' = with_cats (doc_parts d) (pt_cats (doc_parts d) ++ [x]).
Proof.
  intros Hd Hx. unfold doc_add_cat. destruct (doc_cats_ok d Hd) as (d1 & -> & Hd1 & Hh1 & Hp1). cbn [bind fst snd].
  destruct (doc_put_parts d1 k_cats (DCats (pt_cats (doc_parts d) ++ [x])) (fun p => with_cats p (pt_cats (doc_parts d) ++ [x])) Hd1) with (2 := pset_cats (pt_cats (doc_parts d) ++ [x]))
    as (d2 & -> & Hd2 & Hh2 & Hp2).
  { split; [reflexivity|]. apply Forall_app. split; [apply (parts_wf d Hd)|constructor; [exact Hx|constructor]]. }
  exists d2. split; [reflexivity|]. split; [exact Hd2|]. split; [exact (same_head_trans _ _ _ Hh1 Hh2)|]. now rewrite Hp2, Hp1.
Qed.
Lemma doc_add_cat_all l : forall d, docwf d -> Forall cok l ->
  exists d', add_all doc_add_cat d l = Ok d' /\ docwf d' /\ same_head d d' /\ doc_parts d' = with_cats (doc_parts d) (pt_cats (doc_parts d) ++ l).
Proof.
  induction l as [|x l IH]; intros d Hd Hl; cbn [add_all].
  - exists d. rewrite app_nil_r. split; [reflexivity|]. split; [exact Hd|]. split; [apply same_head_refl|].
    now destruct (doc_parts d).
  - inversion Hl; subst. destruct (doc_add_cat_ok d x Hd) as (d1 & -> & Hd1 & Hh1 & Hp1); auto. cbn [bind].
    destruct (IH d1 Hd1) as (d2 & -> & Hd2 & Hh2 & Hp2); auto. exists d2. split; [reflexivity|]. split; [exact Hd2|].
    split; [exact (same_head_trans _ _ _ Hh1 Hh2)|]. rewrite Hp2, Hp1. cbn [with_cats pt_cats pt_groups pt_cats pt_envs pt_langpacks pt_blacklist pt_whiteout].
    rewrite <- app_assoc. reflexivity.
Qed.
Lemma doc_add_env_ok d x : docwf d -> eok x ->
  exists d', doc_add_env d x = Ok d' /\ docwf d' /\ same_head d d' /\ doc_parts d' = with_envs (doc_parts d) (pt_envs (doc_parts d) ++ [x]).
Proof.
  intros Hd Hx. unfold doc_add_env. destruct (doc_envs_ok d Hd) as (d1 & -> & Hd1 & Hh1 & Hp1). cbn [bind fst snd].
  destruct (doc_put_parts d1 k_envs (DEnvs (pt_envs (doc_parts d) ++ [x])) (fun p => with_envs p (pt_envs (doc_parts d) ++ [x])) Hd1) with (2 := pset_envs (pt_envs (doc_parts d) ++ [x]))
    as (d2 & -> & Hd2 & Hh2 & Hp2).
  { split; [reflexivity|]. apply Forall_app. split; [apply (parts_wf d Hd)|constructor; [exact Hx|constructor]]. }
  exists d2. split; [reflexivity|]. split; [exact Hd2|]. split; [exact (same_head_trans _ _ _ Hh1 Hh2)|]. now rewrite Hp2, Hp1.
Qed.
Lemma doc_add_env_all l : forall d, docwf d -> Forall eok l ->
  exists d', add_all doc_add_env d l = Ok d' /\ docwf d' /\ same_head d d' /\ doc_parts d' = with_envs (doc_parts d) (pt_envs (doc_parts d) ++ l).
Proof.
  induction l as [|x l IH]; intros d Hd Hl; cbn [add_all].
  - exists d. rewrite app_nil_r. split; [reflexivity|]. split; [exact Hd|]. split; [apply same_head_refl|].
    now destruct (doc_parts d).
  - inversion Hl; subst. destruct (doc_add_env_ok d x Hd) as (d1 & -> & Hd1 & Hh1 & Hp1); auto. cbn [bind].
    destruct (IH d1 Hd1) as (d2 & -> & Hd2 & Hh2 & Hp2); auto. exists d2. split; [reflexivity|]. split; [exact Hd2|].
    split; [exact (same_head_trans _ _ _ Hh1 Hh2)|]. rewrite Hp2, Hp1. cbn [with_envs pt_envs pt_groups pt_cats pt_envs pt_langpacks pt_blacklist pt_whiteout].
    rewrite <- app_assoc. reflexivity.
Qed.
