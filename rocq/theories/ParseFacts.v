(** Facts about the parser model: element names, attribute dictionaries, the
    object being read, collected text. *)
From Coq Require Import NArith Nnat.
From Verif Require Import CStr CStrFacts HSListModel HSListFacts RTreeModel RTreeFacts RTreeFacts2 RTreeFacts3 RTreeFacts4
  MRTreeModel MRTreeFacts MRTreeFacts2 ObjModel ObjFacts2 Dec StrModel DocModel DocFacts2 SpecA SpecC ParseModel.

(** ** Names *)
Definition tname (t : etype) : str :=
  match t with TUnknown => [] | TOptlist => S_ "optionlist" | t => info_name t end.
Lemma etype_eqb_iff a b : etype_eqb a b = true <-> a = b.
Proof. split; [destruct a, b; cbn; congruence|intros ->; now destruct b]. Qed.
Lemma etype_eqb_refl a : etype_eqb a a = true.
Proof. now apply etype_eqb_iff. Qed.
Lemma get_type_tname t : t <> TUnknown -> get_type (tname t) = t.
Proof. intros H. destruct t; try congruence; vm_compute; reflexivity. Qed.
Lemma get_type_inv n t : get_type n = t -> t <> TUnknown -> n = tname t.
Proof.
  unfold get_type. intros E H.
  repeat match type of E with
         | (if streq ?a ?b then _ else _) = _ =>
             let Eq := fresh "Eq" in
             destruct (streq a b) eqn:Eq; [apply streq_iff in Eq; subst; reflexivity|clear Eq]
         end.
  now elim H.
Qed.
Lemma get_type_is t n : t <> TUnknown -> etype_eqb t (get_type n) = streq n (tname t).
Proof.
  intros H. destruct (streq n (tname t)) eqn:E.
  - apply streq_iff in E. subst. rewrite get_type_tname by assumption. apply etype_eqb_refl.
  - destruct (etype_eqb t (get_type n)) eqn:Et; [|reflexivity]. apply etype_eqb_iff in Et.
    rewrite (get_type_inv n t (eq_sym Et) H), streq_refl in E. discriminate.
Qed.

(** ** The last element of a list *)
Lemma split_last_app {A} (l : list A) x : split_last (l ++ [x]) = Ok (l, x).
Proof. unfold split_last. rewrite rev_app_distr. cbn [rev app]. now rewrite rev_involutive. Qed.
Lemma split_last_inv {A} (l : list A) q : split_last l = Ok q -> l = fst q ++ [snd q].
Proof.
  unfold split_last. destruct (rev l) as [|x r] eqn:E; [discriminate|]. intros H. inversion H. cbn [fst snd].
  rewrite <- (rev_involutive l), E. reflexivity.
Qed.
Lemma nonnil_snoc {A} (l : list A) : l <> [] -> exists i x, l = i ++ [x].
Proof. intros H. destruct (exists_last H) as (i & x & E). eauto. Qed.

(** ** Properties of objects read by the parser *)
Definition prop_keys : list str :=
  map S_ ["id"; "name"; "desc"; "def"; "uservisible"; "biarchonly"; "display_order"; "langonly"; "arches"]%string.
Lemma prop_keys_ok : ~ In [] prop_keys /\ forall a b, In a prop_keys -> In b prop_keys -> ~ proper_prefix a b.
Proof. apply prefix_free_b_spec. vm_compute. reflexivity. Qed.
Definition pb (b : base) : Prop :=
  breach b /\ within (fun k => In k prop_keys) (b_props b) /\
  (forall v, look (troot (b_props b)) (S_ "display_order") = Some v -> exists z, v = PNum z).
Lemma pb_create : pb base_create.
Proof.
  split; [split; [|split]; constructor|]. split; [apply within_create|].
  intros v H. cbn [base_create b_props rt_create troot] in H. rewrite look_empty in H. discriminate.
Qed.
Lemma set_prop_ok b k o : pb b -> In k prop_keys -> (k = S_ "display_order" -> forall v, o = Some v -> exists z, v = PNum z) ->
  exists t, rt_set (b_props b) k o = Ok t /\ pb (mkB t (b_names b) (b_descs b)) /\
    forall k', look (troot t) k' = if streq k' k then o else look (troot (b_props b)) k'.
Proof.
  intros ((Hp & Hn & Hd) & Hw & Ho) Hk Hv. destruct prop_keys_ok as [K1 K2].
  destruct (within_set _ K1 K2 (b_props b) k o Hw Hk) as (t & E & Hw' & Hl).
  exists t. split; [exact E|]. split; [|exact Hl]. split; [|split].
  - split; [exact (R_set _ _ _ _ _ Hp E)|]. now split.
  - exact Hw'.
  - intros v H. cbn [b_props] in H. rewrite Hl in H. destruct (streq (S_ "display_order") k) eqn:Ek; [|auto].
    apply streq_iff in Ek. now apply Hv.
Qed.
Lemma set_num_ok b k z : pb b -> In k prop_keys ->
  exists b', base_set_num b k (Some z) = Ok b' /\ pb b' /\ b_names b' = b_names b /\ b_descs b' = b_descs b /\
    forall k', look (troot (b_props b')) k' = if streq k' k then Some (PNum z) else look (troot (b_props b)) k'.
Proof.
  intros Hb Hk. unfold base_set_num. cbn [option_map].
  destruct (set_prop_ok b k (Some (PNum z)) Hb Hk) as (t & -> & Hp & Hl).
  { intros _ v E. inversion E. eauto. }
  eexists. split; [reflexivity|]. cbn [b_names b_descs b_props]. auto.
Qed.
Lemma set_prop_str_ok b k s : pb b -> In k prop_keys -> k <> S_ "display_order" ->
  exists b', set_prop_str b k s = Ok b' /\ pb b' /\ b_names b' = b_names b /\ b_descs b' = b_descs b /\
    forall k', look (troot (b_props b')) k' = if streq k' k then Some (PStr (Some s)) else look (troot (b_props b)) k'.
Proof.
  intros Hb Hk Hd. unfold set_prop_str.
  destruct (set_prop_ok b k (Some (PStr (Some s))) Hb Hk) as (t & -> & Hp & Hl); [congruence|].
  eexists. split; [reflexivity|]. cbn [b_names b_descs b_props]. auto.
Qed.
Lemma set_arches_ok b l : pb b ->
  exists b', base_set_arches b (Some l) = Ok b' /\ pb b' /\ b_names b' = b_names b /\ b_descs b' = b_descs b /\
    forall k', look (troot (b_props b')) k' = if streq k' (S_ "arches") then Some (PList l) else look (troot (b_props b)) k'.
Proof.
  intros Hb. unfold base_set_arches. cbn [option_map].
  destruct (set_prop_ok b (S_ "arches") (Some (PList l)) Hb) as (t & -> & Hp & Hl).
  { vm_compute. tauto. }
  { vm_compute. congruence. }
  eexists. split; [reflexivity|]. cbn [b_names b_descs b_props]. auto.
Qed.
Lemma set_name_ok b l s : pb b -> exists b', base_set_name b l s = Ok b' /\ pb b' /\ b_props b' = b_props b /\ b_descs b' = b_descs b /\
  rt_set (b_names b) l (Some s) = Ok (b_names b').
Proof.
  intros ((Hp & Hn & Hd) & Hw). unfold base_set_name.
  destruct (rt_set_ok (b_names b) l (Some s) (reach_wft _ _ Hn)) as (t & E & _). rewrite E. cbn [bind].
  eexists. split; [reflexivity|]. cbn [b_props b_names b_descs]. split; [|auto]. split; [|exact Hw].
  split; [exact Hp|]. split; [exact (R_set _ _ _ _ _ Hn E)|exact Hd].
Qed.
Lemma set_desc_ok b l s : pb b -> exists b', base_set_desc b l s = Ok b' /\ pb b' /\ b_props b' = b_props b /\ b_names b' = b_names b /\
  rt_set (b_descs b) l (Some s) = Ok (b_descs b').
Proof.
  intros ((Hp & Hn & Hd) & Hw). unfold base_set_desc.
  destruct (rt_set_ok (b_descs b) l (Some s) (reach_wft _ _ Hd)) as (t & E & _). rewrite E. cbn [bind].
  eexists. split; [reflexivity|]. cbn [b_props b_names b_descs]. split; [|auto]. split; [|exact Hw].
  split; [exact Hp|]. split; [exact Hn|exact (R_set _ _ _ _ _ Hd E)].
Qed.
Ltac in_keys := unfold prop_keys; cbn [map In]; tauto.

(** ** Documents read by the parser *)
Definition pdoc (d : doc) : Prop :=
  docwf d /\ Forall (fun g => pb (g_base g)) (pt_groups (doc_parts d)) /\
  Forall (fun c => pb (c_base c)) (pt_cats (doc_parts d)) /\ Forall (fun e => pb (e_base e)) (pt_envs (doc_parts d)).
Definition no_parts : parts := mkParts [] [] [] rt_create mt_create mt_create.
Lemma doc_create_ok enc : exists d, doc_create (Some (Some enc)) = Ok d /\ pdoc d /\ doc_parts d = no_parts /\ d_enc d = Some enc /\
  d_name d = Some (Some default_doctype_name) /\ d_sysid d = Some (Some default_doctype_sysid) /\ d_pubid d = Some (Some default_doctype_pubid).
Proof.
  eexists. split; [reflexivity|].
  assert (E : forall e a b c, doc_parts (mkDoc rt_create e a b c) = no_parts).
  { intros. unfold doc_parts, parts_of. cbn [d_objs rt_create troot]. now rewrite !look_empty. }
  split; [|split; [apply E|cbn; auto]].
  split; [|rewrite E; cbn; auto]. split; [apply within_create|].
  intros k v H. cbn [d_objs rt_create troot] in H. rewrite look_empty in H. discriminate.
Qed.
Lemma Forall_snoc {A} (P : A -> Prop) l x : Forall P (l ++ [x]) <-> Forall P l /\ P x.
Proof. rewrite Forall_app. split; intros [H1 H2]; (split; [exact H1|]); [now inversion H2|now constructor]. Qed.

Lemma upd_last_group_ok {A} d l g g' (a : A) (f : group -> res (group * A)) : pdoc d ->
  pt_groups (doc_parts d) = l ++ [g] -> f g = Ok (g', a) -> pb (g_base g') ->
  exists d', upd_last_group d f = Ok (d', a) /\ pdoc d' /\ same_head d d' /\ doc_parts d' = with_groups (doc_parts d) (l ++ [g']).
Proof.
  intros (Hd & Hg & Hc & He) El Ef Hg'. unfold upd_last_group.
  destruct (doc_groups_ok d Hd) as (d1 & -> & Hd1 & Hh1 & Hp1). cbn [bind fst snd]. rewrite El, split_last_app. cbn [bind fst snd].
  rewrite Ef. cbn [bind fst snd]. unfold doc_set_groups. cbn [option_map].
  rewrite El, Forall_snoc in Hg. destruct Hg as [Hl _].
  destruct (doc_put_parts d1 k_groups (DGroups (l ++ [g'])) (fun p => with_groups p (l ++ [g'])) Hd1) with (2 := pset_groups (l ++ [g']))
    as (d' & -> & Hd' & Hh' & Hp').
  { cbn [typed]. split; [reflexivity|]. apply Forall_snoc. split; [|apply Hg']. eapply Forall_impl; [|exact Hl]. intros x Hx. apply Hx. }
  cbn [bind]. exists d'. split; [reflexivity|]. rewrite Hp1 in Hp'. split; [|split; [now apply same_head_trans with d1|exact Hp']].
  split; [exact Hd'|]. rewrite Hp'. cbn [with_groups pt_groups pt_cats pt_envs]. rewrite Forall_snoc. auto.
Qed.
Lemma upd_last_cat_ok {A} d l g g' (a : A) (f : category -> res (category * A)) : pdoc d ->
  pt_cats (doc_parts d) = l ++ [g] -> f g = Ok (g', a) -> pb (c_base g') ->
  exists d', upd_last_cat d f = Ok (d', a) /\ pdoc d' /\ same_head d d' /\ doc_parts d' = with_cats (doc_parts d) (l ++ [g']).
Proof.
  intros (Hd & Hg & Hc & He) El Ef Hg'. unfold upd_last_cat.
  destruct (doc_cats_ok d Hd) as (d1 & -> & Hd1 & Hh1 & Hp1). cbn [bind fst snd]. rewrite El, split_last_app. cbn [bind fst snd].
  rewrite Ef. cbn [bind fst snd]. unfold doc_set_cats. cbn [option_map].
  rewrite El, Forall_snoc in Hc. destruct Hc as [Hl _].
  destruct (doc_put_parts d1 k_cats (DCats (l ++ [g'])) (fun p => with_cats p (l ++ [g'])) Hd1) with (2 := pset_cats (l ++ [g']))
    as (d' & -> & Hd' & Hh' & Hp').
  { cbn [typed]. split; [reflexivity|]. apply Forall_snoc. split; [|apply Hg']. eapply Forall_impl; [|exact Hl]. intros x Hx. apply Hx. }
  cbn [bind]. exists d'. split; [reflexivity|]. rewrite Hp1 in Hp'. split; [|split; [now apply same_head_trans with d1|exact Hp']].
  split; [exact Hd'|]. rewrite Hp'. cbn [with_cats pt_groups pt_cats pt_envs]. rewrite Forall_snoc. auto.
Qed.
Lemma upd_last_env_ok {A} d l g g' (a : A) (f : env -> res (env * A)) : pdoc d ->
  pt_envs (doc_parts d) = l ++ [g] -> f g = Ok (g', a) -> pb (e_base g') ->
  exists d', upd_last_env d f = Ok (d', a) /\ pdoc d' /\ same_head d d' /\ doc_parts d' = with_envs (doc_parts d) (l ++ [g']).
Proof.
  intros (Hd & Hg & Hc & He) El Ef Hg'. unfold upd_last_env.
  destruct (doc_envs_ok d Hd) as (d1 & -> & Hd1 & Hh1 & Hp1). cbn [bind fst snd]. rewrite El, split_last_app. cbn [bind fst snd].
  rewrite Ef. cbn [bind fst snd]. unfold doc_set_envs. cbn [option_map].
  rewrite El, Forall_snoc in He. destruct He as [Hl _].
  destruct (doc_put_parts d1 k_envs (DEnvs (l ++ [g'])) (fun p => with_envs p (l ++ [g'])) Hd1) with (2 := pset_envs (l ++ [g']))
    as (d' & -> & Hd' & Hh' & Hp').
  { cbn [typed]. split; [reflexivity|]. apply Forall_snoc. split; [|apply Hg']. eapply Forall_impl; [|exact Hl]. intros x Hx. apply Hx. }
  cbn [bind]. exists d'. split; [reflexivity|]. rewrite Hp1 in Hp'. split; [|split; [now apply same_head_trans with d1|exact Hp']].
  split; [exact Hd'|]. rewrite Hp'. cbn [with_envs pt_groups pt_cats pt_envs]. rewrite Forall_snoc. auto.
Qed.

Lemma add_group_ok d g : pdoc d -> pb (g_base g) ->
  exists d', doc_add_group d g = Ok d' /\ pdoc d' /\ same_head d d' /\ doc_parts d' = with_groups (doc_parts d) (pt_groups (doc_parts d) ++ [g]).
Proof.
  intros (Hd & Hg & Hc & He) Hb. destruct (doc_add_group_ok d g Hd (proj1 Hb)) as (d' & E & Hd' & Hh & Hp).
  exists d'. split; [exact E|]. split; [|auto]. split; [exact Hd'|]. rewrite Hp. cbn [with_groups pt_groups pt_cats pt_envs].
  rewrite Forall_snoc. auto.
Qed.
Lemma add_cat_ok d g : pdoc d -> pb (c_base g) ->
  exists d', doc_add_cat d g = Ok d' /\ pdoc d' /\ same_head d d' /\ doc_parts d' = with_cats (doc_parts d) (pt_cats (doc_parts d) ++ [g]).
Proof.
  intros (Hd & Hg & Hc & He) Hb. destruct (doc_add_cat_ok d g Hd (proj1 Hb)) as (d' & E & Hd' & Hh & Hp).
  exists d'. split; [exact E|]. split; [|auto]. split; [exact Hd'|]. rewrite Hp. cbn [with_cats pt_groups pt_cats pt_envs].
  rewrite Forall_snoc. auto.
Qed.
Lemma add_env_ok d g : pdoc d -> pb (e_base g) ->
  exists d', doc_add_env d g = Ok d' /\ pdoc d' /\ same_head d d' /\ doc_parts d' = with_envs (doc_parts d) (pt_envs (doc_parts d) ++ [g]).
Proof.
  intros (Hd & Hg & Hc & He) Hb. destruct (doc_add_env_ok d g Hd (proj1 Hb)) as (d' & E & Hd' & Hh & Hp).
  exists d'. split; [exact E|]. split; [|auto]. split; [exact Hd'|]. rewrite Hp. cbn [with_envs pt_groups pt_cats pt_envs].
  rewrite Forall_snoc. auto.
Qed.
Lemma mt_set_total (t : mtree ostr) k v : mreach t -> exists t', mt_set t k v = Ok t' /\ mreach t'.
Proof.
  intros H. destruct k as [|c k].
  - exists t. split; [|exact H]. unfold mt_set, mt_put. cbn [length mset_sub bind]. now destruct t.
  - destruct (mt_put_spec t (c :: k) (MV v) (mreach_minv _ H)) as (t' & E & _); [discriminate|].
    exists t'. split; [exact E|]. apply (MR_set t (c :: k) v); [exact H|discriminate|exact E].
Qed.
Lemma add_langpack_ok d k s : pdoc d ->
  exists d' t, doc_add_langpack d k s = Ok d' /\ pdoc d' /\ same_head d d' /\ rt_set (pt_langpacks (doc_parts d)) k (Some s) = Ok t /\
    doc_parts d' = with_langpacks (doc_parts d) t.
Proof.
  intros (Hd & Hg & Hc & He). unfold doc_add_langpack. destruct (doc_langpacks_ok d Hd) as (d1 & -> & Hd1 & Hh1 & Hp1). cbn [bind fst snd].
  destruct (parts_wf d Hd) as (_ & _ & _ & Hl & _). destruct (rt_set_ok (pt_langpacks (doc_parts d)) k (Some s) (reach_wft _ _ Hl)) as (t & E & _).
  rewrite E. cbn [bind].
  destruct (doc_put_parts d1 k_langpacks (DDict t) (fun p => with_langpacks p t) Hd1) with (2 := pset_langpacks t) as (d' & E' & Hd' & Hh' & Hp').
  { cbn [typed]. split; [reflexivity|]. exact (R_set _ _ _ _ _ Hl E). }
  exists d', t. split; [exact E'|]. rewrite Hp1 in Hp'. split; [|split; [now apply same_head_trans with d1|auto]].
  split; [exact Hd'|]. rewrite Hp'. cbn [with_langpacks pt_groups pt_cats pt_envs]. auto.
Qed.
Lemma add_blacklist_ok d k s : pdoc d ->
  exists d' t, doc_add_blacklist d k s = Ok d' /\ pdoc d' /\ same_head d d' /\ mt_set (pt_blacklist (doc_parts d)) k s = Ok t /\
    doc_parts d' = with_blacklist (doc_parts d) t.
Proof.
  intros (Hd & Hg & Hc & He). unfold doc_add_blacklist. destruct (doc_blacklist_ok d Hd) as (d1 & -> & Hd1 & Hh1 & Hp1). cbn [bind fst snd].
  destruct (parts_wf d Hd) as (_ & _ & _ & _ & Hl & _). destruct (mt_set_total (pt_blacklist (doc_parts d)) k s Hl) as (t & E & Hr).
  rewrite E. cbn [bind].
  destruct (doc_put_parts d1 k_blacklist (DMdict t) (fun p => with_blacklist p t) Hd1) with (2 := pset_blacklist t) as (d' & E' & Hd' & Hh' & Hp').
  { cbn [typed]. split; [now left|]. exact Hr. }
  exists d', t. split; [exact E'|]. rewrite Hp1 in Hp'. split; [|split; [now apply same_head_trans with d1|auto]].
  split; [exact Hd'|]. rewrite Hp'. cbn [with_blacklist pt_groups pt_cats pt_envs]. auto.
Qed.
Lemma add_whiteout_ok d k s : pdoc d ->
  exists d' t, doc_add_whiteout d k s = Ok d' /\ pdoc d' /\ same_head d d' /\ mt_set (pt_whiteout (doc_parts d)) k s = Ok t /\
    doc_parts d' = with_whiteout (doc_parts d) t.
Proof.
  intros (Hd & Hg & Hc & He). unfold doc_add_whiteout. destruct (doc_whiteout_ok d Hd) as (d1 & -> & Hd1 & Hh1 & Hp1). cbn [bind fst snd].
  destruct (parts_wf d Hd) as (_ & _ & _ & _ & _ & Hl). destruct (mt_set_total (pt_whiteout (doc_parts d)) k s Hl) as (t & E & Hr).
  rewrite E. cbn [bind].
  destruct (doc_put_parts d1 k_whiteout (DMdict t) (fun p => with_whiteout p t) Hd1) with (2 := pset_whiteout t) as (d' & E' & Hd' & Hh' & Hp').
  { cbn [typed]. split; [now right|]. exact Hr. }
  exists d', t. split; [exact E'|]. rewrite Hp1 in Hp'. split; [|split; [now apply same_head_trans with d1|auto]].
  split; [exact Hd'|]. rewrite Hp'. cbn [with_whiteout pt_groups pt_cats pt_envs]. auto.
Qed.

(** ** Attributes *)
Lemma attrs_dict_ok a : forall t, wft t -> exists t', attrs_dict t a = Ok t' /\ wft t'.
Proof.
  induction a as [|[k v] a IH]; intros t Hw; cbn [attrs_dict]; [eauto|].
  destruct (rt_set_ok t k (Some v) Hw) as (t1 & -> & Hw1). cbn [bind]. now apply IH.
Qed.
Lemma attrs_dict_sets a : forall t, attrs_dict t a = rt_sets t a.
Proof.
  induction a as [|[k v] a IH]; intros t; cbn [attrs_dict rt_sets]; [reflexivity|].
  destruct (rt_set t k (Some v)); cbn [bind]; auto.
Qed.
Lemma attrs_dict_latest a t : nonempty_keys a -> no_late_prefix a -> attrs_dict rt_create a = Ok t ->
  forall k, rt_get t k = Ok (latest a k).
Proof.
  intros Hne Hl E k. destruct (sets_get a Hne Hl) as (t' & E' & H). rewrite attrs_dict_sets in E.
  assert (t' = t) as <- by congruence. rewrite H. reflexivity.
Qed.

(** ** Text *)
Definition nonblank (s : str) : bool := negb (forallb is_space s).
Definition tcons (chunks : list str) (len : nat) : Prop :=
  Forall (fun s => nonblank s = true) chunks /\ len = length (concat chunks).
Lemma nonblank_ne s : nonblank s = true -> s <> [].
Proof. intros H ->. discriminate. Qed.
Lemma tcons_nil : tcons [] 0.
Proof. split; [constructor|reflexivity]. Qed.
Lemma tcons_zero c : tcons c 0 -> c = [].
Proof.
  intros [H E]. destruct c as [|s c]; [reflexivity|]. inversion H as [|? ? H1 H2]; subst. apply nonblank_ne in H1.
  cbn in E. rewrite app_length in E. destruct s; cbn in E; [congruence|discriminate].
Qed.
Lemma concat_text_ok l : forall b n, length (b ++ concat l) < n -> concat_text n b l = Ok (b ++ concat l).
Proof.
  induction l as [|s l IH]; intros b n H; cbn [concat_text concat] in *; [now rewrite app_nil_r|].
  rewrite !app_length in H. rewrite app_length. destruct (Nat.ltb_spec (length b + length s) n) as [Hlt|Hge]; [|lia].
  rewrite IH; rewrite <- app_assoc; [reflexivity|]. rewrite !app_length. lia.
Qed.
Definition text_of (s : str) : ostr := match s with [] => None | _ => Some s end.
Lemma all_text_ok c n : tcons c n -> all_text c n = Ok (text_of (concat c)).
Proof.
  intros H. destruct n as [|n].
  - rewrite (tcons_zero c H). reflexivity.
  - destruct H as [_ E]. unfold all_text. rewrite concat_text_ok by (cbn [app]; lia). cbn [bind app].
    destruct (concat c); [discriminate|reflexivity].
Qed.
