(** Reading back what was written: statements over the public accessors, saving to
    a string, comparison with the original. *)
From Verif Require Import CStr CStrFacts HSListModel HSListFacts RTreeModel RTreeFacts RTreeFacts2 RTreeFacts3 RTreeFacts4 MRTreeModel MRTreeFacts MRTreeFacts2
  ObjModel ObjFacts ObjFacts2 Dec StrModel StrFacts DocModel DocFacts2 SpecA SpecB SpecC SpecD SpecD2 SpecE ParseModel ParseFacts SpecF SpecF2 SpecF3 SpecF4 XmlModel XmlFacts
  SpecG SpecG2 SpecG3 SpecG4 SpecG5.

(** ** What is the same after saving and loading *)
Definition carried (b b' : base) (k : string) : Prop := base_get b' (S_ k) = base_get b (S_ k).
Definition base_carried (o : xopts) (b b' : base) : Prop :=
  carried b b' "id" /\ carried b b' "name" /\ carried b b' "desc" /\ carried b b' "display_order" /\
  base_get b' (S_ "arches") = (if x_arch o then base_get b (S_ "arches") else Ok None) /\
  (forall k, rt_get (b_names b') k = rt_get (b_names b) k) /\ (forall k, rt_get (b_descs b') k = rt_get (b_descs b) k).
(** Only the properties [ks] are set. *)
Definition only (ks : list string) (b : base) : Prop := forall k, ~ In k (map S_ ks) -> base_get b k = Ok None.
Definition common_props : list string := ["id"; "name"; "desc"; "display_order"; "arches"]%string.
Definition group_props : list string := (common_props ++ ["langonly"; "def"; "uservisible"; "biarchonly"])%list%string.
(** What a boolean property means: its value, or the default if it is not set. *)
Definition meaning (v : res (option pval)) (dflt : bool) : bool := match v with Ok (Some (PNum z)) => negb (z =? 0)%Z | _ => dflt end.
Definition bool_carried (b b' : base) (k : string) (dflt : bool) : Prop :=
  base_get b' (S_ k) = Ok (Some (PNum (if meaning (base_get b (S_ k)) dflt then 1 else 0))).
Definition pkg_carried (o : xopts) (p p' : pkg) : Prop :=
  p_name p' = p_name p /\ p_requires p' = p_requires p /\ p_bao p' = p_bao p /\ p_type p' = p_type p /\ p_arches p' = (if x_arch o then p_arches p else None).
Definition gid_carried (o : xopts) (g g' : gid) : Prop :=
  gi_name g' = gi_name g /\ gi_def g' = gi_def g /\ gi_arches g' = (if x_arch o then gi_arches g else None).
Definition group_carried (df : dopts) (o : xopts) (g g' : group) : Prop :=
  base_carried o (g_base g) (g_base g') /\ carried (g_base g) (g_base g') "langonly" /\ only group_props (g_base g') /\
  bool_carried (g_base g) (g_base g') "def" (o_default df) /\ bool_carried (g_base g) (g_base g') "uservisible" (o_uservisible df) /\
  bool_carried (g_base g) (g_base g') "biarchonly" (o_biarchonly df) /\ Forall2 (pkg_carried o) (g_pkgs g) (g_pkgs g').
Definition cat_carried (o : xopts) (c c' : category) : Prop :=
  base_carried o (c_base c) (c_base c') /\ only common_props (c_base c') /\ Forall2 (gid_carried o) (c_gids c) (c_gids c').
Definition env_carried (o : xopts) (e e' : env) : Prop :=
  base_carried o (e_base e) (e_base e') /\ only common_props (e_base e') /\ Forall2 (gid_carried o) (e_groups e) (e_groups e') /\
  Forall2 (gid_carried o) (e_options e) (e_options e').
(** [kept out l l']: the objects of [l] not left out, in order. *)
Inductive kept {A} (out : A -> Prop) : list A -> list A -> Prop :=
| K_nil : kept out [] []
| K_out x l l' : out x -> kept out l l' -> kept out (x :: l) l'
| K_in x l l' : ~ out x -> kept out l l' -> kept out (x :: l) (x :: l').
Definition parts_carried (df : dopts) (o : xopts) (p p' : parts) : Prop :=
  (exists gs, kept (group_left_out o) (pt_groups p) gs /\ Forall2 (group_carried df o) gs (pt_groups p')) /\
  (exists cs, kept (cat_left_out o) (pt_cats p) cs /\ Forall2 (cat_carried o) cs (pt_cats p')) /\
  (exists es, kept (env_left_out o) (pt_envs p) es /\ Forall2 (env_carried o) es (pt_envs p')) /\
  (forall k, rt_get (pt_langpacks p') k = rt_get (pt_langpacks p) k) /\
  (forall k, mt_get (pt_blacklist p') k = mt_get (pt_blacklist p) k) /\
  (forall k, mt_get (pt_whiteout p') k = mt_get (pt_whiteout p) k).

Lemma base_kept_carried o b b' : base_kept b b' -> arch_back o b b' -> base_carried o b b'.
Proof.
  intros (_ & H1 & H2 & H3 & H4 & H5 & H6) Ha. unfold base_carried, carried. rewrite !base_get_ok. unfold same_prop, arch_back in *.
  rewrite H1, H2, H3, H4, Ha. repeat (split; [reflexivity|]). split; [now destruct (x_arch o)|auto].
Qed.
Lemma meaning_truth b k df : meaning (base_get b k) df = truth (look (troot (b_props b)) k) df.
Proof. rewrite base_get_ok. reflexivity. Qed.
Lemma Forall2_map_r {A B} (R : A -> B -> Prop) f l : (forall x, R x (f x)) -> Forall2 R l (map f l).
Proof. intros H. induction l; constructor; auto. Qed.
Lemma group_kept_carried df o g g' : group_kept df o g g' -> group_carried df o g g'.
Proof.
  intros (Hk & Hl & Ha & B1 & B2 & B3 & Hp). split; [now apply base_kept_carried|]. unfold carried, bool_carried, bool_back, same_prop in *.
  rewrite !meaning_truth, !base_get_ok, B1, B2, B3, Hl, Hp. split; [reflexivity|]. split; [|repeat (split; [reflexivity|])].
  - intros k Hn. rewrite base_get_ok. f_equal. destruct Hk as ((_ & (_ & _ & Hw) & _) & _). destruct (look (troot (b_props (g_base g'))) k) eqn:E; [|reflexivity].
    elim Hn. assert (Hi : In k prop_keys) by (apply Hw; congruence). revert Hi. clear. unfold prop_keys, group_props, common_props. cbn [map app In]. tauto.
  - apply Forall2_map_r. intros p. repeat split.
Qed.
Lemma only_common_only b : only_common b -> only common_props b.
Proof. intros H k Hk. rewrite base_get_ok. f_equal. now apply H. Qed.
Lemma cat_kept_carried o g g' : cat_kept o g g' -> cat_carried o g g'.
Proof.
  intros (Hk & Ho & Ha & Hp). split; [now apply base_kept_carried|]. split; [now apply only_common_only|]. rewrite Hp. apply Forall2_map_r. intros p. repeat split.
Qed.
Lemma env_kept_carried o g g' : env_kept o g g' -> env_carried o g g'.
Proof.
  intros (Hk & Ho & Ha & Hp & Hq). split; [now apply base_kept_carried|]. split; [now apply only_common_only|]. rewrite Hp, Hq. split; apply Forall2_map_r; intros p; repeat split.
Qed.
Lemma kept_filter {A} (out : A -> Prop) (f : A -> bool) l : (forall x, f x = true <-> out x) -> kept out l (filter (fun x => negb (f x)) l).
Proof.
  intros H. induction l as [|x l IH]; cbn [filter]; [constructor|]. destruct (f x) eqn:E; cbn [negb].
  - apply K_out; [now apply H|exact IH].
  - apply K_in; [|exact IH]. intros Ho. apply H in Ho. congruence.
Qed.
Lemma Forall2_imp {A B} (R S : A -> B -> Prop) l l' : (forall x y, R x y -> S x y) -> Forall2 R l l' -> Forall2 S l l'.
Proof. intros H. induction 1; constructor; auto. Qed.
Lemma parts_kept_carried df o p p' : parts_kept df o p p' -> parts_carried df o p p'.
Proof.
  intros (H1 & H2 & H3 & H4 & H5 & H6). split; [|split; [|split; [|auto]]].
  - eexists. split; [apply kept_filter, group_left_outb_iff|]. eapply Forall2_imp; [|exact H1]. apply group_kept_carried.
  - eexists. split; [apply kept_filter, cat_left_outb_iff|]. eapply Forall2_imp; [|exact H2]. apply cat_kept_carried.
  - eexists. split; [apply kept_filter, env_left_outb_iff|]. eapply Forall2_imp; [|exact H3]. apply env_kept_carried.
Qed.

(** ** Through a file *)
Definition head_carried (d d' : doc) (enc : ostr) : Prop := d_enc d' = Some enc /\ d_name d' = d_name d /\ d_sysid d' = d_sysid d /\ d_pubid d' = d_pubid d.
Lemma after_dtd st d n s p : ps_doctype st = Some (n, s, p) -> ps_doc st = PLive d ->
  after_parse st = Ok (with_doc st (PLive (mkDoc (d_objs d) (d_enc d) (Some n) (Some s) (Some p)))).
Proof. intros E1 E2. unfold after_parse. now rewrite E1, E2. Qed.
Lemma round_file ac name saved x df d w' r st fs : docwf d -> parts_normal (opt_xopts x) (doc_parts d) ->
  comps2xml_f ac name saved x df d w0 = Ok (w', r) -> Forall (fun c => snd c = true) (w_calls w') ->
  heard [] (calls w') (concat (map fst fs)) -> Forall (fun f => snd f = None) fs -> ready st ->
  exists st' d', parse_file false st (Some fs) df = Ok (st', 0%Z) /\ ps_log st' = [] /\ ps_doc st' = PLive d' /\ ready st' /\ docwf d' /\
    head_carried d d' (ps_enc st) /\ parts_carried (opt_dopts df) (opt_xopts x) (doc_parts d) (doc_parts d').
Proof.
  intros Hw Hn E Ha Hh Hf (Hl & Hd). destruct (xml_f_calls _ _ _ _ _ _ _ _ E Ha) as (n & p & s & t & En & Ep & Es & Et & Ec & _). rewrite Ec in Hh.
  set (q := match ps_doc st with PLive _ => PFreed | x => x end).
  assert (Er : reinit st = Ok (mkP [] [] 0 q [] false None (ps_enc st) (ps_opts st))).
  { unfold reinit, q. rewrite Hl. destruct (ps_doc st); [reflexivity|congruence|reflexivity]. }
  destruct (run_doc (opt_dopts df) (opt_xopts x) d t (enc_str d) n p s (concat (map fst fs)) q (ps_enc st) Hw Hn Et Hh) as (d' & R & Hd' & Hen & Hk).
  unfold parse_file. rewrite Er. cbn [bind]. unfold with_opts. cbn [ps_stack ps_text ps_len ps_doc ps_log ps_fatal ps_doctype ps_enc].
  apply run_feeds_clean in R; [|exact Hf]. fold (opt_dopts df). rewrite R. cbn [bind]. erewrite after_dtd by reflexivity. cbn [bind].
  eexists _, (mkDoc (d_objs d') (d_enc d') (Some n) (Some s) (Some p)). split; [reflexivity|]. split; [reflexivity|]. split; [reflexivity|].
  split; [split; [reflexivity|discriminate]|]. split; [exact (proj1 Hd')|]. split.
  - unfold head_carried. cbn [d_enc d_name d_sysid d_pubid]. auto.
  - now apply parts_kept_carried.
Qed.

(** ** Through a string *)
Lemma calls_told l w : calls (told l w) = calls w.
Proof. reflexivity. Qed.
Lemma xml_str_calls ac x df d w' : comps2xml_str ac x df d w0 = Ok (w', tt) -> accd w' ->
  exists n p s t, d_name d = Some n /\ d_pubid d = Some p /\ d_sysid d = Some s /\ doc_tree (opt_xopts x) (opt_dopts df) d = Ok t /\
    calls w' = WStartDoc (enc_str d) :: dtd_calls n p s ++ ser (fst t) ++ [WEndDoc].
Proof.
  intros E Ha.
  assert (Ht : tame (comps2xml_str ac x df d) (comps2xml_str always x df d)).
  { unfold comps2xml_str, unless. apply tame_bind; [apply tame_emit|intros r1]. apply tame_bind; [destruct r1; [apply tame_ret|apply tame_log]|intros _].
    apply tame_bind; [apply doc_xml_tame|intros g]. apply tame_bind; [destruct (g =? 0)%Z; [apply tame_ret|apply tame_log]|intros _].
    apply tame_bind; [destruct r1; [apply tame_ret|apply tame_log]|intros _]. apply tame_bind; [apply tame_emit|intros r2]. destruct r2; [apply tame_ret|apply tame_log]. }
  apply Ht in E. destruct E as [_ E]. specialize (E Ha). clear Ht Ha.
  unfold comps2xml_str, unless in E. rewrite wbind_emit, wbind_ret in E. unfold wbind at 1 in E.
  destruct (doc_xml always (opt_xopts x) (opt_dopts df) d (wrote [WStartDoc (enc_str d)] w0)) as [[w1 g]| |] eqn:Ed; cbn [bind fst snd] in E; try discriminate.
  destruct (doc_head_some _ _ _ _ _ _ Ed) as (n & p & s & En & Ep & Es). rewrite (doc_xml_ok _ _ d n p s _ En Ep Es) in Ed.
  destruct (doc_tree (opt_xopts x) (opt_dopts df) d) as [t| |] eqn:Et; cbn [bind] in Ed; try discriminate. inversion Ed; subst w1 g. clear Ed.
  exists n, p, s, t. repeat (split; [assumption || reflexivity|]).
  assert (Ec : forall l, calls (wrote [WEndDoc] (told l (fst (doc_result n p s t (wrote [WStartDoc (enc_str d)] w0))))) =
     WStartDoc (enc_str d) :: dtd_calls n p s ++ ser (fst t) ++ [WEndDoc]).
  { intros l. unfold doc_result. cbn [fst]. rewrite calls_wrote, !calls_told, !calls_wrote. cbn [calls w0 w_calls map app]. now rewrite app_assoc. }
  destruct ((snd (doc_result n p s t (wrote [WStartDoc (enc_str d)] w0)) =? 0)%Z) eqn:Ez; cbn [doc_result fst snd] in *.
  - rewrite Ez in E. rewrite !wbind_ret, wbind_emit in E. inversion E; subst. specialize (Ec []). cbn [told] in Ec. exact Ec.
  - rewrite Ez in E. inversion E; subst. exact (Ec [(E_XMLGEN, [])]).
Qed.
Lemma round_str ac x df d w' en f : docwf d -> parts_normal (opt_xopts x) (doc_parts d) ->
  comps2xml_str ac x df d w0 = Ok (w', tt) -> Forall (fun c => snd c = true) (w_calls w') ->
  heard [] (calls w') (fst f) -> snd f = None ->
  exists st' d', parse_str false (parsed_init en) f df = Ok (st', 0%Z) /\ ps_log st' = [] /\ ps_doc st' = PLive d' /\ docwf d' /\
    head_carried d d' en /\ parts_carried (opt_dopts df) (opt_xopts x) (doc_parts d) (doc_parts d').
Proof.
  intros Hw Hn E Ha Hh Hf. destruct (xml_str_calls _ _ _ _ _ E Ha) as (n & p & s & t & En & Ep & Es & Et & Ec). rewrite Ec in Hh.
  destruct (run_doc (opt_dopts df) (opt_xopts x) d t (enc_str d) n p s (fst f) PNull en Hw Hn Et Hh) as (d' & R & Hd' & Hen & Hk).
  unfold parse_str, parsed_init, with_opts. cbn [ps_stack ps_text ps_len ps_doc ps_log ps_fatal ps_doctype ps_enc].
  fold (opt_dopts df). rewrite <- (app_nil_r (fst f)) in R. change (fst f ++ []) with (concat (map fst [f])) in R.
  apply run_feeds_clean in R; [|repeat constructor; exact Hf].
  match goal with |- context [run_feeds ?a ?b ?c] => let E := fresh in assert (E : run_feeds a b c = _) by exact R; rewrite E; clear E end. cbn [bind]. erewrite after_dtd by reflexivity. cbn [bind].
  eexists _, (mkDoc (d_objs d') (d_enc d') (Some n) (Some s) (Some p)). split; [reflexivity|]. split; [reflexivity|]. split; [reflexivity|].
  split; [exact (proj1 Hd')|]. split.
  - unfold head_carried. cbn [d_enc d_name d_sysid d_pubid]. auto.
  - now apply parts_kept_carried.
Qed.

(** ** Comparison with the original *)
Definition exact_bool (b : base) (k : string) : Prop := base_get b (S_ k) = Ok (Some (PNum 0)) \/ base_get b (S_ k) = Ok (Some (PNum 1)).
Definition group_exact (o : xopts) (g : group) : Prop :=
  ~ group_left_out o g /\ only group_props (g_base g) /\ exact_bool (g_base g) "def" /\ exact_bool (g_base g) "uservisible" /\ exact_bool (g_base g) "biarchonly".
Definition cat_exact (o : xopts) (c : category) : Prop := ~ cat_left_out o c /\ only common_props (c_base c).
Definition env_exact (o : xopts) (e : env) : Prop := ~ env_left_out o e /\ only common_props (e_base e).
Definition parts_exact (o : xopts) (p : parts) : Prop :=
  x_arch o = true /\ Forall (group_exact o) (pt_groups p) /\ Forall (cat_exact o) (pt_cats p) /\ Forall (env_exact o) (pt_envs p).
Lemma kept_all {A} (out : A -> Prop) l l' : Forall (fun x => ~ out x) l -> kept out l l' -> l' = l.
Proof.
  intros H K. induction K as [|x l l' Ho K IH|x l l' Ho K IH]; [reflexivity| |]; apply Forall_cons_iff in H; destruct H as [H1 H2].
  - contradiction.
  - now rewrite IH.
Qed.
Lemma Forall2_with {A B} (P : A -> Prop) (R S : A -> B -> Prop) l l' : (forall x y, P x -> R x y -> S x y) -> Forall P l -> Forall2 R l l' -> Forall2 S l l'.
Proof. intros H HP HR. induction HR as [|x y l l' Hx _ IH]; [constructor|]. apply Forall_cons_iff in HP. destruct HP. constructor; auto. Qed.
Lemma exact_bool_same b b' k df : exact_bool b k -> bool_carried b b' k df -> base_get b' (S_ k) = base_get b (S_ k).
Proof. unfold exact_bool, bool_carried. intros [E|E] ->; rewrite E; reflexivity. Qed.
Lemma group_carried_same df o g g' : x_arch o = true -> group_exact o g -> group_carried df o g g' -> group_same g g'.
Proof.
  intros Hx (_ & Ho & E1 & E2 & E3) ((H1 & H2 & H3 & H4 & H5 & H6 & H7) & H8 & Ho' & B1 & B2 & B3 & Hp). rewrite Hx in H5.
  apply exact_bool_same in B1, B2, B3; try assumption. split; [split; [|split]|].
  - intros k. change (base_get (g_base g) k = base_get (g_base g') k).
    destruct (in_dec (list_eq_dec Ascii.ascii_dec) k (map S_ group_props)) as [Hi|Hi]; [|now rewrite Ho, Ho'].
    unfold carried in *. unfold group_props, common_props in Hi. cbn [map app In] in Hi. intuition (subst k; congruence).
  - intros k. symmetry. apply H6.
  - intros k. symmetry. apply H7.
  - eapply Forall2_imp; [|exact Hp]. intros p p' (? & ? & ? & ? & ?). unfold pkg_same. intuition congruence.
Qed.
Lemma base_carried_same o b b' : x_arch o = true -> only common_props b -> only common_props b' -> base_carried o b b' -> same_base b b'.
Proof.
  intros Hx Ho Ho' (H1 & H2 & H3 & H4 & H5 & H6 & H7). rewrite Hx in H5. split; [|split].
  - intros k. change (base_get b k = base_get b' k).
    destruct (in_dec (list_eq_dec Ascii.ascii_dec) k (map S_ common_props)) as [Hi|Hi]; [|now rewrite Ho, Ho'].
    unfold carried in *. unfold common_props in Hi. cbn [map app In] in Hi. intuition (subst k; congruence).
  - intros k. symmetry. apply H6.
  - intros k. symmetry. apply H7.
Qed.
Lemma gids_same o l l' : Forall2 (gid_carried o) l l' -> Forall2 gid_same l l'.
Proof. apply Forall2_imp. intros p p' (? & ? & ?). unfold gid_same. intuition congruence. Qed.
Lemma carried_same df o d d' en : parts_exact o (doc_parts d) -> d_enc d = Some en -> head_carried d d' en -> parts_carried df o (doc_parts d) (doc_parts d') -> docs_same d d'.
Proof.
  intros (Hx & Hg & Hc & He) Hen (E1 & E2 & E3 & E4) ((gs & K1 & F1) & (cs & K2 & F2) & (es & K3 & F3) & H4 & H5 & H6).
  apply kept_all in K1; [|eapply Forall_impl; [|exact Hg]; intros g Hg'; apply Hg']. apply kept_all in K2; [|eapply Forall_impl; [|exact Hc]; intros g Hg'; apply Hg'].
  apply kept_all in K3; [|eapply Forall_impl; [|exact He]; intros g Hg'; apply Hg']. subst gs cs es.
  unfold docs_same. split; [congruence|]. split; [congruence|]. split; [congruence|]. split; [congruence|]. split; [|split; [|split; [|split; [|split]]]].
  - eapply Forall2_with; [|exact Hc|exact F2]. intros c c' (_ & Ho) (Hb & Ho' & Hm). split; [now apply (base_carried_same o)|now apply gids_same with o].
  - eapply Forall2_with; [|exact Hg|exact F1]. intros g g' Hge. now apply group_carried_same.
  - eapply Forall2_with; [|exact He|exact F3]. intros c c' (_ & Ho) (Hb & Ho' & Hm & Hm'). split; [now apply (base_carried_same o)|]. split; now apply gids_same with o.
  - intros k. symmetry. apply H4.
  - intros k. unfold listed. now rewrite H5.
  - intros k. unfold listed. now rewrite H6.
Qed.
