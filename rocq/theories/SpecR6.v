(** What a save followed by a load makes of any document, over the public
    accessors: statements at the level of events and of bytes. *)
From Coq Require Import NArith Nnat Sorted.
From Verif Require Import CStr CStrFacts HSListModel HSListFacts RTreeModel RTreeFacts RTreeFacts2 RTreeFacts3 RTreeFacts4 MRTreeModel MRTreeFacts MRTreeFacts2
  ObjModel ObjFacts2 Dec StrModel StrFacts DocModel DocFacts2 SpecA SpecB SpecD SpecE ParseModel ParseFacts SpecF SpecF2 SpecF3 SpecF4 XmlModel XmlFacts SpecG SpecG2 SpecG3 SpecG4 SpecG5
  SpecG6 SpecG7 Utf8Facts TextModel TextFacts TextFacts2 TextFacts3 TextFacts4 TextFacts5 TextFacts6 SpecR SpecR2 SpecR3 SpecR4 SpecR5.

(** ** Statements *)
Section Reader.
Context {RD : reader}.
(** A text property: the text that is written, less some of its white space;
    nothing if it was blank. *)
Definition text_read (v v' : res (option pval)) : Prop :=
  match v with
  | Ok (Some p) => exists s x, pval_tostr (Some p) = Ok s /\ text_after s x /\ v' = Ok (option_map PStr x)
  | _ => v' = Ok None
  end.
(** The list of architectures that is written: none if it is empty. *)
Definition arches_read (o : xopts) (v v' : res (option pval)) : Prop :=
  v' = match v with Ok (Some (PList (a :: l))) => if x_arch o then Ok (Some (PList (split_arches (join (S_ " ") (map str_tostr (a :: l)))))) else Ok None | _ => Ok None end.
Definition base_read (o : xopts) (b b' : base) : Prop :=
  text_read (base_get b (S_ "id")) (base_get b' (S_ "id")) /\ text_read (base_get b (S_ "name")) (base_get b' (S_ "name")) /\
  text_read (base_get b (S_ "desc")) (base_get b' (S_ "desc")) /\ carried b b' "display_order" /\ arches_read o (base_get b (S_ "arches")) (base_get b' (S_ "arches")) /\
  dict_after (b_names b) (b_names b') /\ dict_after (b_descs b) (b_descs b').
Definition group_read (df : dopts) (o : xopts) (g g' : group) : Prop :=
  base_read o (g_base g) (g_base g') /\ text_read (base_get (g_base g) (S_ "langonly")) (base_get (g_base g') (S_ "langonly")) /\ only group_props (g_base g') /\
  bool_carried (g_base g) (g_base g') "def" (o_default df) /\ bool_carried (g_base g) (g_base g') "uservisible" (o_uservisible df) /\
  bool_carried (g_base g) (g_base g') "biarchonly" (o_biarchonly df) /\ Forall2 (pkg_after o) (g_pkgs g) (g_pkgs g').
Definition cat_read (o : xopts) (c c' : category) : Prop :=
  base_read o (c_base c) (c_base c') /\ only common_props (c_base c') /\ Forall2 (gid_after o) (c_gids c) (c_gids c').
Definition env_read (o : xopts) (e e' : env) : Prop :=
  base_read o (e_base e) (e_base e') /\ only common_props (e_base e') /\ Forall2 (gid_after o) (e_groups e) (e_groups e') /\ Forall2 (gid_after o) (e_options e) (e_options e').
(** Nothing of an object is missing. *)
Definition base_whole (b b' : base) : Prop :=
  (forall k, In k ["id"; "name"; "desc"]%string -> base_get b' (S_ k) <> Ok None) /\
  (forall k, rt_get (b_names b) k <> Ok None -> rt_get (b_names b') k <> Ok None) /\ (forall k, rt_get (b_descs b) k <> Ok None -> rt_get (b_descs b') k <> Ok None).
Definition group_whole (o : xopts) (g g' : group) : Prop :=
  base_whole (g_base g) (g_base g') /\ Forall (fun p => p_name p <> None) (g_pkgs g') /\ (g_pkgs g = [] -> x_empty_packages o = false).
Definition cat_whole (o : xopts) (c c' : category) : Prop := base_whole (c_base c) (c_base c') /\ (c_gids c = [] -> x_empty_grouplist o = false).
Definition env_whole (o : xopts) (e e' : env) : Prop := base_whole (e_base e) (e_base e') /\ (e_groups e = [] -> x_empty_grouplist o = false).
(** [p'] is what is read of [p]; [c] is the code that the load returns. *)
Definition parts_read (df : dopts) (o : xopts) (p p' : parts) (c : Z) : Prop :=
  exists gs cs es, kept (group_left_out o) (pt_groups p) gs /\ kept (cat_left_out o) (pt_cats p) cs /\ kept (env_left_out o) (pt_envs p) es /\
    Forall2 (group_read df o) gs (pt_groups p') /\ Forall2 (cat_read o) cs (pt_cats p') /\ Forall2 (env_read o) es (pt_envs p') /\
    lang_after (pt_langpacks p) (pt_langpacks p') /\ mdict_after (pt_blacklist p) (pt_blacklist p') /\ mdict_after (pt_whiteout p) (pt_whiteout p') /\
    (c = 0%Z \/ c = 1%Z) /\
    (c = 0%Z <-> Forall2 (group_whole o) gs (pt_groups p') /\ Forall2 (cat_whole o) cs (pt_cats p') /\ Forall2 (env_whole o) es (pt_envs p')).
(** The state after a load of what was saved of [d]. *)
Definition loaded_any (df : dopts) (o : xopts) (d : doc) (en : ostr) (st' : pst) (c : Z) : Prop :=
  exists d', ps_doc st' = PLive d' /\ docwf d' /\ head_carried d d' en /\ (ps_log st' = [] <-> c = 0%Z) /\ parts_read df o (doc_parts d) (doc_parts d') c.

(** ** Proofs *)
Lemma prop_text b b' k : prop_after b b' k -> text_read (base_get b k) (base_get b' k).
Proof.
  unfold prop_after, text_read. rewrite !base_get_ok. destruct (look (troot (b_props b)) k) as [v|]; [|intros ->; reflexivity].
  intros (s & x & E & Ht & Ex). exists s, x. split; [exact E|]. split; [exact Ht|]. now rewrite Ex.
Qed.
Lemma arch_read o b b' : arch_after o b b' -> arches_read o (base_get b (S_ "arches")) (base_get b' (S_ "arches")).
Proof.
  unfold arch_after, arches_read, arches_after. rewrite !base_get_ok. intros ->. destruct (look (troot (b_props b)) (S_ "arches")) as [[| |[|a l]]|]; try reflexivity.
  destruct (x_arch o); reflexivity.
Qed.
Lemma base_after_read o b b' : base_after b b' -> arch_after o b b' -> base_read o b b'.
Proof.
  intros (_ & H1 & H2 & H3 & H4 & H5 & H6) Ha. unfold base_read. split; [now apply prop_text|]. split; [now apply prop_text|]. split; [now apply prop_text|].
  split; [unfold carried; rewrite !base_get_ok; now f_equal|]. split; [now apply arch_read|auto].
Qed.
Lemma base_full_whole b b' : base_full b b' <-> base_whole b b'.
Proof.
  unfold base_full, base_whole, has_required, dict_full. split.
  - intros ((H1 & H2 & H3) & H4 & H5). split; [|auto]. intros k Hk. rewrite base_get_ok. intros E. apply Ok_inj in E. cbn [In] in Hk. destruct Hk as [<-|[<-|[<-|[]]]]; contradiction.
  - intros (H1 & H4 & H5). split; [|auto]. split; [|split]; intros E; [apply (H1 "id"%string)|apply (H1 "name"%string)|apply (H1 "desc"%string)]; cbn [In]; auto; rewrite base_get_ok; now f_equal.
Qed.
Lemma list_full_iff {A} al (ps : list A) : list_full al ps <-> (ps = [] -> al = false).
Proof. unfold list_full. destruct ps; split; intros H; try (intros; discriminate); try (left; discriminate); [destruct H; [congruence|auto]|right; auto]. Qed.
Lemma group_after_read df o g g' : group_after df o g g' -> group_read df o g g'.
Proof.
  intros (Hk & Hl & Ha & B1 & B2 & B3 & Hp). split; [now apply base_after_read|]. split; [now apply prop_text|]. unfold bool_carried, bool_back in *.
  rewrite !meaning_truth, !base_get_ok, B1, B2, B3. split; [|auto].
  intros k Hn. rewrite base_get_ok. f_equal. destruct Hk as ((_ & (_ & _ & Hw) & _) & _). destruct (look (troot (b_props (g_base g'))) k) eqn:E; [|reflexivity].
  elim Hn. assert (Hi : In k prop_keys) by (apply Hw; congruence). revert Hi. clear. unfold prop_keys, group_props, common_props. cbn [map app In]. tauto.
Qed.
Lemma cat_after_read o g g' : cat_after o g g' -> cat_read o g g'.
Proof. intros (Hk & Ho & Ha & Hp). split; [now apply base_after_read|]. split; [now apply only_common_only|exact Hp]. Qed.
Lemma env_after_read o g g' : env_after o g g' -> env_read o g g'.
Proof. intros (Hk & Ho & Ha & Hp). split; [now apply base_after_read|]. split; [now apply only_common_only|exact Hp]. Qed.
Lemma Forall2_iff {A B} (R S : A -> B -> Prop) l l' : (forall x y, R x y <-> S x y) -> Forall2 R l l' <-> Forall2 S l l'.
Proof. intros H. split; apply Forall2_imp; intros x y; apply H. Qed.
Lemma result_any o df d en st' c : load_result o df d en st' c -> loaded_any df o d en st' c.
Proof.
  intros (d' & E & Hd & Hh & (K1 & K2 & K3 & K4 & K5 & K6) & _ & Hl & Hc & H01). exists d'. split; [exact E|]. split; [exact Hd|]. split; [exact Hh|]. split; [now rewrite Hl, Hc|].
  exists (kept_groups o (doc_parts d)), (kept_cats o (doc_parts d)), (kept_envs o (doc_parts d)).
  split; [apply kept_filter, group_left_outb_iff|]. split; [apply kept_filter, cat_left_outb_iff|]. split; [apply kept_filter, env_left_outb_iff|].
  split; [eapply Forall2_imp; [|exact K1]; apply group_after_read|]. split; [eapply Forall2_imp; [|exact K2]; apply cat_after_read|]. split; [eapply Forall2_imp; [|exact K3]; apply env_after_read|].
  split; [exact K4|]. split; [exact K5|]. split; [exact K6|]. split; [exact H01|]. rewrite Hc. unfold parts_full.
  rewrite (Forall2_iff (group_full o) (group_whole o)), (Forall2_iff (cat_full o) (cat_whole o)), (Forall2_iff (env_full o) (env_whole o)); [reflexivity| | |].
  - intros g g'. unfold env_full, env_whole. now rewrite base_full_whole, list_full_iff.
  - intros g g'. unfold cat_full, cat_whole. now rewrite base_full_whole, list_full_iff.
  - intros g g'. unfold group_full, group_whole. now rewrite base_full_whole, list_full_iff.
Qed.
(** ** At the level of events: the texts of the calls as the reader keeps them *)
Lemma any_events ac name saved x df d w' r cs' st fs : docwf d -> parts_fit (doc_parts d) ->
  comps2xml_f ac name saved x df d w0 = Ok (w', r) -> Forall (fun c => snd c = true) (w_calls w') ->
  Forall2 (retext keeps) (calls w') cs' -> heard [] cs' (concat (map fst fs)) -> Forall (fun f => snd f = None) fs -> ready st ->
  exists st' c, parse_file false st (Some fs) df = Ok (st', c) /\ ready st' /\ loaded_any (opt_dopts df) (opt_xopts x) d (ps_enc st) st' c.
Proof.
  intros Hw Hf E Ha Hr Hh Hn Hs. apply retext_seen in Hr; [|exact (heard_no_blanks _ _ _ Hh)].
  destruct (round_file_any ac name saved x df d w' r cs' st fs Hw Hf E Ha Hr Hh Hn Hs) as (st' & c & P & R & L). exists st', c. split; [exact P|]. split; [exact R|]. now apply result_any.
Qed.
End Reader.
(** The reader of the library: texts may lose white space. *)
#[global] Existing Instance thin_reader.
Lemma any_file ac name saved x df d w' r st : docwf d -> parts_fit (doc_parts d) ->
  comps2xml_f ac name saved x df d w0 = Ok (w', r) -> Forall (fun c => snd c = true) (w_calls w') ->
  enc_str d = ! "UTF-8" -> doctype_ok d -> Forall xml_text (strs (calls w')) -> ready st ->
  exists b st' c, printed (calls w') = Some b /\ load_file st b df = Some (Ok (st', c)) /\ ready st' /\ loaded_any (opt_dopts df) (opt_xopts x) d (ps_enc st) st' c.
Proof.
  intros Hw Hf E Ha He Hd Hx Hr. assert (Hp : printable x df d (calls w')) by (repeat split; auto; left; eauto 9). destruct (printable_bytes _ _ _ _ Hp) as (b & Hb & _ & Hne).
  assert (Ec : concat (cut_blocks BUFF_SIZE (length b) b) = b) by (apply cut_blocks_concat; [apply Nat.lt_0_succ|apply le_n]).
  destruct (read_any _ _ _ _ _ _ Hp Hb Ec) as (ess & [_ R] & _ & cs' & F & K). destruct (feeds_ok ess) as [F1 F2].
  destruct (any_events (RD := thin_reader) ac name saved x df d w' r cs' st [(strip (concat ess), None)] Hw Hf E Ha F) as (st' & c & P & Hr' & L); [cbn [map fst concat]; now rewrite app_nil_r|repeat constructor|exact Hr|].
  exists b, st', c. split; [exact Hb|]. split; [|auto]. unfold load_file. rewrite R. cbn [option_map]. f_equal. rewrite <- P. apply parse_file_events; [exact F1|]. unfold feeds in F2. now rewrite F2, strip_strip.
Qed.
Lemma squeezed_thinner cs : Forall2 (retext thinner) cs (map squeezed cs).
Proof.
  induction cs as [|c cs IH]; [constructor|]. cbn [map]. constructor; [|exact IH]. destruct c; try (apply RT_same; discriminate). cbn [squeezed]. apply RT_text.
  pose proof (thinner_pieces (pieces s)) as H. assert (Ec : concat (pieces s) = s) by (unfold pieces; rewrite chop_concat; cbn [app]; apply bytes_some). rewrite Ec in H. exact H.
Qed.
Lemma any_str ac x df d w' en : docwf d -> parts_fit (doc_parts d) -> comps2xml_str ac x df d w0 = Ok (w', tt) -> Forall (fun c => snd c = true) (w_calls w') ->
  enc_str d = ! "UTF-8" -> doctype_ok d -> Forall xml_text (strs (calls w')) ->
  exists b st' c, printed (calls w') = Some b /\ load_str (parsed_init en) b df = Some (Ok (st', c)) /\ loaded_any (opt_dopts df) (opt_xopts x) d en st' c.
Proof.
  intros Hw Hf E Ha He Hd Hx. assert (Hp : printable x df d (calls w')) by (repeat split; auto; right; eauto). destruct (printable_bytes _ _ _ _ Hp) as (b & Hb & _).
  destruct (str_exact _ _ _ _ _ (parsed_init en) df Hp Hb) as (es & K & L).
  destruct (round_str_any (RD := thin_reader) ac x df d w' (map squeezed (calls w')) en (es, None) Hw Hf E Ha) as (st' & c & P & R); [|exact K|reflexivity|].
  { apply (retext_seen (RD := thin_reader)); [apply squeezed_thinner|exact (heard_no_blanks _ _ _ K)]. }
  exists b, st', c. split; [exact Hb|]. split; [now rewrite L, P|]. now apply result_any.
Qed.
(** ** Corollaries on texts *)
Lemma thinner_id s s' : thinner s s' -> Forall (fun c => ~ white c) s -> s' = s.
Proof. intros H. induction H as [|c s s' _ IH|c s s' Hc _ _]; intros Hf; [reflexivity| |]; apply Forall_cons_iff in Hf; destruct Hf as [H1 H2]; [now rewrite IH|contradiction]. Qed.
Lemma thinner_ink s s' : thinner s s' -> filter (fun c => negb (is_space c)) s' = filter (fun c => negb (is_space c)) s.
Proof.
  intros H. induction H as [|c s s' _ IH|c s s' Hc _ IH]; [reflexivity| |].
  - cbn [filter]. now rewrite IH.
  - cbn [filter]. rewrite IH. assert (E : is_space c = true) by (unfold white in Hc; destruct c as [[] [] [] [] [] [] [] []]; vm_compute in Hc |- *; intuition (discriminate || congruence)). now rewrite E.
Qed.
