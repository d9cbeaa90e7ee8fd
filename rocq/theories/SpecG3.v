(** Reading back what was written: the texts and members of an object. *)
From Coq Require Import NArith Nnat.
From Verif Require Import CStr CStrFacts HSListModel HSListFacts RTreeModel RTreeFacts RTreeFacts2 RTreeFacts3 RTreeFacts4 MRTreeModel MRTreeFacts MRTreeFacts2
  ObjModel ObjFacts2 Dec StrModel StrFacts DocModel DocFacts2 SpecA SpecB SpecE ParseModel ParseFacts SpecF SpecF2 SpecF3 XmlModel XmlFacts SpecG SpecG2.

(** ** The object being read *)
Definition focus (w : owner) (F : base -> parts) : Prop :=
  match w with
  | OGroup => exists p l pk, forall b, F b = with_groups p (l ++ [mkG b pk])
  | OCat => exists p l gs, forall b, F b = with_cats p (l ++ [mkC b gs])
  | OEnv => exists p l gs os, forall b, F b = with_envs p (l ++ [mkE b gs os])
  end.
Definition otype (w : owner) : etype := match w with OGroup => TGroup | OCat => TCategory | OEnv => TEnv end.
Lemma upd_base_ok {A} w F d b b' (a : A) f : pdoc d -> focus w F -> doc_parts d = F b -> f b = Ok (b', a) -> pb b' ->
  exists d', upd_base w d f = Ok (d', a) /\ pdoc d' /\ same_head d d' /\ doc_parts d' = F b'.
Proof.
  intros Hd Hf E Ef Hb. destruct w; cbn [upd_base focus] in *.
  - destruct Hf as (p & l & pk & HF). destruct (upd_last_group_ok d l (mkG b pk) (mkG b' pk) a (fun g => r <- f (g_base g) ;; Ok (mkG (fst r) (g_pkgs g), snd r)) Hd)
      as (d' & E1 & E2 & E3 & E4); [now rewrite E, HF|cbn [g_base g_pkgs]; now rewrite Ef|exact Hb|].
    exists d'. repeat (split; [assumption|]). now rewrite E4, E, !HF.
  - destruct Hf as (p & l & pk & HF). destruct (upd_last_cat_ok d l (mkC b pk) (mkC b' pk) a (fun g => r <- f (c_base g) ;; Ok (mkC (fst r) (c_gids g), snd r)) Hd)
      as (d' & E1 & E2 & E3 & E4); [now rewrite E, HF|cbn [c_base c_gids]; now rewrite Ef|exact Hb|].
    exists d'. repeat (split; [assumption|]). now rewrite E4, E, !HF.
  - destruct Hf as (p & l & gs & os & HF).
    destruct (upd_last_env_ok d l (mkE b gs os) (mkE b' gs os) a (fun g => r <- f (e_base g) ;; Ok (mkE (fst r) (e_groups g) (e_options g), snd r)) Hd)
      as (d' & E1 & E2 & E3 & E4); [now rewrite E, HF|cbn [e_base e_groups e_options]; now rewrite Ef|exact Hb|].
    exists d'. repeat (split; [assumption|]). now rewrite E4, E, !HF.
Qed.

Ltac gtype := match goal with |- context [get_type ?x] => let y := eval vm_compute in (get_type x) in change (get_type x) with y end.
Section Rows.
Variables (dt : option (ostr * ostr * ostr)) (en : ostr) (op : dopts).
Notation at_ := (at_ dt en op).

(** Reading the elements [ts] inside an object turns its dictionaries from [b] into [b']. *)
Definition turns (w : owner) (ts : list xml) (b b' : base) : Prop :=
  forall F eo sk nm cs d, focus w F -> el_type eo = otype w -> el_valid eo = true -> pdoc d -> doc_parts d = F b ->
    exists d', plays (at_ (eo :: sk) (PLive d)) nm (sers ts ++ cs) (at_ (eo :: sk) (PLive d')) nm cs /\
      pdoc d' /\ same_head d d' /\ doc_parts d' = F b'.
Lemma turns_nil w b : turns w [] b b.
Proof. intros F eo sk nm cs d Hf Et Ev Hd E. exists d. split; [apply plays_refl|]. split; [exact Hd|]. split; [apply same_head_refl|exact E]. Qed.
Lemma turns_app w t1 t2 a b c : turns w t1 a b -> turns w t2 b c -> turns w (t1 ++ t2) a c.
Proof.
  intros H1 H2 F eo sk nm cs d Hf Et Ev Hd E. unfold sers. rewrite flat_map_app, <- app_assoc.
  destruct (H1 F eo sk nm (sers t2 ++ cs) d Hf Et Ev Hd E) as (d1 & P1 & Hd1 & Hh1 & E1).
  destruct (H2 F eo sk nm cs d1 Hf Et Ev Hd1 E1) as (d2 & P2 & Hd2 & Hh2 & E2).
  exists d2. split; [exact (plays_trans _ _ _ _ _ _ _ _ _ P1 P2)|]. split; [exact Hd2|]. split; [now apply same_head_trans with d1|exact E2].
Qed.

(** One element with text. *)
Lemma turns_text w n a s b b' dict f :
  s <> [] -> attrs_dict rt_create a = Ok dict -> check_attributes false (get_type n) dict = Ok [] ->
  In (otype w) (ancestors (get_type n)) -> (forall p, preproc op en (mkElem (get_type n) true dict) p = fun q => Ok q) ->
  f b = Ok (b', []) -> pb b' ->
  (forall eo sk d, el_type eo = otype w ->
     postproc op (mkElem (get_type n) true dict) (eo :: sk) (PLive d) (Some s) = (r <- upd_base w d f ;; Ok (PLive (fst r), snd r, None))) ->
  turns w [Elem n a [Text s]] b b'.
Proof.
  intros Hs Ea Ec Hi Hp Ef Hb Hpost F eo sk nm cs d Hf Et Ev Hd E.
  destruct (upd_base_ok w F d b b' [] f Hd Hf E Ef Hb) as (d' & Eu & Hd' & Hh & E').
  exists d'. split; [|auto]. cbn [sers flat_map ser app]. rewrite app_nil_r. cbn [app]. rewrite <- app_assoc. cbn [app].
  eapply plays_trans.
  - apply plays_start with (dict := dict) (p1 := PLive d); [exact I|exact Ea|exact Ec| |now rewrite Hp].
    unfold elem_valid. destruct (ancestors (get_type n)) as [|x l]; [destruct Hi|]. apply existsb_exists. exists (otype w). split; [exact Hi|].
    now rewrite Et, Ev, etype_eqb_refl.
  - apply plays_text_end; [reflexivity|reflexivity|exact Hs|]. rewrite Hpost by exact Et. rewrite Eu. reflexivity.
Qed.

Lemma no_attrs t : exists dict, attrs_dict rt_create [] = Ok dict /\ check_attributes false t dict = Ok [] /\ (forall k, rt_get dict k = Ok None).
Proof.
  destruct (attrs_ok t []) as (dict & E & Eg & Ec); [intros ? ? []|intros [|? ?] ? ? ? ? H; discriminate|intros ? []|].
  exists dict. auto.
Qed.
Definition put (b b' : base) (k : str) (v : option pval) : Prop :=
  pb b' /\ b_names b' = b_names b /\ b_descs b' = b_descs b /\
  forall k', look (troot (b_props b')) k' = if streq k' k then v else look (troot (b_props b)) k'.
Definition free (b : base) (k : str) : Prop := look (troot (b_props b)) k = None.

(** id, name, description without a language. *)
Lemma plain_text w n k s b : In (n, k) [(S_ "id", S_ "id"); (S_ "name", S_ "name"); (S_ "description", S_ "desc")] ->
  pb b -> free b k -> s <> [] -> exists b', turns w [prop_tree n s] b b' /\ put b b' k (Some (PStr (Some s))).
Proof.
  intros Hin Hb Hf Hs.
  assert (Hk : In k prop_keys /\ k <> S_ "display_order").
  { cbn [In] in Hin. destruct Hin as [E|[E|[E|[]]]]; apply pair_equal_spec in E; destruct E as [<- <-]; (split; [in_keys|discriminate]). }
  destruct (set_prop_str_ok b k s Hb (proj1 Hk) (proj2 Hk)) as (b' & E & Hb' & Hn & Hd & Hl).
  exists b'. split; [|unfold put; auto].
  destruct (no_attrs (get_type n)) as (dict & Ea & Ec & Eg).
  apply turns_text with (dict := dict) (f := set_text (get_type n) dict s); auto.
  - cbn [In] in Hin. destruct Hin as [E'|[E'|[E'|[]]]]; apply pair_equal_spec in E'; destruct E' as [<- <-]; destruct w; vm_compute; tauto.
  - intros p. cbn [In] in Hin. destruct Hin as [E'|[E'|[E'|[]]]]; apply pair_equal_spec in E'; destruct E' as [<- <-]; reflexivity.
  - cbn [In] in Hin. destruct Hin as [E'|[E'|[E'|[]]]]; apply pair_equal_spec in E'; destruct E' as [<- <-]; unfold set_text; cbn [get_type streq];
    match goal with |- context [get_type ?x] => let y := eval vm_compute in (get_type x) in change (get_type x) with y end; cbn iota;
    rewrite ?Eg; cbn [bind]; rewrite base_get_ok, Hf; cbn [bind]; rewrite E; reflexivity.
  - intros eo sk d Et. cbn [In] in Hin.
    destruct Hin as [E'|[E'|[E'|[]]]]; apply pair_equal_spec in E'; destruct E' as [<- <-];
    match goal with |- context [get_type ?x] => let y := eval vm_compute in (get_type x) in change (get_type x) with y end;
    unfold postproc; cbn [el_type el_attrs parent_type live bind]; rewrite Et; destruct w; reflexivity.
Qed.

(** Translations. *)
Lemma lang_attrs t l : t = TName \/ t = TDesc -> exists dict, attrs_dict rt_create [(S_ "xml:lang", l)] = Ok dict /\ check_attributes false t dict = Ok [] /\
  rt_get dict (S_ "xml:lang") = Ok (Some l).
Proof.
  intros Ht. destruct (attrs_ok t [(S_ "xml:lang", l)]) as (dict & E & Eg & Ec).
  - apply nonempty_keys_b. vm_compute. reflexivity.
  - apply no_late_prefix_b. vm_compute. reflexivity.
  - destruct Ht as [-> | ->]; cbn [map fst]; incl_tac.
  - exists dict. rewrite Eg. auto.
Qed.
Lemma name_text w l s b : pb b -> s <> [] ->
  exists b', turns w [lang_tree (S_ "name") (l, Some s)] b b' /\ pb b' /\ b_props b' = b_props b /\ b_descs b' = b_descs b /\
    rt_set (b_names b) l (Some (Some s)) = Ok (b_names b').
Proof.
  intros Hb Hs. destruct (set_name_ok b l (Some s) Hb) as (b' & E & Hb' & Hp & Hd & Hn).
  exists b'. split; [|auto]. destruct (lang_attrs TName l (or_introl eq_refl)) as (dict & Ea & Ec & Eg).
  unfold lang_tree. cbn [fst snd str_tostr].
  apply turns_text with (dict := dict) (f := set_text TName dict s); auto.
  - destruct w; vm_compute; tauto.
  - unfold set_text. rewrite Eg. cbn [bind]. match goal with |- bind ?m _ = _ => replace m with (Ok b') by (symmetry; exact E) end. reflexivity.
  - intros eo sk d Et. gtype. unfold postproc. cbn [el_type el_attrs parent_type live bind]. rewrite Et. destruct w; reflexivity.
Qed.
Lemma desc_text w l s b : pb b -> s <> [] ->
  exists b', turns w [lang_tree (S_ "description") (l, Some s)] b b' /\ pb b' /\ b_props b' = b_props b /\ b_names b' = b_names b /\
    rt_set (b_descs b) l (Some (Some s)) = Ok (b_descs b').
Proof.
  intros Hb Hs. destruct (set_desc_ok b l (Some s) Hb) as (b' & E & Hb' & Hp & Hd & Hn).
  exists b'. split; [|auto]. destruct (lang_attrs TDesc l (or_intror eq_refl)) as (dict & Ea & Ec & Eg).
  unfold lang_tree. cbn [fst snd str_tostr].
  apply turns_text with (dict := dict) (f := set_text TDesc dict s); auto.
  - destruct w; vm_compute; tauto.
  - unfold set_text. rewrite Eg. cbn [bind]. match goal with |- bind ?m _ = _ => replace m with (Ok b') by (symmetry; exact E) end. reflexivity.
  - intros eo sk d Et. gtype. unfold postproc. cbn [el_type el_attrs parent_type live bind]. rewrite Et. destruct w; reflexivity.
Qed.
Definition texted (kv : str * ostr) : Prop := exists s, snd kv = Some s /\ blank_free s.
Lemma names_texts w l : forall b, pb b -> Forall texted l ->
  exists b', turns w (map (lang_tree (S_ "name")) l) b b' /\ pb b' /\ b_props b' = b_props b /\ b_descs b' = b_descs b /\
    rt_sets (b_names b) l = Ok (b_names b').
Proof.
  induction l as [|[k v] l IH]; intros b Hb Hl; cbn [map rt_sets].
  - exists b. split; [apply turns_nil|auto].
  - inversion Hl as [|? ? (s & Es & Hs) Hl']; subst. cbn [snd] in Es. subst v.
    destruct (name_text w k s b Hb (blank_free_ne _ Hs)) as (b1 & T1 & Hb1 & Hp1 & Hd1 & Hn1).
    destruct (IH b1 Hb1 Hl') as (b2 & T2 & Hb2 & Hp2 & Hd2 & Hn2).
    exists b2. split; [exact (turns_app w [_] _ b b1 b2 T1 T2)|]. split; [exact Hb2|]. split; [congruence|]. split; [congruence|].
    match goal with |- bind ?m _ = _ => replace m with (Ok (b_names b1)) by (symmetry; exact Hn1) end. exact Hn2.
Qed.
Lemma descs_texts w l : forall b, pb b -> Forall texted l ->
  exists b', turns w (map (lang_tree (S_ "description")) l) b b' /\ pb b' /\ b_props b' = b_props b /\ b_names b' = b_names b /\
    rt_sets (b_descs b) l = Ok (b_descs b').
Proof.
  induction l as [|[k v] l IH]; intros b Hb Hl; cbn [map rt_sets].
  - exists b. split; [apply turns_nil|auto].
  - inversion Hl as [|? ? (s & Es & Hs) Hl']; subst. cbn [snd] in Es. subst v.
    destruct (desc_text w k s b Hb (blank_free_ne _ Hs)) as (b1 & T1 & Hb1 & Hp1 & Hd1 & Hn1).
    destruct (IH b1 Hb1 Hl') as (b2 & T2 & Hb2 & Hp2 & Hd2 & Hn2).
    exists b2. split; [exact (turns_app w [_] _ b b1 b2 T1 T2)|]. split; [exact Hb2|]. split; [congruence|]. split; [congruence|].
    match goal with |- bind ?m _ = _ => replace m with (Ok (b_descs b1)) by (symmetry; exact Hn1) end. exact Hn2.
Qed.
(** Writing the entries of a dictionary into an empty one gives the same dictionary. *)
Lemma entries_again {V} (t : rtree V) : wft t ->
  exists l t', rt_pairs t = Ok l /\ (forall k v, In (k, v) l <-> rt_get t k = Ok (Some v)) /\ rt_sets rt_create l = Ok t' /\ forall k, rt_get t' k = rt_get t k.
Proof.
  intros Hw. exists (ents (hitems (troot t))).
  assert (Hin : forall k v, In (k, v) (ents (hitems (troot t))) <-> rt_get t k = Ok (Some v)).
  { intros k v. rewrite (ents_look _ _ _ Hw), rt_get_look. split; congruence. }
  assert (Hlf : late_free (fun _ => False) (fun _ => False) (ents (hitems (troot t)))).
  { apply sorted_late; [now apply ents_sorted| |intros s []]. intros k v H ->. apply Hin in H. rewrite rt_get_look in H. discriminate. }
  destruct (rt_sets_spec _ rt_create (fun _ => False) (fun _ => False) wft_create (tn_empty _) (fun s (F : False) => match F with end) Hlf) as (t' & Et & _ & _ & Hl).
  exists t'. split; [apply rt_pairs_ents|]. split; [exact Hin|]. split; [exact Et|]. intros k. rewrite !rt_get_look, Hl. cbn [rt_create troot]. rewrite look_empty. f_equal.
  destruct (look (troot t) k) as [v|] eqn:E.
  - apply (ents_look _ _ _ Hw) in E. apply last_set_in; [now apply ents_nodup|exact E].
  - apply last_set_notin. intros H. apply in_map_iff in H. destruct H as ([k' v] & <- & H). apply (ents_look _ _ _ Hw) in H. cbn in E. congruence.
Qed.

(** Booleans. *)
Definition bool_keys : list (str * str) := [(S_ "default", S_ "def"); (S_ "uservisible", S_ "uservisible"); (S_ "biarchonly", S_ "biarchonly")].
Lemma bool_text n k c b : In (n, k) bool_keys -> pb b ->
  exists b', turns OGroup [prop_tree n (bool_str c)] b b' /\ put b b' k (Some (PNum (if c then 1 else 0))).
Proof.
  intros Hin Hb.
  assert (Hk : In k prop_keys).
  { unfold bool_keys in Hin. cbn [In] in Hin. destruct Hin as [E|[E|[E|[]]]]; apply pair_equal_spec in E; destruct E as [<- <-]; in_keys. }
  destruct (set_num_ok b k (if c then 1%Z else 0%Z) Hb Hk) as (b' & E & Hb' & Hn & Hd & Hl).
  exists b'. split; [|unfold put; auto].
  destruct (no_attrs (get_type n)) as (dict & Ea & Ec & Eg).
  apply turns_text with (dict := dict) (f := fun b => set_bool b k (Some (bool_str c))); auto.
  - destruct c; discriminate.
  - unfold bool_keys in Hin. cbn [In] in Hin. destruct Hin as [E'|[E'|[E'|[]]]]; apply pair_equal_spec in E'; destruct E' as [<- <-]; vm_compute; tauto.
  - intros p. unfold bool_keys in Hin. cbn [In] in Hin. destruct Hin as [E'|[E'|[E'|[]]]]; apply pair_equal_spec in E'; destruct E' as [<- <-]; reflexivity.
  - unfold set_bool. destruct c; [change (streq (bool_str true) (S_ "false")) with false; change (streq (bool_str true) (S_ "true")) with true|change (streq (bool_str false) (S_ "false")) with true];
    cbn iota; rewrite E; reflexivity.
  - intros eo sk d Et. unfold bool_keys in Hin. cbn [In] in Hin.
    destruct Hin as [E'|[E'|[E'|[]]]]; apply pair_equal_spec in E'; destruct E' as [<- <-]; gtype;
    unfold postproc; cbn [el_type el_attrs live bind non_null]; reflexivity.
Qed.

(** Display order and language. *)
Lemma dec_scan z : (0 <= z <= 2147483647)%Z -> scan_int (dec (Z.to_N z)) = Ok (Some z).
Proof.
  intros H. rewrite (numeral_scan _ z).
  - unfold in_int. destruct (Z.leb_spec (-2147483648) z), (Z.leb_spec z 2147483647); try lia. reflexivity.
  - exists [], [], (dec (Z.to_N z)), []. split; [now rewrite app_nil_r|]. split; [constructor|]. split; [apply dec_nonempty|]. split; [apply dec_digits|].
    split; [discriminate|]. left. split; [now left|]. rewrite value_dec. lia.
Qed.
Lemma order_text w z b : pb b -> free b (S_ "display_order") -> (0 <= z <= 2147483647)%Z ->
  exists b', turns w [prop_tree (S_ "display_order") (dec (Z.to_N z))] b b' /\ put b b' (S_ "display_order") (Some (PNum z)).
Proof.
  intros Hb Hf Hz. destruct (set_num_ok b (S_ "display_order") z Hb ltac:(in_keys)) as (b' & E & Hb' & Hn & Hd & Hl).
  exists b'. split; [|unfold put; auto].
  destruct (no_attrs TDisplayorder) as (dict & Ea & Ec & Eg).
  apply turns_text with (dict := dict) (f := set_order (Some (dec (Z.to_N z)))); auto.
  - apply dec_nonempty.
  - destruct w; vm_compute; tauto.
  - unfold set_order. rewrite base_get_ok, Hf. cbn [bind non_null]. rewrite dec_scan by exact Hz. cbn [bind]. rewrite E. reflexivity.
  - intros eo sk d Et. gtype. unfold postproc. cbn [el_type el_attrs parent_type live bind]. rewrite Et. destruct w; reflexivity.
Qed.
Lemma langonly_text s b : pb b -> free b (S_ "langonly") -> s <> [] ->
  exists b', turns OGroup [prop_tree (S_ "langonly") s] b b' /\ put b b' (S_ "langonly") (Some (PStr (Some s))).
Proof.
  intros Hb Hf Hs. destruct (set_prop_str_ok b (S_ "langonly") s Hb ltac:(in_keys) ltac:(discriminate)) as (b' & E & Hb' & Hn & Hd & Hl).
  exists b'. split; [|unfold put; auto].
  destruct (no_attrs TLangonly) as (dict & Ea & Ec & Eg).
  apply turns_text with (dict := dict) (f := fun b => v <- base_get b (S_ "langonly") ;; b' <- base_set_str b (S_ "langonly") (Some s) ;; Ok (b', check_already v (S_ "langonly"))); auto.
  - vm_compute; tauto.
  - rewrite base_get_ok, Hf. cbn [bind]. match goal with |- bind ?m _ = _ => replace m with (Ok b') by (symmetry; exact E) end. reflexivity.
Qed.

(** ** Rows *)
Definition line (v : option pval) : Prop := exists s, v = Some (PStr (Some s)) /\ blank_free s.
Definition order_normal (v : option pval) : Prop := v = None \/ exists z, v = Some (PNum z) /\ (0 <= z <= 2147483647)%Z.
Definition truth (v : option pval) (dflt : bool) : bool := match v with Some (PNum z) => negb (z =? 0)%Z | _ => dflt end.
Lemma put_none b k : pb b -> free b k -> put b b k None.
Proof.
  intros Hb Hf. split; [exact Hb|]. split; [reflexivity|]. split; [reflexivity|]. intros k'. destruct (streq k' k) eqn:E; [|reflexivity].
  apply streq_iff in E. now subst.
Qed.
Lemma plain_row w n k b0 b : In (n, k) [(S_ "id", S_ "id"); (S_ "name", S_ "name"); (S_ "description", S_ "desc")] ->
  prop b0 k line -> pb b -> free b k ->
  exists ts b', row_trees b0 (RText k n) = Ok ts /\ turns w ts b b' /\ put b b' k (look (troot (b_props b0)) k).
Proof.
  intros Hin Hl Hb Hf. specialize (Hl _ (base_get_ok b0 k)). destruct Hl as (s & Es & Hs).
  destruct (plain_text w n k s b Hin Hb Hf (blank_free_ne _ Hs)) as (b' & T & P). exists [prop_tree n s], b'.
  split; [|split; [exact T|now rewrite Es]]. unfold row_trees. rewrite base_get_ok, Es. reflexivity.
Qed.
Lemma order_row w b0 b : prop b0 (S_ "display_order") order_normal -> pb b -> free b (S_ "display_order") ->
  exists ts b', row_trees b0 (RText (S_ "display_order") (S_ "display_order")) = Ok ts /\ turns w ts b b' /\
    put b b' (S_ "display_order") (look (troot (b_props b0)) (S_ "display_order")).
Proof.
  intros Hl Hb Hf. specialize (Hl _ (base_get_ok b0 _)). unfold row_trees. rewrite base_get_ok. destruct Hl as [E|(z & E & Hz)]; rewrite E; cbn [bind].
  - exists [], b. split; [reflexivity|]. split; [apply turns_nil|now apply put_none].
  - destruct (order_text w z b Hb Hf Hz) as (b' & T & P). exists [prop_tree (S_ "display_order") (dec (Z.to_N z))], b'. split; [|auto].
    cbn [pval_tostr]. rewrite num_tostr_ok by lia. reflexivity.
Qed.
Lemma langonly_row b0 b : prop b0 (S_ "langonly") (fun v => v = None \/ line v) -> pb b -> free b (S_ "langonly") ->
  exists ts b', row_trees b0 (RText (S_ "langonly") (S_ "langonly")) = Ok ts /\ turns OGroup ts b b' /\
    put b b' (S_ "langonly") (look (troot (b_props b0)) (S_ "langonly")).
Proof.
  intros Hl Hb Hf. specialize (Hl _ (base_get_ok b0 _)). unfold row_trees. rewrite base_get_ok. destruct Hl as [E|(s & E & Hs)]; rewrite E; cbn [bind].
  - exists [], b. split; [reflexivity|]. split; [apply turns_nil|now apply put_none].
  - destruct (langonly_text s b Hb Hf (blank_free_ne _ Hs)) as (b' & T & P). exists [prop_tree (S_ "langonly") s], b'. auto.
Qed.
(** A boolean is written, with its value, or left out, when it has its default. *)
Lemma bool_row_back n k ex df b0 b : In (n, k) bool_keys -> prop b0 k number -> pb b -> free b k ->
  exists ts b' v, row_trees b0 (RBool k n ex df) = Ok ts /\ turns OGroup ts b b' /\ put b b' k v /\
    let c := truth (look (troot (b_props b0)) k) df in (v = Some (PNum (if c then 1 else 0)) \/ v = None /\ c = df).
Proof.
  intros Hin Hl Hb Hf. specialize (Hl _ (base_get_ok b0 _)). unfold row_trees. rewrite base_get_ok. destruct Hl as [E|(z & E)]; rewrite E; cbn [bind num2bool truth].
  - destruct ex.
    + destruct (bool_text n k df b Hin Hb) as (b' & T & P). exists [prop_tree n (bool_str df)], b', (Some (PNum (if df then 1 else 0))). auto.
    + exists [], b, None. split; [reflexivity|]. split; [apply turns_nil|]. split; [now apply put_none|auto].
  - destruct (ex || negb (Bool.eqb (negb (z =? 0)%Z) df)) eqn:Ex.
    + destruct (bool_text n k (negb (z =? 0)%Z) b Hin Hb) as (b' & T & P). eexists _, b', _. split; [reflexivity|]. split; [exact T|]. split; [exact P|now left].
    + exists [], b, None. split; [reflexivity|]. split; [apply turns_nil|]. split; [now apply put_none|]. right. split; [reflexivity|].
      apply orb_false_iff in Ex. destruct Ex as [_ Ex]. apply negb_false_iff, Bool.eqb_prop in Ex. exact Ex.
Qed.
Definition texts (t : rtree ostr) : Prop := forall k v, rt_get t k = Ok (Some v) -> exists s, v = Some s /\ blank_free s.
Lemma names_row_back w b0 b : reach ostr_copy (b_names b0) -> texts (b_names b0) -> pb b -> b_names b = rt_create ->
  exists ts b', row_trees b0 RNames = Ok ts /\ turns w ts b b' /\ pb b' /\ b_props b' = b_props b /\ b_descs b' = b_descs b /\
    forall k, rt_get (b_names b') k = rt_get (b_names b0) k.
Proof.
  intros Hr Ht Hb En. destruct (entries_again (b_names b0) (reach_wft _ _ Hr)) as (l & t & El & Hin & Es & Hg).
  unfold row_trees. rewrite El. cbn [bind].
  destruct (names_texts w l b Hb) as (b' & T & Hb' & Hp & Hd & Hn).
  - apply Forall_forall. intros [k v] H. apply Hin in H. destruct (Ht k v H) as (s & -> & Hs). exists s. auto.
  - exists (map (lang_tree (S_ "name")) l), b'. split; [reflexivity|]. split; [exact T|]. split; [exact Hb'|]. split; [exact Hp|]. split; [exact Hd|].
    rewrite En, Es in Hn. injection Hn as <-. exact Hg.
Qed.
Lemma descs_row_back w b0 b : reach ostr_copy (b_descs b0) -> texts (b_descs b0) -> pb b -> b_descs b = rt_create ->
  exists ts b', row_trees b0 RDescs = Ok ts /\ turns w ts b b' /\ pb b' /\ b_props b' = b_props b /\ b_names b' = b_names b /\
    forall k, rt_get (b_descs b') k = rt_get (b_descs b0) k.
Proof.
  intros Hr Ht Hb En. destruct (entries_again (b_descs b0) (reach_wft _ _ Hr)) as (l & t & El & Hin & Es & Hg).
  unfold row_trees. rewrite El. cbn [bind].
  destruct (descs_texts w l b Hb) as (b' & T & Hb' & Hp & Hd & Hn).
  - apply Forall_forall. intros [k v] H. apply Hin in H. destruct (Ht k v H) as (s & -> & Hs). exists s. auto.
  - exists (map (lang_tree (S_ "description")) l), b'. split; [reflexivity|]. split; [exact T|]. split; [exact Hb'|]. split; [exact Hp|]. split; [exact Hd|].
    rewrite En, Es in Hn. injection Hn as <-. exact Hg.
Qed.

(** ** All rows of an object *)
Definition rows_read (w : owner) (b0 : base) (rows : list row) (b b' : base) : Prop :=
  exists ts, rows_trees b0 rows = Ok ts /\ turns w ts b b'.
Lemma rows_read_nil w b0 b : rows_read w b0 [] b b.
Proof. exists []. split; [reflexivity|apply turns_nil]. Qed.
Lemma rows_read_cons w b0 r rows a b c ts : row_trees b0 r = Ok ts -> turns w ts a b -> rows_read w b0 rows b c -> rows_read w b0 (r :: rows) a c.
Proof.
  intros E T (ts2 & E2 & T2). exists (ts ++ ts2). cbn [rows_trees]. rewrite E. cbn [bind]. rewrite E2. split; [reflexivity|]. eapply turns_app; eassumption.
Qed.
Definition same_prop (b b' : base) (k : string) : Prop := look (troot (b_props b')) (S_ k) = look (troot (b_props b)) (S_ k).
(** What survives in every object. *)
Definition base_kept (b0 b : base) : Prop :=
  pb b /\ same_prop b0 b "id" /\ same_prop b0 b "name" /\ same_prop b0 b "desc" /\ same_prop b0 b "display_order" /\
  (forall k, rt_get (b_names b) k = rt_get (b_names b0) k) /\ (forall k, rt_get (b_descs b) k = rt_get (b_descs b0) k).
Definition texts_normal (b0 : base) : Prop :=
  breach b0 /\ prop b0 (S_ "id") line /\ prop b0 (S_ "name") line /\ prop b0 (S_ "desc") line /\ prop b0 (S_ "display_order") order_normal /\
  texts (b_names b0) /\ texts (b_descs b0).
Definition blank_base (b : base) : Prop :=
  pb b /\ b_names b = rt_create /\ b_descs b = rt_create /\ forall k, k <> S_ "arches" -> free b k.

Ltac streq_tac := repeat match goal with |- context [streq ?a ?b] => let v := eval vm_compute in (streq a b) in change (streq a b) with v; cbn iota end.
Ltac free_tac :=
  unfold free in *;
  repeat (match goal with
  | P : put _ ?b _ _ |- look (troot (b_props ?b)) _ = _ => rewrite (proj2 (proj2 (proj2 P)))
  | P : b_props ?b = _ |- look (troot (b_props ?b)) _ = _ => rewrite P
  | P : put _ ?b _ _ |- look (troot (b_props ?b)) _ = _ \/ _ => rewrite (proj2 (proj2 (proj2 P)))
  | P : b_props ?b = _ |- look (troot (b_props ?b)) _ = _ \/ _ => rewrite P
  end; streq_tac).
Ltac prop_tac := unfold same_prop; free_tac.

Lemma common_read w b0 b : texts_normal b0 -> blank_base b ->
  exists b', rows_read w b0 common_rows b b' /\ base_kept b0 b' /\ same_prop b b' "arches" /\
    forall k, ~ In k [S_ "id"; S_ "name"; S_ "desc"; S_ "display_order"] -> look (troot (b_props b')) k = look (troot (b_props b)) k.
Proof.
  intros (Hbr & H1 & H2 & H3 & H4 & H5 & H6) (Hb & En & Ed & Hf).
  destruct (plain_row w (S_ "id") (S_ "id") b0 b ltac:(cbn [In]; tauto) H1 Hb) as (t1 & b1 & R1 & T1 & P1); [apply Hf; discriminate|].
  destruct (plain_row w (S_ "name") (S_ "name") b0 b1 ltac:(cbn [In]; tauto) H2 (proj1 P1)) as (t2 & b2 & R2 & T2 & P2).
  { free_tac. apply Hf; discriminate. }
  destruct (names_row_back w b0 b2 (proj1 (proj2 Hbr)) H5 (proj1 P2)) as (t3 & b3 & R3 & T3 & Hb3 & P3 & D3 & N3).
  { destruct P1 as (_ & ? & _), P2 as (_ & ? & _). congruence. }
  destruct (plain_row w (S_ "description") (S_ "desc") b0 b3 ltac:(cbn [In]; tauto) H3 Hb3) as (t4 & b4 & R4 & T4 & P4).
  { free_tac. apply Hf; discriminate. }
  destruct (descs_row_back w b0 b4 (proj2 (proj2 Hbr)) H6 (proj1 P4)) as (t5 & b5 & R5 & T5 & Hb5 & P5 & D5 & N5).
  { destruct P1 as (_ & ? & ? & _), P2 as (_ & ? & ? & _), P4 as (_ & ? & ? & _). congruence. }
  destruct (order_row w b0 b5 H4 Hb5) as (t6 & b6 & R6 & T6 & P6).
  { free_tac. apply Hf; discriminate. }
  exists b6. split.
  { repeat (eapply rows_read_cons; [eassumption|eassumption|]). apply rows_read_nil. }
  split; [|split; [prop_tac; reflexivity|]].
  2:{ intros k Hk. cbn [In] in Hk.
      assert (K : forall k', k <> k' -> streq k k' = false) by (intros k' Hn; destruct (streq k k') eqn:Es; [apply streq_iff in Es; contradiction|reflexivity]).
      rewrite (proj2 (proj2 (proj2 P6))), K by intuition congruence. rewrite P5, (proj2 (proj2 (proj2 P4))), K by intuition congruence.
      rewrite P3, (proj2 (proj2 (proj2 P2))), K by intuition congruence. rewrite (proj2 (proj2 (proj2 P1))), K by intuition congruence. reflexivity. }
  split; [apply P6|]. repeat (split; [prop_tac; reflexivity|]). split; intros k.
  - rewrite <- N3. destruct P4 as (_ & ? & _), P6 as (_ & ? & _). congruence.
  - rewrite <- N5. destruct P6 as (_ & _ & ? & _). congruence.
Qed.
(** A group: besides, the language and the three booleans. *)
Definition group_texts_normal (b0 : base) : Prop :=
  texts_normal b0 /\ prop b0 (S_ "langonly") (fun v => v = None \/ line v) /\
  prop b0 (S_ "def") number /\ prop b0 (S_ "uservisible") number /\ prop b0 (S_ "biarchonly") number.
Definition bool_pending (b0 b : base) (k : string) (df : bool) : Prop :=
  let c := truth (look (troot (b_props b0)) (S_ k)) df in
  look (troot (b_props b)) (S_ k) = Some (PNum (if c then 1 else 0)) \/ look (troot (b_props b)) (S_ k) = None /\ c = df.
Lemma group_read o b0 b : group_texts_normal b0 -> blank_base b ->
  exists b', rows_read OGroup b0 (group_rows o op) b b' /\ base_kept b0 b' /\ same_prop b0 b' "langonly" /\ same_prop b b' "arches" /\
    bool_pending b0 b' "def" (o_default op) /\ bool_pending b0 b' "uservisible" (o_uservisible op) /\ bool_pending b0 b' "biarchonly" (o_biarchonly op).
Proof.
  intros ((Hbr & H1 & H2 & H3 & H4 & H5 & H6) & H7 & H8 & H9 & H10) (Hb & En & Ed & Hf).
  destruct (plain_row OGroup (S_ "id") (S_ "id") b0 b ltac:(cbn [In]; tauto) H1 Hb) as (t1 & b1 & R1 & T1 & P1); [apply Hf; discriminate|].
  destruct (plain_row OGroup (S_ "name") (S_ "name") b0 b1 ltac:(cbn [In]; tauto) H2 (proj1 P1)) as (t2 & b2 & R2 & T2 & P2).
  { free_tac. apply Hf; discriminate. }
  destruct (names_row_back OGroup b0 b2 (proj1 (proj2 Hbr)) H5 (proj1 P2)) as (t3 & b3 & R3 & T3 & Hb3 & P3 & D3 & N3).
  { destruct P1 as (_ & ? & _), P2 as (_ & ? & _). congruence. }
  destruct (plain_row OGroup (S_ "description") (S_ "desc") b0 b3 ltac:(cbn [In]; tauto) H3 Hb3) as (t4 & b4 & R4 & T4 & P4).
  { free_tac. apply Hf; discriminate. }
  destruct (descs_row_back OGroup b0 b4 (proj2 (proj2 Hbr)) H6 (proj1 P4)) as (t5 & b5 & R5 & T5 & Hb5 & P5 & D5 & N5).
  { destruct P1 as (_ & ? & ? & _), P2 as (_ & ? & ? & _), P4 as (_ & ? & ? & _). congruence. }
  destruct (bool_row_back (S_ "default") (S_ "def") (x_default o) (o_default op) b0 b5 ltac:(unfold bool_keys; cbn [In]; tauto) H8 Hb5) as (t6 & b6 & v6 & R6 & T6 & P6 & V6).
  { free_tac. apply Hf; discriminate. }
  destruct (bool_row_back (S_ "uservisible") (S_ "uservisible") (x_uservisible o) (o_uservisible op) b0 b6 ltac:(unfold bool_keys; cbn [In]; tauto) H9 (proj1 P6)) as (t7 & b7 & v7 & R7 & T7 & P7 & V7).
  { free_tac. apply Hf; discriminate. }
  destruct (bool_row_back (S_ "biarchonly") (S_ "biarchonly") (x_biarchonly o) (o_biarchonly op) b0 b7 ltac:(unfold bool_keys; cbn [In]; tauto) H10 (proj1 P7)) as (t8 & b8 & v8 & R8 & T8 & P8 & V8).
  { free_tac. apply Hf; discriminate. }
  destruct (order_row OGroup b0 b8 H4 (proj1 P8)) as (t9 & b9 & R9 & T9 & P9).
  { free_tac. apply Hf; discriminate. }
  destruct (langonly_row b0 b9 H7 (proj1 P9)) as (t10 & b10 & R10 & T10 & P10).
  { free_tac. apply Hf; discriminate. }
  exists b10. split.
  { repeat (eapply rows_read_cons; [eassumption|eassumption|]). apply rows_read_nil. }
  split.
  { split; [apply P10|]. repeat (split; [prop_tac; reflexivity|]). split; intros k.
    - rewrite <- N3. destruct P4 as (_ & ? & _), P6 as (_ & ? & _), P7 as (_ & ? & _), P8 as (_ & ? & _), P9 as (_ & ? & _), P10 as (_ & ? & _). congruence.
    - rewrite <- N5. destruct P6 as (_ & _ & ? & _), P7 as (_ & _ & ? & _), P8 as (_ & _ & ? & _), P9 as (_ & _ & ? & _), P10 as (_ & _ & ? & _). congruence. }
  split; [prop_tac; reflexivity|]. split; [prop_tac; reflexivity|].
  unfold bool_pending. split; [|split]; prop_tac; cbn zeta.
  - destruct V6 as [->|[-> V6]]; auto.
  - destruct V7 as [->|[-> V7]]; auto.
  - destruct V8 as [->|[-> V8]]; auto.
Qed.
End Rows.
