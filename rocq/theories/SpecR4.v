(** Reading back whatever was written: whole objects. *)
From Coq Require Import NArith Nnat Sorted.
From Verif Require Import CStr CStrFacts HSListModel HSListFacts RTreeModel RTreeFacts RTreeFacts2 RTreeFacts3 RTreeFacts4 MRTreeModel MRTreeFacts MRTreeFacts2
  ObjModel ObjFacts2 Dec StrModel StrFacts DocModel DocFacts2 SpecA SpecB SpecD SpecE ParseModel ParseFacts SpecF SpecF2 SpecF3 SpecF4 XmlModel XmlFacts SpecG SpecG2 SpecG3 SpecG4 SpecG5
  SpecG7 TextFacts5 SpecR SpecR2 SpecR3.

Section Objects.
Context {RD : reader}.
Variables (dt : option (ostr * ostr * ostr)) (en : ostr) (op : dopts).
Notation plays2 := (plays2 dt en op).
Notation turns2 := (turns2 dt en op).

Lemma map_r_cons {A B} (f : A -> res B) x l ts : map_r f (x :: l) = Ok ts -> exists t us, f x = Ok t /\ map_r f l = Ok us /\ ts = t :: us.
Proof. cbn [map_r]. destruct (f x) as [t| |]; cbn [bind]; try discriminate. destruct (map_r f l) as [us| |]; cbn [bind]; try discriminate. intros E. apply Ok_inj in E. eauto. Qed.
Lemma play_pkgs_any o ps : forall ts ts' P l b pk el sk nm cs d, map_r (pkg_tree o) ps = Ok ts -> Forall2 thin ts ts' -> el_type el = TPackagelist -> el_valid el = true -> pdoc d ->
  doc_parts d = with_groups P (l ++ [mkG b pk]) ->
  exists d' ps' es, plays2 (el :: sk) (PLive d) nm (sers ts' ++ cs) (el :: sk) (PLive d') nm cs es /\
    pdoc d' /\ same_head d d' /\ doc_parts d' = with_groups P (l ++ [mkG b (pk ++ ps')]) /\ Forall2 (pkg_after o) ps ps' /\ (es = [] <-> Forall (fun p => p_name p <> None) ps').
Proof.
  induction ps as [|p ps IH]; intros ts ts' P l b pk el sk nm cs d Em Ht Et Ev Hd E.
  - apply Ok_inj in Em. subst ts. apply thin_none in Ht. subst ts'. exists d, [], []. split; [apply plays2_refl|]. split; [exact Hd|]. split; [apply same_head_refl|]. rewrite app_nil_r. split; [exact E|].
    split; [constructor|]. split; [constructor|reflexivity].
  - apply map_r_cons in Em. destruct Em as (t & us & E1 & E2 & ->). inversion Ht as [|? t' ? us' Ht1 Ht2]; subst.
    destruct (play_pkg_any dt en op o p t t' P l b pk el sk nm (sers us' ++ cs) d E1 Ht1 Et Ev Hd E) as (d1 & p' & e1 & Q1 & Hd1 & Hh1 & P1 & A1 & F1).
    destruct (IH us us' P l b (pk ++ [p']) el sk nm cs d1 E2 Ht2 Et Ev Hd1 P1) as (d2 & ps' & e2 & Q2 & Hd2 & Hh2 & P2 & A2 & F2).
    exists d2, (p' :: ps'), (e1 ++ e2). split.
    { unfold sers. cbn [flat_map]. rewrite <- app_assoc. eapply plays2_trans; [exact Q1|exact Q2]. }
    split; [exact Hd2|]. split; [now apply same_head_trans with d1|]. rewrite P2, <- app_assoc. split; [reflexivity|]. split; [now constructor|].
    rewrite Forall_cons_iff. now apply app_nil_iff.
Qed.
Lemma play_gid_any o p t t' w P F gs el eo sk nm cs d : gid_tree o p = Ok t -> thin t t' -> gid_home w P F -> el_type el = ltype w -> el_valid el = true -> el_type eo = htype w ->
  pdoc d -> doc_parts d = F gs ->
  exists d' p', plays2 (el :: eo :: sk) (PLive d) nm (ser t' ++ cs) (el :: eo :: sk) (PLive d') nm cs [] /\
    pdoc d' /\ same_head d d' /\ doc_parts d' = F (gs ++ [p']) /\ gid_after o p p'.
Proof.
  intros Etr Ht Hh Et Ev Eo Hd E. destruct (gid_attrs_any o p t Etr) as (a & dict & -> & Ea & Ec & Ek). apply thin_leaf in Ht. destruct Ht as (s' & -> & Hs).
  set (k := gid_shell o p) in *. set (p' := gid_set_name k (text_of s')).
  destruct (upd_gids_ok w P F d gs (gs ++ [k]) tt (fun l => Ok (l ++ [k], tt)) Hh Hd E eq_refl) as (d1 & E1 & Hd1 & Hh1 & P1).
  destruct (upd_gids_ok w P F d1 (gs ++ [k]) (gs ++ [p']) (@nil pentry) (fun l => x <- name_last_gid l (text_of s') ;; Ok (x, [])) Hh Hd1 P1) as (d2 & E2 & Hd2 & Hh2 & P2).
  { unfold name_last_gid. rewrite split_last_app. reflexivity. }
  assert (Hpl : gid_place (el :: eo :: sk) = Ok w).
  { unfold gid_place. cbn [parent_type grand_type bind]. rewrite Et, Eo. destruct w; reflexivity. }
  exists d2, p'. split; [|split; [exact Hd2|split; [now apply same_head_trans with d1|split; [exact P2|]]]].
  - cbn [ser flat_map app]. rewrite <- app_assoc. cbn [app]. change (@nil pentry) with (@nil pentry ++ []). eapply plays2_trans.
    + apply plays2_of, plays_start with (dict := dict) (p1 := PLive d1); [exact I|exact Ea|exact Ec| |].
      * unfold elem_valid. gtype. cbn [ancestors existsb]. rewrite Et, Ev. destruct w; reflexivity.
      * gtype. unfold preproc. cbn [el_type el_attrs live bind]. rewrite Ek. cbn [bind]. rewrite Hpl. cbn [bind].
        destruct w; cbn [upd_gids] in E1; match goal with |- bind ?m _ = _ => assert (Em : m = Ok (d1, tt)) by
          (etransitivity; [|exact E1]; (apply upd_last_env_ext || apply upd_last_cat_ext); reflexivity) end; rewrite Em; reflexivity.
    + apply plays2_text_end; [reflexivity|reflexivity|]. gtype. unfold postproc. cbn [el_type live bind]. rewrite Hpl. cbn [bind].
      destruct w; cbn [upd_gids] in E2; match goal with |- bind ?m _ = _ => assert (Em : m = Ok (d2, [])) by
          (etransitivity; [|exact E2]; (apply upd_last_env_ext || apply upd_last_cat_ext); intros x; rewrite bind_assoc; reflexivity) end; rewrite Em; reflexivity.
  - split; [now apply seen_name|]. split; reflexivity.
Qed.
Lemma play_gids_any o ps w P F : gid_home w P F -> forall ts ts' gs el eo sk nm cs d, map_r (gid_tree o) ps = Ok ts -> Forall2 thin ts ts' ->
  el_type el = ltype w -> el_valid el = true -> el_type eo = htype w -> pdoc d -> doc_parts d = F gs ->
  exists d' ps', plays2 (el :: eo :: sk) (PLive d) nm (sers ts' ++ cs) (el :: eo :: sk) (PLive d') nm cs [] /\
    pdoc d' /\ same_head d d' /\ doc_parts d' = F (gs ++ ps') /\ Forall2 (gid_after o) ps ps'.
Proof.
  intros Hh. induction ps as [|p ps IH]; intros ts ts' gs el eo sk nm cs d Em Ht Et Ev Eo Hd E.
  - apply Ok_inj in Em. subst ts. apply thin_none in Ht. subst ts'. exists d, []. split; [apply plays2_refl|]. split; [exact Hd|]. split; [apply same_head_refl|]. rewrite app_nil_r. split; [exact E|constructor].
  - apply map_r_cons in Em. destruct Em as (t & us & E1 & E2 & ->). inversion Ht as [|? t' ? us' Ht1 Ht2]; subst.
    destruct (play_gid_any o p t t' w P F gs el eo sk nm (sers us' ++ cs) d E1 Ht1 Hh Et Ev Eo Hd E) as (d1 & p' & Q1 & Hd1 & Hh1 & P1 & A1).
    destruct (IH us us' (gs ++ [p']) el eo sk nm cs d1 E2 Ht2 Et Ev Eo Hd1 P1) as (d2 & ps' & Q2 & Hd2 & Hh2 & P2 & A2).
    exists d2, (p' :: ps'). split.
    { unfold sers. cbn [flat_map]. rewrite <- app_assoc. change (@nil pentry) with (@nil pentry ++ []). eapply plays2_trans; [exact Q1|exact Q2]. }
    split; [exact Hd2|]. split; [now apply same_head_trans with d1|]. rewrite P2, <- app_assoc. split; [reflexivity|now constructor].
Qed.

(** ** The list of members *)
Lemma thin_list n ts us : Forall2 thin [Elem n [] ts] us -> exists ts', us = [Elem n [] ts'] /\ Forall2 thin ts ts'.
Proof. intros H. inversion H as [|? t ? r Ht Hr]; subst. inversion Hr; subst. apply thin_elem in Ht. destruct Ht as (b' & -> & Hb). eauto. Qed.
Lemma members_inv {A} tag al (f : A -> res xml) ps ts : members_trees tag al f ps = Ok ts -> ps = [] /\ al = false /\ ts = [] \/ exists us, map_r f ps = Ok us /\ ts = [Elem tag [] us] /\ (ps <> [] \/ al = true).
Proof.
  unfold members_trees. destruct ps as [|p ps]; [destruct al|].
  - destruct (map_r f []) as [us| |]; cbn [bind]; try discriminate. intros E. apply Ok_inj in E. right. eauto.
  - intros E. apply Ok_inj in E. left. auto.
  - destruct (map_r f (p :: ps)) as [us| |]; cbn [bind]; try discriminate. intros E. apply Ok_inj in E. right. exists us. split; [reflexivity|]. split; [congruence|]. left. discriminate.
Qed.
Definition list_full {A} (al : bool) (ps : list A) : Prop := ps <> [] \/ al = false.
Lemma play_pkglist_any o al ps ts ts' P l b eo sk nm cs d : members_trees (S_ "packagelist") al (pkg_tree o) ps = Ok ts -> Forall2 thin ts ts' -> el_type eo = TGroup -> el_valid eo = true -> pdoc d ->
  doc_parts d = with_groups P (l ++ [mkG b []]) ->
  exists d' ps' es, plays2 (eo :: sk) (PLive d) nm (sers ts' ++ cs) (eo :: sk) (PLive d') nm cs es /\
    pdoc d' /\ same_head d d' /\ doc_parts d' = with_groups P (l ++ [mkG b ps']) /\ Forall2 (pkg_after o) ps ps' /\
    (es = [] <-> Forall (fun p => p_name p <> None) ps' /\ list_full al ps).
Proof.
  intros Em Ht Et Ev Hd E. apply members_inv in Em. destruct Em as [(-> & -> & ->)|(us & Em & -> & Hne)].
  { apply thin_none in Ht. subst ts'. exists d, [], []. split; [apply plays2_refl|]. split; [exact Hd|]. split; [apply same_head_refl|]. split; [exact E|]. split; [constructor|]. split; [split; [constructor|now right]|reflexivity]. }
  apply thin_list in Ht. destruct Ht as (us' & -> & Ht). destruct (no_attrs TPackagelist) as (dict & Ea & Ec & _). set (el := mkElem TPackagelist true dict).
  destruct (play_pkgs_any o ps us us' P l b [] el (eo :: sk) (S_ "packagelist" :: nm) (WEnd :: cs) d Em Ht eq_refl eq_refl Hd E) as (d1 & ps' & e1 & Q1 & Hd1 & Hh1 & P1 & A1 & F1).
  cbn [app] in P1. pose proof (base_of_group _ _ _ _ _ Hd E) as Hb.
  set (e2 := match ps' with [] => [perr E_LIST_EMPTY [Some (info_name TPackagelist)]] | _ => [] end).
  destruct (upd_last_group_ok d1 l (mkG b ps') (mkG b ps') e2
     (fun g => Ok (g, match g_pkgs g with [] => [perr E_LIST_EMPTY [Some (info_name TPackagelist)]] | _ => [] end)) Hd1) as (d2 & E2 & Hd2 & Hh2 & P2);
    [now rewrite P1|reflexivity|exact Hb|].
  exists d2, ps', (e1 ++ e2). split; [|split; [exact Hd2|split; [now apply same_head_trans with d1|split; [rewrite P2, P1; reflexivity|split; [exact A1|]]]]].
  - unfold sers at 1. cbn [flat_map]. rewrite app_nil_r, ser_elem. cbn [map app]. change (e1 ++ e2) with ([] ++ e1 ++ e2). eapply plays2_trans; [|eapply plays2_trans; [exact Q1|]].
    + apply plays2_of, plays_start with (a := []) (dict := dict) (p1 := PLive d); [apply no_attr_sers|exact Ea|exact Ec| |reflexivity].
      unfold elem_valid. gtype. cbn [ancestors existsb]. now rewrite Et, Ev.
    + apply plays2_end; [reflexivity|reflexivity|]. unfold postproc. cbn [el el_type live bind]. rewrite E2. reflexivity.
  - apply app_nil_iff; [exact F1|]. unfold e2, list_full. destruct A1 as [|p p' ps ps' _ _].
    + split; [discriminate|]. intros [H|H]; [congruence|]. destruct Hne; congruence.
    + split; [intros _; left; discriminate|reflexivity].
Qed.
Lemma play_gidlist_any o al ps ts ts' w P F eo sk nm cs d : gid_home w P F -> members_trees (ltag w) al (gid_tree o) ps = Ok ts -> Forall2 thin ts ts' -> el_type eo = htype w -> el_valid eo = true ->
  pdoc d -> doc_parts d = F [] ->
  exists d' ps' es, plays2 (eo :: sk) (PLive d) nm (sers ts' ++ cs) (eo :: sk) (PLive d') nm cs es /\
    pdoc d' /\ same_head d d' /\ doc_parts d' = F ps' /\ Forall2 (gid_after o) ps ps' /\ (es = [] <-> w = GOption \/ list_full al ps).
Proof.
  intros Hh Em Ht Et Ev Hd E. apply members_inv in Em. destruct Em as [(-> & -> & ->)|(us & Em & -> & Hne)].
  { apply thin_none in Ht. subst ts'. exists d, [], []. split; [apply plays2_refl|]. split; [exact Hd|]. split; [apply same_head_refl|]. split; [exact E|]. split; [constructor|]. split; [right; now right|reflexivity]. }
  apply thin_list in Ht. destruct Ht as (us' & -> & Ht). destruct (no_attrs (ltype w)) as (dict & Ea & Ec & _). set (el := mkElem (ltype w) true dict).
  destruct (play_gids_any o ps w P F Hh us us' [] el eo sk (ltag w :: nm) (WEnd :: cs) d Em Ht eq_refl eq_refl Et Hd E) as (d1 & ps' & Q1 & Hd1 & Hh1 & P1 & A1).
  cbn [app] in P1.
  set (e2 := match w, ps' with GOption, _ => [] | _, [] => [perr E_LIST_EMPTY [Some (info_name TGrouplist)]] | _, _ => [] end).
  assert (Hend : exists d2, postproc op el (eo :: sk) (PLive d1) None = Ok (PLive d2, e2, None) /\ pdoc d2 /\ same_head d1 d2 /\ doc_parts d2 = F ps').
  { destruct w; unfold postproc; cbn [el el_type ltype parent_type live bind].
    - exists d1. split; [reflexivity|]. split; [exact Hd1|]. split; [apply same_head_refl|exact P1].
    - rewrite Et. cbn [htype etype_eqb]. destruct Hh as (l & b & os & Hb & HF).
      destruct (upd_last_env_ok d1 l (mkE b ps' os) (mkE b ps' os) e2
        (fun e => Ok (e, match e_groups e with [] => [perr E_LIST_EMPTY [Some (info_name TGrouplist)]] | _ => [] end)) Hd1) as (d2 & E2 & Hd2 & Hh2 & P2);
        [now rewrite P1, HF|reflexivity|exact Hb|].
      exists d2. rewrite E2. split; [reflexivity|]. split; [exact Hd2|]. split; [exact Hh2|]. rewrite P2, P1, HF. reflexivity.
    - rewrite Et. cbn [htype etype_eqb]. destruct Hh as (l & b & Hb & HF).
      destruct (upd_last_cat_ok d1 l (mkC b ps') (mkC b ps') e2
        (fun e => Ok (e, match c_gids e with [] => [perr E_LIST_EMPTY [Some (info_name TGrouplist)]] | _ => [] end)) Hd1) as (d2 & E2 & Hd2 & Hh2 & P2);
        [now rewrite P1, HF|reflexivity|exact Hb|].
      exists d2. rewrite E2. split; [reflexivity|]. split; [exact Hd2|]. split; [exact Hh2|]. rewrite P2, P1, HF. reflexivity. }
  destruct Hend as (d2 & E2 & Hd2 & Hh2 & P2).
  assert (Ety : get_type (ltag w) = ltype w) by (destruct w; reflexivity).
  exists d2, ps', e2. split; [|split; [exact Hd2|split; [now apply same_head_trans with d1|split; [exact P2|split; [exact A1|]]]]].
  - unfold sers at 1. cbn [flat_map]. rewrite app_nil_r, ser_elem. cbn [map app]. change e2 with ([] ++ [] ++ e2). eapply plays2_trans; [|eapply plays2_trans; [exact Q1|]].
    + unfold el. rewrite <- Ety. apply plays2_of, plays_start with (a := []) (dict := dict) (p1 := PLive d); rewrite ?Ety; [apply no_attr_sers|exact Ea|exact Ec| |destruct w; reflexivity].
      unfold elem_valid. destruct w; cbn [ltype ancestors existsb]; rewrite Et, Ev; reflexivity.
    + apply plays2_end; [exact Ety|reflexivity|exact E2].
  - unfold e2, list_full. destruct A1 as [|p p' ps ps' _ _]; destruct w; (split; [intros H; try discriminate H; try (now left); right; left; discriminate|intros H; try reflexivity]);
      destruct H as [H|[H|H]]; try congruence; destruct Hne; congruence.
Qed.

(** ** The start of an object *)
Definition arch_after (o : xopts) (b0 b : base) : Prop :=
  look (troot (b_props b)) (S_ "arches") =
  match look (troot (b_props b0)) (S_ "arches") with Some (PList l) => option_map PList (arches_after o (Some l)) | _ => None end.
Lemma obj_start_any w o b0 a : (if x_arch o then l <- base_arches b0 ;; arch_attr o l else Ok []) = Ok a ->
  exists dict b, attrs_dict rt_create a = Ok dict /\ check_attributes false (otype w) dict = Ok [] /\ base_of_attrs dict = Ok b /\ blank_base b /\ arch_after o b0 b.
Proof.
  intros E. unfold arch_after.
  assert (Hnone : exists dict b, attrs_dict rt_create [] = Ok dict /\ check_attributes false (otype w) dict = Ok [] /\ base_of_attrs dict = Ok b /\ blank_base b /\
     look (troot (b_props b)) (S_ "arches") = None).
  { destruct (no_attrs (otype w)) as (dict & E0 & Ec & Eg). exists dict, base_create. split; [exact E0|]. split; [exact Ec|]. unfold base_of_attrs. rewrite Eg. cbn [bind]. split; [reflexivity|].
    split; [|reflexivity]. split; [apply pb_create|]. split; [reflexivity|]. split; [reflexivity|]. intros k _. apply look_empty. }
  destruct Hnone as (dict & b & N1 & N2 & N3 & N4 & N5).
  assert (Hl : forall l, arch_attr o l = Ok a -> look (troot (b_props b0)) (S_ "arches") = option_map PList l ->
     exists dict b, attrs_dict rt_create a = Ok dict /\ check_attributes false (otype w) dict = Ok [] /\ base_of_attrs dict = Ok b /\ blank_base b /\
       look (troot (b_props b)) (S_ "arches") = option_map PList (arches_after o l)).
  { intros l Ea _. apply arches_attr_any in Ea. destruct Ea as [[-> ->]|(z & -> & ->)]; [exists dict, b; auto 10|].
    destruct (attrs_ok (otype w) [(S_ "arch", z)]) as (dict1 & Ed & Eg & Ec);
      [apply nonempty_keys_b; vm_compute; reflexivity|apply no_late_prefix_b; vm_compute; reflexivity|destruct w; cbn [map fst otype]; incl_tac|].
    destruct (set_arches_ok base_create (split_arches z) pb_create) as (b1 & Eb & Hb1 & Hn1 & Hd1 & Hl1).
    exists dict1, b1. split; [exact Ed|]. split; [exact Ec|]. split; [|split].
    + unfold base_of_attrs. rewrite Eg. cbn [bind]. exact Eb.
    + split; [exact Hb1|]. split; [exact Hn1|]. split; [exact Hd1|]. intros k Hk'. unfold free. rewrite Hl1. destruct (streq k (S_ "arches")) eqn:Es; [apply streq_iff in Es; contradiction|].
      apply look_empty.
    + rewrite Hl1, streq_refl. reflexivity. }
  destruct (x_arch o) eqn:Ex.
  - unfold base_arches in E. rewrite base_get_ok in E. cbn [bind] in E. destruct (look (troot (b_props b0)) (S_ "arches")) as [[| |l]|] eqn:Ev; cbn [bind] in E; try discriminate.
    + destruct (Hl (Some l) E eq_refl) as (dict1 & b1 & H1 & H2 & H3 & H4 & H5). exists dict1, b1. auto 10.
    + destruct (Hl None E eq_refl) as (dict1 & b1 & H1 & H2 & H3 & H4 & H5). exists dict1, b1. auto 10.
  - apply Ok_inj in E. subst a. exists dict, b. split; [exact N1|]. split; [exact N2|]. split; [exact N3|]. split; [exact N4|]. rewrite N5.
    destruct (look (troot (b_props b0)) (S_ "arches")) as [[| |l]|]; try reflexivity. unfold arches_after. rewrite Ex. destruct l; reflexivity.
Qed.
Lemma object_inv o tag b rows ms t t' : object_tree o tag b rows ms = Ok t -> thin t t' ->
  exists a x m x' m', (if x_arch o then l <- base_arches b ;; arch_attr o l else Ok []) = Ok a /\ rows_trees b rows = Ok x /\ ms = Ok m /\
    t' = Elem tag a (x' ++ m') /\ Forall2 thin x x' /\ Forall2 thin m m'.
Proof.
  unfold object_tree. destruct (if x_arch o then _ else _) as [a| |]; cbn [bind]; try discriminate. destruct (rows_trees b rows) as [x| |]; cbn [bind]; try discriminate.
  destruct ms as [m| |]; cbn [bind]; try discriminate. intros E. apply Ok_inj in E. subst t. intros H. apply thin_elem in H. destruct H as (b' & -> & H).
  apply Forall2_app_inv_l in H. destruct H as (x' & m' & H1 & H2 & ->). exists a, x, m, x', m'. auto 10.
Qed.
(** The three required texts are there. *)
Definition has_required (b : base) : Prop :=
  look (troot (b_props b)) (S_ "id") <> None /\ look (troot (b_props b)) (S_ "name") <> None /\ look (troot (b_props b)) (S_ "desc") <> None.
Lemma required_any b : exists es, required b = Ok es /\ (es = [] <-> has_required b).
Proof.
  unfold required, check_required, has_required. rewrite !base_get_ok. cbn [bind]. eexists. split; [reflexivity|].
  apply app_nil_iff; [|apply app_nil_iff]; match goal with |- context [look ?a ?b] => destruct (look a b) end; split; intros H; try reflexivity; try discriminate; now elim H.
Qed.
(** All texts of the object were read: the required ones, and all translations. *)
Definition base_full (b0 b : base) : Prop := has_required b /\ dict_full (b_names b0) (b_names b) /\ dict_full (b_descs b0) (b_descs b).
Lemma full_iff b0 b : rows_full b0 b /\ has_required b <-> base_full b0 b.
Proof. unfold rows_full, has_required, base_full, prop_full, has_required. tauto. Qed.

(** ** Groups *)
Definition group_after (o : xopts) (g g' : group) : Prop :=
  base_after (g_base g) (g_base g') /\ prop_after (g_base g) (g_base g') (S_ "langonly") /\ arch_after o (g_base g) (g_base g') /\
  bool_back (g_base g) (g_base g') "def" (o_default op) /\ bool_back (g_base g) (g_base g') "uservisible" (o_uservisible op) /\
  bool_back (g_base g) (g_base g') "biarchonly" (o_biarchonly op) /\ Forall2 (pkg_after o) (g_pkgs g) (g_pkgs g').
Definition group_full (o : xopts) (g g' : group) : Prop :=
  base_full (g_base g) (g_base g') /\ Forall (fun p => p_name p <> None) (g_pkgs g') /\ list_full (x_empty_packages o) (g_pkgs g).
Lemma prop_after_put b0 b b' k j v : put b b' j v -> streq k j = false -> prop_after b0 b k -> prop_after b0 b' k.
Proof. intros U Es. unfold prop_after. rewrite (proj2 (proj2 (proj2 U))), Es. auto. Qed.
Lemma base_after_put b0 b b' j v : put b b' j v -> Forall (fun k => streq k j = false) [S_ "id"; S_ "name"; S_ "desc"; S_ "display_order"] -> base_after b0 b -> base_after b0 b'.
Proof.
  intros U Hk (H0 & H1 & H2 & H3 & H4 & H5 & H6). rewrite !Forall_cons_iff in Hk. destruct Hk as (K1 & K2 & K3 & K4 & _).
  split; [apply U|]. split; [exact (prop_after_put _ _ _ _ _ _ U K1 H1)|]. split; [exact (prop_after_put _ _ _ _ _ _ U K2 H2)|]. split; [exact (prop_after_put _ _ _ _ _ _ U K3 H3)|].
  split; [unfold same_prop; now rewrite (proj2 (proj2 (proj2 U))), K4|]. destruct U as (_ & -> & -> & _). auto.
Qed.
Lemma base_full_put b0 b b' j v : put b b' j v -> Forall (fun k => streq k j = false) [S_ "id"; S_ "name"; S_ "desc"; S_ "display_order"] -> base_full b0 b' <-> base_full b0 b.
Proof.
  intros U Hk. rewrite !Forall_cons_iff in Hk. destruct Hk as (K1 & K2 & K3 & K4 & _). unfold base_full, has_required. destruct U as (_ & -> & -> & U). now rewrite !U, K1, K2, K3.
Qed.
Lemma play_group_any o g t t' ed sk nm cs d : base_fits (g_base g) -> group_tree o op g = Ok (inl t) -> thin t t' -> el_type ed = TDoc -> el_valid ed = true -> pdoc d ->
  exists d' g' es, plays2 (ed :: sk) (PLive d) nm (ser t' ++ cs) (ed :: sk) (PLive d') nm cs es /\
    pdoc d' /\ same_head d d' /\ doc_parts d' = with_groups (doc_parts d) (pt_groups (doc_parts d) ++ [g']) /\ group_after o g g' /\ (es = [] <-> group_full o g g').
Proof.
  intros Hfit Etr Ht Et Ev Hd.
  assert (Etr' : object_tree o (S_ "group") (g_base g) (group_rows o op) (members_trees (S_ "packagelist") (x_empty_packages o) (pkg_tree o) (g_pkgs g)) = Ok t).
  { revert Etr. unfold group_tree, kept, skipped. set (ot := object_tree _ _ _ _ _). clearbody ot.
    destruct (g_pkgs g); [destruct (x_empty_groups o)|]; try (destruct ot; cbn [bind]; try discriminate; intros E; congruence).
    destruct (base_get (g_base g) (S_ "id")); cbn [bind]; discriminate. }
  clear Etr. destruct (object_inv _ _ _ _ _ _ _ Etr' Ht) as (a & x & m & x' & m' & Ea & Ex & Em & -> & Tx & Tm). clear Etr' Ht t.
  destruct (obj_start_any OGroup o (g_base g) a Ea) as (dict & b & Ed & Ec & Eb & Hb & Hab).
  destruct (group_any dt en op o (g_base g) b x x' Hfit Hb Ex Tx) as (b1 & e1 & Tr & Hk1 & Harch & He1 & Hlang & B1 & B2 & B3).
  destruct (add_group_ok d (mkG b []) Hd (proj1 Hb)) as (d1 & E1 & Hd1 & Hh1 & P1).
  set (el := mkElem TGroup true dict).
  set (l := pt_groups (doc_parts d)) in *.
  destruct (Tr (fun b => with_groups (doc_parts d) (l ++ [mkG b []])) el (ed :: sk) (S_ "group" :: nm) (sers m' ++ WEnd :: cs) d1) as (d2 & Q2 & Hd2 & Hh2 & P2);
    [exists (doc_parts d), l, []; reflexivity|reflexivity|reflexivity|exact Hd1|exact P1|].
  destruct (play_pkglist_any o (x_empty_packages o) (g_pkgs g) m m' (doc_parts d) l b1 el (ed :: sk) (S_ "group" :: nm) (WEnd :: cs) d2 Em Tm eq_refl eq_refl Hd2 P2)
    as (d3 & ps' & e2 & Q3 & Hd3 & Hh3 & P3 & A3 & He2).
  pose proof (proj1 Hk1) as Hb1.
  destruct (fill_put (g_base g) b1 "def" (o_default op) Hb1 ltac:(in_keys) B1) as (b2 & F2 & U2).
  destruct (fill_put (g_base g) b2 "uservisible" (o_uservisible op) (proj1 U2) ltac:(in_keys)) as (b3 & F3 & U3).
  { unfold bool_pending in *. free_tac. exact B2. }
  destruct (fill_put (g_base g) b3 "biarchonly" (o_biarchonly op) (proj1 U3) ltac:(in_keys)) as (b4 & F4 & U4).
  { unfold bool_pending in *. free_tac. exact B3. }
  destruct (required_any b1) as (e3 & Er & He3).
  destruct (upd_last_group_ok d3 l (mkG b1 ps') (mkG b4 ps') e3
     (fun g => es <- required (g_base g) ;; b1 <- fill (g_base g) (S_ "def") (o_default op) ;; b2 <- fill b1 (S_ "uservisible") (o_uservisible op) ;;
             b3 <- fill b2 (S_ "biarchonly") (o_biarchonly op) ;; Ok (mkG b3 (g_pkgs g), es)) Hd3) as (d4 & E4 & Hd4 & Hh4 & P4);
    [now rewrite P3| |exact (proj1 U4)|].
  { cbn [g_base g_pkgs]. rewrite Er. cbn [bind]. rewrite F2. cbn [bind]. rewrite F3. cbn [bind]. rewrite F4. reflexivity. }
  assert (Kd : Forall (fun k => streq k (S_ "def") = false) [S_ "id"; S_ "name"; S_ "desc"; S_ "display_order"]) by (repeat constructor).
  assert (Ku : Forall (fun k => streq k (S_ "uservisible") = false) [S_ "id"; S_ "name"; S_ "desc"; S_ "display_order"]) by (repeat constructor).
  assert (Kb : Forall (fun k => streq k (S_ "biarchonly") = false) [S_ "id"; S_ "name"; S_ "desc"; S_ "display_order"]) by (repeat constructor).
  exists d4, (mkG b4 ps'), ([] ++ e1 ++ e2 ++ e3). split; [|split; [exact Hd4|split; [repeat (eapply same_head_trans; [eassumption|]); apply same_head_refl|split; [rewrite P4, P3; reflexivity|split]]]].
  - rewrite ser_elem. unfold sers. rewrite flat_map_app, <- app_assoc. eapply plays2_trans; [|eapply plays2_trans; [exact Q2|eapply plays2_trans; [exact Q3|]]].
    + apply plays2_of, plays_start with (dict := dict) (p1 := PLive d1); [|exact Ed|exact Ec| |].
      * apply no_attr_sers2.
      * unfold elem_valid. gtype. cbn [ancestors existsb]. now rewrite Et, Ev.
      * gtype. unfold preproc. cbn [el_type el_attrs live bind]. rewrite Eb. cbn [bind]. rewrite E1. reflexivity.
    + apply plays2_end; [reflexivity|reflexivity|]. unfold postproc. cbn [el el_type live bind]. rewrite E4. reflexivity.
  - unfold group_after, bool_back, arch_after. cbn [g_base g_pkgs].
    split; [exact (base_after_put _ _ _ _ _ U4 Kb (base_after_put _ _ _ _ _ U3 Ku (base_after_put _ _ _ _ _ U2 Kd Hk1)))|].
    split; [apply (prop_after_put _ _ _ (S_ "langonly") _ _ U4 eq_refl), (prop_after_put _ _ _ (S_ "langonly") _ _ U3 eq_refl), (prop_after_put _ _ _ (S_ "langonly") _ _ U2 eq_refl), Hlang|].
    split; [unfold same_prop, arch_after in *; free_tac; rewrite Harch; exact Hab|]. split; [free_tac; reflexivity|]. split; [free_tac; reflexivity|]. split; [free_tac; reflexivity|exact A3].
  - unfold group_full. cbn [g_base g_pkgs app]. rewrite (base_full_put _ _ _ _ _ U4 Kb), (base_full_put _ _ _ _ _ U3 Ku), (base_full_put _ _ _ _ _ U2 Kd), <- full_iff.
    rewrite (app_nil_iff _ _ _ _ He1 (app_nil_iff _ _ _ _ He2 He3)). tauto.
Qed.

(** ** Categories and environments *)
Definition cat_after (o : xopts) (c c' : category) : Prop :=
  base_after (c_base c) (c_base c') /\ only_common (c_base c') /\ arch_after o (c_base c) (c_base c') /\ Forall2 (gid_after o) (c_gids c) (c_gids c').
Definition cat_full (o : xopts) (c c' : category) : Prop := base_full (c_base c) (c_base c') /\ list_full (x_empty_grouplist o) (c_gids c).
Lemma play_cat_any o c t t' ed sk nm cs d : base_fits (c_base c) -> category_tree o c = Ok (inl t) -> thin t t' -> el_type ed = TDoc -> el_valid ed = true -> pdoc d ->
  exists d' c' es, plays2 (ed :: sk) (PLive d) nm (ser t' ++ cs) (ed :: sk) (PLive d') nm cs es /\
    pdoc d' /\ same_head d d' /\ doc_parts d' = with_cats (doc_parts d) (pt_cats (doc_parts d) ++ [c']) /\ cat_after o c c' /\ (es = [] <-> cat_full o c c').
Proof.
  intros Hfit Etr Ht Et Ev Hd.
  assert (Etr' : object_tree o (S_ "category") (c_base c) common_rows (members_trees (S_ "grouplist") (x_empty_grouplist o) (gid_tree o) (c_gids c)) = Ok t).
  { revert Etr. unfold category_tree, kept, skipped. set (ot := object_tree _ _ _ _ _). clearbody ot.
    destruct (c_gids c); [destruct (x_empty_categories o)|]; try (destruct ot; cbn [bind]; try discriminate; intros E; congruence).
    destruct (base_get (c_base c) (S_ "id")); cbn [bind]; discriminate. }
  clear Etr. destruct (object_inv _ _ _ _ _ _ _ Etr' Ht) as (a & x & m & x' & m' & Ea & Ex & Em & -> & Tx & Tm). clear Etr' Ht t.
  destruct (obj_start_any OCat o (c_base c) a Ea) as (dict & b & Ed & Ec & Eb & Hb & Hab).
  destruct (common_any dt en op OCat (c_base c) b x x' Hfit Hb Ex Tx) as (b1 & e1 & Tr & Hk1 & Harch & He1 & Hoth).
  destruct (add_cat_ok d (mkC b []) Hd (proj1 Hb)) as (d1 & E1 & Hd1 & Hh1 & P1).
  set (el := mkElem TCategory true dict).
  set (l := pt_cats (doc_parts d)) in *.
  destruct (Tr (fun b => with_cats (doc_parts d) (l ++ [mkC b []])) el (ed :: sk) (S_ "category" :: nm) (sers m' ++ WEnd :: cs) d1) as (d2 & Q2 & Hd2 & Hh2 & P2);
    [exists (doc_parts d), l, []; reflexivity|reflexivity|reflexivity|exact Hd1|exact P1|].
  destruct (play_gidlist_any o (x_empty_grouplist o) (c_gids c) m m' GCat (doc_parts d) (fun gs => with_cats (doc_parts d) (l ++ [mkC b1 gs])) el (ed :: sk) (S_ "category" :: nm) (WEnd :: cs) d2)
    as (d3 & ps' & e2 & Q3 & Hd3 & Hh3 & P3 & A3 & He2); [exists l, b1; split; [apply Hk1|reflexivity]|exact Em|exact Tm|reflexivity|reflexivity|exact Hd2|exact P2|].
  destruct (required_any b1) as (e3 & Er & He3).
  destruct (upd_base_ok OCat (fun b => with_cats (doc_parts d) (l ++ [mkC b ps'])) d3 b1 b1 e3
     (fun b => es <- required b ;; Ok (b, es)) Hd3) as (d4 & E4 & Hd4 & Hh4 & P4);
    [exists (doc_parts d), l, ps'; reflexivity|exact P3| |apply Hk1|].
  { rewrite Er. reflexivity. }
  exists d4, (mkC b1 ps'), ([] ++ e1 ++ e2 ++ e3). split; [|split; [exact Hd4|split; [repeat (eapply same_head_trans; [eassumption|]); apply same_head_refl|split; [rewrite P4; reflexivity|split]]]].
  - rewrite ser_elem. unfold sers. rewrite flat_map_app, <- app_assoc. eapply plays2_trans; [|eapply plays2_trans; [exact Q2|eapply plays2_trans; [exact Q3|]]].
    + apply plays2_of, plays_start with (dict := dict) (p1 := PLive d1); [|exact Ed|exact Ec| |].
      * apply no_attr_sers2.
      * unfold elem_valid. gtype. cbn [ancestors existsb]. now rewrite Et, Ev.
      * gtype. unfold preproc. cbn [el_type el_attrs live bind]. rewrite Eb. cbn [bind]. rewrite E1. reflexivity.
    + apply plays2_end; [reflexivity|reflexivity|]. unfold postproc. cbn [el el_type live bind]. rewrite E4. reflexivity.
  - split; [exact Hk1|]. split; [exact (common_only b b1 Hb Hoth)|]. cbn [c_base c_gids]. split; [|exact A3]. unfold arch_after, same_prop in *. now rewrite Harch.
  - unfold cat_full. cbn [c_base c_gids app]. rewrite <- full_iff, (app_nil_iff _ _ _ _ He1 (app_nil_iff _ _ _ _ He2 He3)). assert (GCat <> GOption) by discriminate. tauto.
Qed.
Definition env_after (o : xopts) (e e' : env) : Prop :=
  base_after (e_base e) (e_base e') /\ only_common (e_base e') /\ arch_after o (e_base e) (e_base e') /\ Forall2 (gid_after o) (e_groups e) (e_groups e') /\ Forall2 (gid_after o) (e_options e) (e_options e').
Definition env_full (o : xopts) (e e' : env) : Prop := base_full (e_base e) (e_base e') /\ list_full (x_empty_grouplist o) (e_groups e).
Lemma play_env_any o e t t' ed sk nm cs d : base_fits (e_base e) -> env_tree o e = Ok (inl t) -> thin t t' -> el_type ed = TDoc -> el_valid ed = true -> pdoc d ->
  exists d' e' es, plays2 (ed :: sk) (PLive d) nm (ser t' ++ cs) (ed :: sk) (PLive d') nm cs es /\
    pdoc d' /\ same_head d d' /\ doc_parts d' = with_envs (doc_parts d) (pt_envs (doc_parts d) ++ [e']) /\ env_after o e e' /\ (es = [] <-> env_full o e e').
Proof.
  intros Hfit Etr Ht Et Ev Hd.
  assert (Etr' : object_tree o (S_ "environment") (e_base e) common_rows
      (g <- members_trees (S_ "grouplist") (x_empty_grouplist o) (gid_tree o) (e_groups e) ;;
       p <- members_trees (S_ "optionlist") (x_empty_optionlist o) (gid_tree o) (e_options e) ;; Ok (g ++ p)) = Ok t).
  { revert Etr. unfold env_tree, kept, skipped. set (ot := object_tree _ _ _ _ _). clearbody ot.
    destruct (e_groups e); [destruct (e_options e); [destruct (x_empty_environments o)|]|]; try (destruct ot; cbn [bind]; try discriminate; intros E; congruence).
    destruct (base_get (e_base e) (S_ "id")); cbn [bind]; discriminate. }
  clear Etr. destruct (object_inv _ _ _ _ _ _ _ Etr' Ht) as (a & x & m & x' & m' & Ea & Ex & Em & -> & Tx & Tm). clear Etr' Ht t.
  destruct (members_trees (S_ "grouplist") (x_empty_grouplist o) (gid_tree o) (e_groups e)) as [mg| |] eqn:Eg; cbn [bind] in Em; try discriminate.
  destruct (members_trees (S_ "optionlist") (x_empty_optionlist o) (gid_tree o) (e_options e)) as [mo| |] eqn:Eo; cbn [bind] in Em; try discriminate.
  apply Ok_inj in Em. subst m. apply Forall2_app_inv_l in Tm. destruct Tm as (mg' & mo' & Tg & To & ->).
  destruct (obj_start_any OEnv o (e_base e) a Ea) as (dict & b & Ed & Ec & Eb & Hb & Hab).
  destruct (common_any dt en op OEnv (e_base e) b x x' Hfit Hb Ex Tx) as (b1 & e1 & Tr & Hk1 & Harch & He1 & Hoth).
  destruct (add_env_ok d (mkE b [] []) Hd (proj1 Hb)) as (d1 & E1 & Hd1 & Hh1 & P1).
  set (el := mkElem TEnv true dict).
  set (l := pt_envs (doc_parts d)) in *.
  destruct (Tr (fun b => with_envs (doc_parts d) (l ++ [mkE b [] []])) el (ed :: sk) (S_ "environment" :: nm) (sers mg' ++ sers mo' ++ WEnd :: cs) d1) as (d2 & Q2 & Hd2 & Hh2 & P2);
    [exists (doc_parts d), l, [], []; reflexivity|reflexivity|reflexivity|exact Hd1|exact P1|].
  destruct (play_gidlist_any o (x_empty_grouplist o) (e_groups e) mg mg' GEnv (doc_parts d) (fun gs => with_envs (doc_parts d) (l ++ [mkE b1 gs []])) el (ed :: sk) (S_ "environment" :: nm)
    (sers mo' ++ WEnd :: cs) d2)
    as (d3 & gs' & e2 & Q3 & Hd3 & Hh3 & P3 & A3 & He2); [exists l, b1, []; split; [apply Hk1|reflexivity]|exact Eg|exact Tg|reflexivity|reflexivity|exact Hd2|exact P2|].
  destruct (play_gidlist_any o (x_empty_optionlist o) (e_options e) mo mo' GOption (doc_parts d) (fun os => with_envs (doc_parts d) (l ++ [mkE b1 gs' os])) el (ed :: sk)
    (S_ "environment" :: nm) (WEnd :: cs) d3)
    as (d3' & os' & e2' & Q3' & Hd3' & Hh3' & P3' & A3' & He2'); [exists l, b1, gs'; split; [apply Hk1|reflexivity]|exact Eo|exact To|reflexivity|reflexivity|exact Hd3|exact P3|].
  destruct (required_any b1) as (e3 & Er & He3).
  destruct (upd_base_ok OEnv (fun b => with_envs (doc_parts d) (l ++ [mkE b gs' os'])) d3' b1 b1 e3
     (fun b => es <- required b ;; Ok (b, es)) Hd3') as (d4 & E4 & Hd4 & Hh4 & P4);
    [exists (doc_parts d), l, gs', os'; reflexivity|exact P3'| |apply Hk1|].
  { rewrite Er. reflexivity. }
  exists d4, (mkE b1 gs' os'), ([] ++ e1 ++ e2 ++ e2' ++ e3).
  split; [|split; [exact Hd4|split; [repeat (eapply same_head_trans; [eassumption|]); apply same_head_refl|split; [rewrite P4; reflexivity|split]]]].
  - rewrite ser_elem. unfold sers. rewrite !flat_map_app, <- !app_assoc.
    eapply plays2_trans; [|eapply plays2_trans; [exact Q2|eapply plays2_trans; [exact Q3|eapply plays2_trans; [exact Q3'|]]]].
    + apply plays2_of, plays_start with (dict := dict) (p1 := PLive d1); [|exact Ed|exact Ec| |].
      * apply no_attr_sers3.
      * unfold elem_valid. gtype. cbn [ancestors existsb]. now rewrite Et, Ev.
      * gtype. unfold preproc. cbn [el_type el_attrs live bind]. rewrite Eb. cbn [bind]. rewrite E1. reflexivity.
    + apply plays2_end; [reflexivity|reflexivity|]. unfold postproc. cbn [el el_type live bind]. rewrite E4. reflexivity.
  - split; [exact Hk1|]. split; [exact (common_only b b1 Hb Hoth)|]. cbn [e_base e_groups e_options]. split; [|auto]. unfold arch_after, same_prop in *. now rewrite Harch.
  - unfold env_full. cbn [e_base e_groups app]. rewrite <- full_iff, (app_nil_iff _ _ _ _ He1 (app_nil_iff _ _ _ _ He2 (app_nil_iff _ _ _ _ He2' He3))). assert (GEnv <> GOption) by discriminate. tauto.
Qed.
End Objects.
