(** Reading back what was written: whole objects. *)
From Coq Require Import NArith Nnat.
From Verif Require Import CStr CStrFacts HSListModel HSListFacts RTreeModel RTreeFacts RTreeFacts2 RTreeFacts3 RTreeFacts4 MRTreeModel MRTreeFacts MRTreeFacts2
  ObjModel ObjFacts2 Dec StrModel StrFacts DocModel DocFacts2 SpecA SpecB SpecE ParseModel ParseFacts SpecF SpecF2 SpecF3 XmlModel XmlFacts SpecG SpecG2 SpecG3.

Ltac streq_tac := repeat match goal with |- context [streq ?a ?b] => let v := eval vm_compute in (streq a b) in change (streq a b) with v; cbn iota end.
Ltac free_tac :=
  unfold free in *;
  repeat (match goal with
  | P : put _ ?b _ _ |- look (troot (b_props ?b)) _ = _ => rewrite (proj2 (proj2 (proj2 P)))
  | P : b_props ?b = _ |- look (troot (b_props ?b)) _ = _ => rewrite P
  | P : put _ ?b _ _ |- look (troot (b_props ?b)) _ = _ \/ _ => rewrite (proj2 (proj2 (proj2 P)))
  | P : b_props ?b = _ |- look (troot (b_props ?b)) _ = _ \/ _ => rewrite P
  end; streq_tac).
Ltac prop_tac := unfold same_prop; free_tac.
Section Objects.
Variables (dt : option (ostr * ostr * ostr)) (en : ostr) (op : dopts).
Notation at_ := (at_ dt en op).

(** ** Members *)
Lemma play_pkg o p P l b pk el sk nm cs d : pkg_normal o p -> el_type el = TPackagelist -> el_valid el = true -> pdoc d ->
  doc_parts d = with_groups P (l ++ [mkG b pk]) ->
  exists t d', pkg_tree o p = Ok t /\ plays (at_ (el :: sk) (PLive d)) nm (ser t ++ cs) (at_ (el :: sk) (PLive d')) nm cs /\
    pdoc d' /\ same_head d d' /\ doc_parts d' = with_groups P (l ++ [mkG b (pk ++ [pkg_back o p])]).
Proof.
  intros Hn Et Ev Hd E. destruct (pkg_attrs o op p Hn) as (a & s & dict & Etr & Ename & Hs & Ea & Ec & Ek).
  assert (Hb : pb b).
  { destruct Hd as (_ & Hg & _). rewrite E in Hg. cbn [with_groups pt_groups] in Hg. apply Forall_snoc in Hg. apply Hg. }
  set (k := mkPkg None (p_requires p) (p_bao p) (p_type p) (arches_back o (p_arches p))) in *.
  destruct (upd_last_group_ok d l (mkG b pk) (mkG b (pk ++ [k])) tt (fun g => Ok (group_add_pkg g k, tt)) Hd) as (d1 & E1 & Hd1 & Hh1 & P1);
    [now rewrite E|reflexivity|exact Hb|].
  destruct (upd_last_group_ok d1 l (mkG b (pk ++ [k])) (mkG b (pk ++ [pkg_back o p])) (@nil pentry) (fun g => l <- name_last_pkg (g_pkgs g) s ;; Ok (mkG (g_base g) l, [])) Hd1)
    as (d2 & E2 & Hd2 & Hh2 & P2); [now rewrite P1| |exact Hb|].
  { cbn [g_pkgs g_base]. unfold name_last_pkg. rewrite split_last_app. cbn [bind fst snd]. unfold pkg_set_name, pkg_back, k. cbn. now rewrite Ename. }
  exists (Elem (S_ "packagereq") a [Text s]), d2. split; [exact Etr|]. split.
  - cbn [ser flat_map app]. rewrite <- app_assoc. cbn [app]. eapply plays_trans.
    + apply plays_start with (dict := dict) (p1 := PLive d1); [exact I|exact Ea|exact Ec| |].
      * unfold elem_valid. gtype. cbn [ancestors existsb]. rewrite Et, Ev. reflexivity.
      * gtype. unfold preproc. cbn [el_type el_attrs live bind]. rewrite Ek. cbn [bind]. rewrite E1. reflexivity.
    + apply plays_text_end; [reflexivity|reflexivity|exact Hs|]. gtype. unfold postproc. cbn [el_type live bind]. rewrite E2. reflexivity.
  - split; [exact Hd2|]. split; [now apply same_head_trans with d1|]. rewrite P2, P1, E. reflexivity.
Qed.
Lemma play_pkgs o ps : forall P l b pk el sk nm cs d, Forall (pkg_normal o) ps -> el_type el = TPackagelist -> el_valid el = true -> pdoc d ->
  doc_parts d = with_groups P (l ++ [mkG b pk]) ->
  exists ts d', map_r (pkg_tree o) ps = Ok ts /\ plays (at_ (el :: sk) (PLive d)) nm (sers ts ++ cs) (at_ (el :: sk) (PLive d')) nm cs /\
    pdoc d' /\ same_head d d' /\ doc_parts d' = with_groups P (l ++ [mkG b (pk ++ map (pkg_back o) ps)]).
Proof.
  induction ps as [|p ps IH]; intros P l b pk el sk nm cs d Hp Et Ev Hd E; cbn [map_r map].
  - exists [], d. split; [reflexivity|]. split; [apply plays_refl|]. split; [exact Hd|]. split; [apply same_head_refl|]. now rewrite app_nil_r.
  - inversion Hp as [|? ? Hp1 Hp2]; subst.
    destruct (play_pkg o p P l b pk el sk nm [] d Hp1 Et Ev Hd E) as (t0 & d1 & Et0 & _ & Hd1 & Hh1 & P1).
    destruct (IH P l b (pk ++ [pkg_back o p]) el sk nm cs d1 Hp2 Et Ev Hd1 P1) as (ts & d2 & Ets & Q2 & Hd2 & Hh2 & P2).
    destruct (play_pkg o p P l b pk el sk nm (sers ts ++ cs) d Hp1 Et Ev Hd E) as (t & d1' & Et1 & Q1 & Hd1' & Hh1' & P1').
    destruct (IH P l b (pk ++ [pkg_back o p]) el sk nm cs d1' Hp2 Et Ev Hd1' P1') as (ts' & d2' & Ets' & Q2' & Hd2' & Hh2' & P2').
    assert (ts' = ts) by congruence. subst ts'.
    exists (t :: ts), d2'. rewrite Et1. cbn [bind]. rewrite Ets. split; [reflexivity|]. split.
    + cbn [sers flat_map]. rewrite <- app_assoc. exact (plays_trans _ _ _ _ _ _ _ _ _ Q1 Q2').
    + split; [exact Hd2'|]. split; [now apply same_head_trans with d1'|]. rewrite P2', <- app_assoc. reflexivity.
Qed.

(** Group ids: in a category, among an environment's groups, among its options. *)
Definition gid_home (w : gplace) (P : parts) (F : list gid -> parts) : Prop :=
  match w with
  | GCat => exists l b, pb b /\ forall gs, F gs = with_cats P (l ++ [mkC b gs])
  | GEnv => exists l b os, pb b /\ forall gs, F gs = with_envs P (l ++ [mkE b gs os])
  | GOption => exists l b gs, pb b /\ forall os, F os = with_envs P (l ++ [mkE b gs os])
  end.
Definition ltype (w : gplace) : etype := match w with GOption => TOptlist | _ => TGrouplist end.
Definition htype (w : gplace) : etype := match w with GCat => TCategory | _ => TEnv end.
Definition upd_gids {A} (w : gplace) (d : doc) (f : list gid -> res (list gid * A)) : res (doc * A) :=
  match w with
  | GCat => upd_last_cat d (fun c => r <- f (c_gids c) ;; Ok (mkC (c_base c) (fst r), snd r))
  | GEnv => upd_last_env d (fun e => r <- f (e_groups e) ;; Ok (mkE (e_base e) (fst r) (e_options e), snd r))
  | GOption => upd_last_env d (fun e => r <- f (e_options e) ;; Ok (mkE (e_base e) (e_groups e) (fst r), snd r))
  end.
Lemma upd_gids_ok {A} w P F d gs gs' (a : A) f : gid_home w P F -> pdoc d -> doc_parts d = F gs -> f gs = Ok (gs', a) ->
  exists d', upd_gids w d f = Ok (d', a) /\ pdoc d' /\ same_head d d' /\ doc_parts d' = F gs'.
Proof.
  intros Hh Hd E Ef. destruct w; cbn [gid_home upd_gids] in *.
  - destruct Hh as (l & b & gs0 & Hb & HF).
    destruct (upd_last_env_ok d l (mkE b gs0 gs) (mkE b gs0 gs') a (fun e => r <- f (e_options e) ;; Ok (mkE (e_base e) (e_groups e) (fst r), snd r)) Hd)
      as (d' & E1 & E2 & E3 & E4); [now rewrite E, HF|cbn; now rewrite Ef|exact Hb|].
    exists d'. repeat (split; [assumption|]). now rewrite E4, E, !HF.
  - destruct Hh as (l & b & gs0 & Hb & HF).
    destruct (upd_last_env_ok d l (mkE b gs gs0) (mkE b gs' gs0) a (fun e => r <- f (e_groups e) ;; Ok (mkE (e_base e) (fst r) (e_options e), snd r)) Hd)
      as (d' & E1 & E2 & E3 & E4); [now rewrite E, HF|cbn; now rewrite Ef|exact Hb|].
    exists d'. repeat (split; [assumption|]). now rewrite E4, E, !HF.
  - destruct Hh as (l & b & Hb & HF).
    destruct (upd_last_cat_ok d l (mkC b gs) (mkC b gs') a (fun e => r <- f (c_gids e) ;; Ok (mkC (c_base e) (fst r), snd r)) Hd)
      as (d' & E1 & E2 & E3 & E4); [now rewrite E, HF|cbn; now rewrite Ef|exact Hb|].
    exists d'. repeat (split; [assumption|]). now rewrite E4, E, !HF.
Qed.
Lemma upd_last_env_ext {A} d (f g : env -> res (env * A)) : (forall x, f x = g x) -> upd_last_env d f = upd_last_env d g.
Proof.
  intros H. unfold upd_last_env. destruct (doc_envs d) as [p| |]; cbn [bind]; try reflexivity. destruct (split_last (snd p)); cbn [bind]; try reflexivity. now rewrite H.
Qed.
Lemma upd_last_cat_ext {A} d (f g : category -> res (category * A)) : (forall x, f x = g x) -> upd_last_cat d f = upd_last_cat d g.
Proof.
  intros H. unfold upd_last_cat. destruct (doc_cats d) as [p| |]; cbn [bind]; try reflexivity. destruct (split_last (snd p)); cbn [bind]; try reflexivity. now rewrite H.
Qed.
Lemma play_gid o p w P F gs el eo sk nm cs d : gid_normal o p -> gid_home w P F -> el_type el = ltype w -> el_valid el = true -> el_type eo = htype w ->
  pdoc d -> doc_parts d = F gs ->
  exists t d', gid_tree o p = Ok t /\ plays (at_ (el :: eo :: sk) (PLive d)) nm (ser t ++ cs) (at_ (el :: eo :: sk) (PLive d')) nm cs /\
    pdoc d' /\ same_head d d' /\ doc_parts d' = F (gs ++ [gid_back o p]).
Proof.
  intros Hn Hh Et Ev Eo Hd E. destruct (gid_attrs o p Hn) as (a & s & dict & Etr & Ename & Hs & Ea & Ec & Ek).
  set (k := mkGid None (gi_def p) (arches_back o (gi_arches p))) in *.
  destruct (upd_gids_ok w P F d gs (gs ++ [k]) tt (fun l => Ok (l ++ [k], tt)) Hh Hd E eq_refl) as (d1 & E1 & Hd1 & Hh1 & P1).
  destruct (upd_gids_ok w P F d1 (gs ++ [k]) (gs ++ [gid_back o p]) (@nil pentry) (fun l => x <- name_last_gid l (Some s) ;; Ok (x, [])) Hh Hd1 P1) as (d2 & E2 & Hd2 & Hh2 & P2).
  { unfold name_last_gid. rewrite split_last_app. cbn [bind fst snd]. unfold gid_set_name, gid_back, k. cbn. now rewrite Ename. }
  assert (Hpl : gid_place (el :: eo :: sk) = Ok w).
  { unfold gid_place. cbn [parent_type grand_type bind]. rewrite Et, Eo. destruct w; reflexivity. }
  exists (Elem (S_ "groupid") a [Text s]), d2. split; [exact Etr|]. split.
  - cbn [ser flat_map app]. rewrite <- app_assoc. cbn [app]. eapply plays_trans.
    + apply plays_start with (dict := dict) (p1 := PLive d1); [exact I|exact Ea|exact Ec| |].
      * unfold elem_valid. gtype. cbn [ancestors existsb]. rewrite Et, Ev. destruct w; reflexivity.
      * gtype. unfold preproc. cbn [el_type el_attrs live bind]. rewrite Ek. cbn [bind]. rewrite Hpl. cbn [bind].
        destruct w; cbn [upd_gids] in E1; match goal with |- bind ?m _ = _ => assert (Em : m = Ok (d1, tt)) by
          (etransitivity; [|exact E1]; (apply upd_last_env_ext || apply upd_last_cat_ext); reflexivity) end; rewrite Em; reflexivity.
    + apply plays_text_end; [reflexivity|reflexivity|exact Hs|]. gtype. unfold postproc. cbn [el_type live bind]. rewrite Hpl. cbn [bind].
      destruct w; cbn [upd_gids] in E2; match goal with |- bind ?m _ = _ => assert (Em : m = Ok (d2, [])) by
          (etransitivity; [|exact E2]; (apply upd_last_env_ext || apply upd_last_cat_ext); intros x; rewrite bind_assoc; reflexivity) end; rewrite Em; reflexivity.
  - split; [exact Hd2|]. split; [now apply same_head_trans with d1|exact P2].
Qed.
Lemma play_gids o ps w P F : gid_home w P F -> forall gs el eo sk nm cs d, Forall (gid_normal o) ps -> el_type el = ltype w -> el_valid el = true -> el_type eo = htype w ->
  pdoc d -> doc_parts d = F gs ->
  exists ts d', map_r (gid_tree o) ps = Ok ts /\ plays (at_ (el :: eo :: sk) (PLive d)) nm (sers ts ++ cs) (at_ (el :: eo :: sk) (PLive d')) nm cs /\
    pdoc d' /\ same_head d d' /\ doc_parts d' = F (gs ++ map (gid_back o) ps).
Proof.
  intros Hh. induction ps as [|p ps IH]; intros gs el eo sk nm cs d Hp Et Ev Eo Hd E; cbn [map_r map].
  - exists [], d. split; [reflexivity|]. split; [apply plays_refl|]. split; [exact Hd|]. split; [apply same_head_refl|]. now rewrite app_nil_r.
  - inversion Hp as [|? ? Hp1 Hp2]; subst.
    destruct (play_gid o p w P F gs el eo sk nm [] d Hp1 Hh Et Ev Eo Hd E) as (t0 & d1 & Et0 & _ & Hd1 & Hh1 & P1).
    destruct (IH (gs ++ [gid_back o p]) el eo sk nm cs d1 Hp2 Et Ev Eo Hd1 P1) as (ts & d2 & Ets & Q2 & Hd2 & Hh2 & P2).
    destruct (play_gid o p w P F gs el eo sk nm (sers ts ++ cs) d Hp1 Hh Et Ev Eo Hd E) as (t & d1' & Et1 & Q1 & Hd1' & Hh1' & P1').
    destruct (IH (gs ++ [gid_back o p]) el eo sk nm cs d1' Hp2 Et Ev Eo Hd1' P1') as (ts' & d2' & Ets' & Q2' & Hd2' & Hh2' & P2').
    assert (ts' = ts) by congruence. subst ts'.
    exists (t :: ts), d2'. rewrite Et1. cbn [bind]. rewrite Ets. split; [reflexivity|]. split.
    + cbn [sers flat_map]. rewrite <- app_assoc. exact (plays_trans _ _ _ _ _ _ _ _ _ Q1 Q2').
    + split; [exact Hd2'|]. split; [now apply same_head_trans with d1'|]. rewrite P2', <- app_assoc. reflexivity.
Qed.

Lemma no_attr_sers l cs : no_attr (sers l ++ WEnd :: cs).
Proof. destruct l as [|[n a b|s] l]; cbn; exact I. Qed.
Lemma no_attr_sers2 l m cs : no_attr (sers l ++ sers m ++ WEnd :: cs).
Proof. destruct l as [|[n a b|s] l]; [apply no_attr_sers|exact I|exact I]. Qed.
Lemma ser_elem n a ts cs : ser (Elem n a ts) ++ cs = WStart n :: map attr_call a ++ sers ts ++ WEnd :: cs.
Proof. cbn [ser app]. now rewrite <- !app_assoc. Qed.

(** ** The list of members *)
Lemma play_pkglist o al ps P l b eo sk nm cs d : Forall (pkg_normal o) ps -> ps <> [] \/ al = false -> el_type eo = TGroup -> el_valid eo = true -> pdoc d ->
  doc_parts d = with_groups P (l ++ [mkG b []]) ->
  exists ts d', members_trees (S_ "packagelist") al (pkg_tree o) ps = Ok ts /\ plays (at_ (eo :: sk) (PLive d)) nm (sers ts ++ cs) (at_ (eo :: sk) (PLive d')) nm cs /\
    pdoc d' /\ same_head d d' /\ doc_parts d' = with_groups P (l ++ [mkG b (map (pkg_back o) ps)]).
Proof.
  intros Hp Hne Et Ev Hd E. destruct ps as [|p ps].
  { destruct Hne as [H|H]; [congruence|]. exists [], d. unfold members_trees. rewrite H. split; [reflexivity|]. split; [apply plays_refl|]. split; [exact Hd|]. split; [apply same_head_refl|exact E]. }
  destruct (no_attrs TPackagelist) as (dict & Ea & Ec & _). set (el := mkElem TPackagelist true dict).
  destruct (play_pkgs o (p :: ps) P l b [] el (eo :: sk) (S_ "packagelist" :: nm) (WEnd :: cs) d Hp eq_refl eq_refl Hd E) as (ts & d1 & Ets & Q1 & Hd1 & Hh1 & P1).
  assert (Hb : pb b).
  { destruct Hd as (_ & Hg & _). rewrite E in Hg. cbn [with_groups pt_groups] in Hg. apply Forall_snoc in Hg. apply Hg. }
  destruct (upd_last_group_ok d1 l (mkG b (map (pkg_back o) (p :: ps))) (mkG b (map (pkg_back o) (p :: ps))) (@nil pentry)
     (fun g => Ok (g, match g_pkgs g with [] => [perr E_LIST_EMPTY [Some (info_name TPackagelist)]] | _ => [] end)) Hd1) as (d2 & E2 & Hd2 & Hh2 & P2);
    [now rewrite P1|reflexivity|exact Hb|].
  exists [Elem (S_ "packagelist") [] ts], d2. split.
  { unfold members_trees. rewrite Ets. reflexivity. }
  split.
  - unfold sers at 1. cbn [flat_map]. rewrite app_nil_r, ser_elem. cbn [map app]. eapply plays_trans; [|eapply plays_trans; [exact Q1|]].
    + apply plays_start with (a := []) (dict := dict) (p1 := PLive d); [apply no_attr_sers|exact Ea|exact Ec| |reflexivity].
      unfold elem_valid. gtype. cbn [ancestors existsb]. now rewrite Et, Ev.
    + apply plays_end; [reflexivity|reflexivity|]. unfold postproc. cbn [el el_type live bind]. rewrite E2. reflexivity.
  - split; [exact Hd2|]. split; [now apply same_head_trans with d1|]. rewrite P2, P1. reflexivity.
Qed.
Definition ltag (w : gplace) : str := match w with GOption => S_ "optionlist" | _ => S_ "grouplist" end.
Lemma play_gidlist o al ps w P F eo sk nm cs d : gid_home w P F -> Forall (gid_normal o) ps -> ps <> [] \/ al = false \/ w = GOption -> el_type eo = htype w -> el_valid eo = true ->
  pdoc d -> doc_parts d = F [] ->
  exists ts d', members_trees (ltag w) al (gid_tree o) ps = Ok ts /\ plays (at_ (eo :: sk) (PLive d)) nm (sers ts ++ cs) (at_ (eo :: sk) (PLive d')) nm cs /\
    pdoc d' /\ same_head d d' /\ doc_parts d' = F (map (gid_back o) ps).
Proof.
  intros Hh Hp Hne Et Ev Hd E.
  assert (Hc : ps = [] /\ al = false \/ members_trees (ltag w) al (gid_tree o) ps = (ts <- map_r (gid_tree o) ps ;; Ok [Elem (ltag w) [] ts]) /\ (ps <> [] \/ w = GOption)).
  { unfold members_trees. destruct ps; [destruct al; [right|left]; auto|right]; (split; [reflexivity|]); try (left; discriminate). right. intuition congruence. }
  destruct Hc as [[-> ->]|[Em Hne']].
  { exists [], d. split; [reflexivity|]. split; [apply plays_refl|]. split; [exact Hd|]. split; [apply same_head_refl|exact E]. }
  destruct (no_attrs (ltype w)) as (dict & Ea & Ec & _). set (el := mkElem (ltype w) true dict).
  destruct (play_gids o ps w P F Hh [] el eo sk (ltag w :: nm) (WEnd :: cs) d Hp eq_refl eq_refl Et Hd E) as (ts & d1 & Ets & Q1 & Hd1 & Hh1 & P1).
  cbn [app] in P1.
  assert (Hend : exists d2, postproc op el (eo :: sk) (PLive d1) None = Ok (PLive d2, [], None) /\ pdoc d2 /\ same_head d1 d2 /\ doc_parts d2 = F (map (gid_back o) ps)).
  { destruct w; unfold postproc; cbn [el el_type ltype parent_type live bind].
    - exists d1. split; [reflexivity|]. split; [exact Hd1|]. split; [apply same_head_refl|exact P1].
    - rewrite Et. cbn [htype etype_eqb]. destruct Hh as (l & b & os & Hb & HF).
      destruct (upd_last_env_ok d1 l (mkE b (map (gid_back o) ps) os) (mkE b (map (gid_back o) ps) os) (@nil pentry)
        (fun e => Ok (e, match e_groups e with [] => [perr E_LIST_EMPTY [Some (info_name TGrouplist)]] | _ => [] end)) Hd1) as (d2 & E2 & Hd2 & Hh2 & P2);
        [now rewrite P1, HF| |exact Hb|].
      { cbn [e_groups]. destruct ps; [destruct Hne'; congruence|]. reflexivity. }
      exists d2. rewrite E2. split; [reflexivity|]. split; [exact Hd2|]. split; [exact Hh2|]. rewrite P2, P1, HF. reflexivity.
    - rewrite Et. cbn [htype etype_eqb]. destruct Hh as (l & b & Hb & HF).
      destruct (upd_last_cat_ok d1 l (mkC b (map (gid_back o) ps)) (mkC b (map (gid_back o) ps)) (@nil pentry)
        (fun e => Ok (e, match c_gids e with [] => [perr E_LIST_EMPTY [Some (info_name TGrouplist)]] | _ => [] end)) Hd1) as (d2 & E2 & Hd2 & Hh2 & P2);
        [now rewrite P1, HF| |exact Hb|].
      { cbn [c_gids]. destruct ps; [destruct Hne'; congruence|]. reflexivity. }
      exists d2. rewrite E2. split; [reflexivity|]. split; [exact Hd2|]. split; [exact Hh2|]. rewrite P2, P1, HF. reflexivity. }
  destruct Hend as (d2 & E2 & Hd2 & Hh2 & P2).
  assert (Ety : get_type (ltag w) = ltype w) by (destruct w; reflexivity).
  exists [Elem (ltag w) [] ts], d2. split.
  { rewrite Em, Ets. reflexivity. }
  split.
  - unfold sers at 1. cbn [flat_map]. rewrite app_nil_r, ser_elem. cbn [map app]. eapply plays_trans; [|eapply plays_trans; [exact Q1|]].
    + unfold el. rewrite <- Ety. apply plays_start with (a := []) (dict := dict) (p1 := PLive d); rewrite ?Ety; [apply no_attr_sers|exact Ea|exact Ec| |destruct w; reflexivity].
      unfold elem_valid. destruct w; cbn [ltype ancestors existsb]; rewrite Et, Ev; reflexivity.
    + apply plays_end; [exact Ety|reflexivity|exact E2].
  - split; [exact Hd2|]. split; [now apply same_head_trans with d1|exact P2].
Qed.

(** ** The start of an object *)
Definition arch_normal (o : xopts) (b : base) : Prop :=
  x_arch o = true -> prop b (S_ "arches") (fun v => v = None \/ exists ws, ws <> [] /\ Forall word ws /\ v = Some (PList (map Some ws))).
Definition arch_back (o : xopts) (b0 b : base) : Prop :=
  look (troot (b_props b)) (S_ "arches") = if x_arch o then look (troot (b_props b0)) (S_ "arches") else None.
Lemma obj_start w o b0 : arch_normal o b0 ->
  exists a dict b, (if x_arch o then l <- base_arches b0 ;; arch_attr o l else Ok []) = Ok a /\ attrs_dict rt_create a = Ok dict /\
    check_attributes false (otype w) dict = Ok [] /\ base_of_attrs dict = Ok b /\ blank_base b /\ arch_back o b0 b.
Proof.
  intros Hn. unfold arch_back.
  assert (Hblank : blank_base base_create /\ look (troot (b_props base_create)) (S_ "arches") = None).
  { split; [|reflexivity]. split; [apply pb_create|]. split; [reflexivity|]. split; [reflexivity|]. intros k _. apply look_empty. }
  assert (Hnone : exists dict b, attrs_dict rt_create [] = Ok dict /\ check_attributes false (otype w) dict = Ok [] /\ base_of_attrs dict = Ok b /\ blank_base b /\
     look (troot (b_props b)) (S_ "arches") = None).
  { destruct (no_attrs (otype w)) as (dict & E & Ec & Eg). exists dict, base_create. split; [exact E|]. split; [exact Ec|]. unfold base_of_attrs. rewrite Eg. cbn [bind]. tauto. }
  destruct Hnone as (dict & b & N1 & N2 & N3 & N4 & N5).
  destruct (x_arch o) eqn:Ex; [|exists [], dict, b; auto 10].
  specialize (Hn Ex _ (base_get_ok b0 _)). unfold base_arches. rewrite base_get_ok.
  destruct Hn as [E|(ws & Hne & Hw & E)]; rewrite E; cbn [bind].
  - exists [], dict, b. unfold arch_attr. rewrite Ex. auto 10.
  - destruct (arches_attr o (Some (map Some ws))) as (a & Ea & Hback); [intros _; right; eauto|].
    match type of Ea with ?m = _ => match goal with |- context [arch_attr o ?l] => change (arch_attr o l) with m end end. rewrite Ea. unfold arches_back in Hback. rewrite Ex in Hback.
    destruct Hback as [[_ Hk]|(z & -> & Hk)]; [discriminate|].
    destruct (attrs_ok (otype w) [(S_ "arch", z)]) as (dict1 & Ed & Eg & Ec);
      [apply nonempty_keys_b; vm_compute; reflexivity|apply no_late_prefix_b; vm_compute; reflexivity|destruct w; cbn [map fst otype]; incl_tac|].
    destruct (set_arches_ok base_create (split_arches z) pb_create) as (b1 & Eb & Hb1 & Hn1 & Hd1 & Hl1).
    exists [(S_ "arch", z)], dict1, b1. split; [reflexivity|]. split; [exact Ed|]. split; [exact Ec|]. split; [|split].
    + unfold base_of_attrs. rewrite Eg. cbn [bind]. exact Eb.
    + split; [exact Hb1|]. split; [exact Hn1|]. split; [exact Hd1|]. intros k Hk'. unfold free. rewrite Hl1. destruct (streq k (S_ "arches")) eqn:Es; [apply streq_iff in Es; contradiction|].
      apply look_empty.
    + rewrite Hl1, streq_refl. injection Hk as Hk. now rewrite <- Hk.
Qed.

(** ** Groups *)
Definition group_normal (o : xopts) (g : group) : Prop :=
  group_texts_normal (g_base g) /\ arch_normal o (g_base g) /\ Forall (pkg_normal o) (g_pkgs g) /\ (g_pkgs g <> [] \/ x_empty_packages o = false).
Definition bool_back (b0 b : base) (k : string) (df : bool) : Prop :=
  look (troot (b_props b)) (S_ k) = Some (PNum (if truth (look (troot (b_props b0)) (S_ k)) df then 1 else 0)).
Definition group_kept (o : xopts) (g g' : group) : Prop :=
  base_kept (g_base g) (g_base g') /\ same_prop (g_base g) (g_base g') "langonly" /\ arch_back o (g_base g) (g_base g') /\
  bool_back (g_base g) (g_base g') "def" (o_default op) /\ bool_back (g_base g) (g_base g') "uservisible" (o_uservisible op) /\
  bool_back (g_base g) (g_base g') "biarchonly" (o_biarchonly op) /\ g_pkgs g' = map (pkg_back o) (g_pkgs g).
Lemma fill_put b0 b k df : pb b -> In (S_ k) prop_keys -> bool_pending b0 b k df ->
  exists b', fill b (S_ k) df = Ok b' /\ put b b' (S_ k) (Some (PNum (if truth (look (troot (b_props b0)) (S_ k)) df then 1 else 0))).
Proof.
  intros Hb Hk Hp. unfold fill. rewrite base_get_ok. cbn [bind]. unfold bool_pending in Hp. destruct Hp as [E|[E Ec]]; rewrite E.
  - exists b. split; [reflexivity|]. split; [exact Hb|]. split; [reflexivity|]. split; [reflexivity|]. intros k'. destruct (streq k' (S_ k)) eqn:Es; [|reflexivity].
    apply streq_iff in Es. subst k'. exact E.
  - rewrite Ec. destruct (set_num_ok b (S_ k) (if df then 1%Z else 0%Z) Hb Hk) as (b' & E' & H). exists b'. split; [exact E'|]. unfold put. tauto.
Qed.
Lemma required_none b0 b : texts_normal b0 -> base_kept b0 b -> required b = Ok [].
Proof.
  intros (_ & H1 & H2 & H3 & _) (_ & E1 & E2 & E3 & _). unfold required, check_required. rewrite !base_get_ok. cbn [bind].
  specialize (H1 _ (base_get_ok b0 _)). specialize (H2 _ (base_get_ok b0 _)). specialize (H3 _ (base_get_ok b0 _)).
  destruct H1 as (s1 & H1 & _), H2 as (s2 & H2 & _), H3 as (s3 & H3 & _). unfold same_prop in *. now rewrite E1, E2, E3, H1, H2, H3.
Qed.
Lemma kept_object o g : ~ group_left_out o g -> group_tree o op g = kept (object_tree o (S_ "group") (g_base g) (group_rows o op)
                    (members_trees (S_ "packagelist") (x_empty_packages o) (pkg_tree o) (g_pkgs g))).
Proof. unfold group_left_out, group_tree. destruct (g_pkgs g); [destruct (x_empty_groups o)|]; intros H; try reflexivity. now elim H. Qed.
Lemma play_group o g ed sk nm cs d : group_normal o g -> ~ group_left_out o g -> el_type ed = TDoc -> el_valid ed = true -> pdoc d ->
  exists t d' g', group_tree o op g = Ok (inl t) /\ plays (at_ (ed :: sk) (PLive d)) nm (ser t ++ cs) (at_ (ed :: sk) (PLive d')) nm cs /\
    pdoc d' /\ same_head d d' /\ doc_parts d' = with_groups (doc_parts d) (pt_groups (doc_parts d) ++ [g']) /\ group_kept o g g'.
Proof.
  intros (Hn & Ha & Hp & Hne) Hl Et Ev Hd. rewrite kept_object by exact Hl. unfold object_tree, kept.
  destruct (obj_start OGroup o (g_base g) Ha) as (a & dict & b & Ea & Ed & Ec & Eb & Hb & Hab). rewrite Ea. cbn [bind].
  destruct (group_read dt en op o (g_base g) b Hn Hb) as (b1 & (xs & Ex & Tx) & Hk1 & Hlang & Harch & B1 & B2 & B3). rewrite Ex. cbn [bind].
  destruct (add_group_ok d (mkG b []) Hd (proj1 Hb)) as (d1 & E1 & Hd1 & Hh1 & P1).
  set (el := mkElem TGroup true dict).
  set (l := pt_groups (doc_parts d)) in *.
  (* the tail of the calls depends on the members, which are read first *)
  assert (Hm : exists ts, members_trees (S_ "packagelist") (x_empty_packages o) (pkg_tree o) (g_pkgs g) = Ok ts /\
     forall d2 cs2 nm2, pdoc d2 -> doc_parts d2 = with_groups (doc_parts d) (l ++ [mkG b1 []]) ->
       exists d3, plays (at_ (el :: ed :: sk) (PLive d2)) nm2 (sers ts ++ cs2) (at_ (el :: ed :: sk) (PLive d3)) nm2 cs2 /\
         pdoc d3 /\ same_head d2 d3 /\ doc_parts d3 = with_groups (doc_parts d) (l ++ [mkG b1 (map (pkg_back o) (g_pkgs g))])).
  { destruct (Tx (fun b => with_groups (doc_parts d) (l ++ [mkG b []])) el (ed :: sk) nm [] d1) as (d2 & _ & Hd2 & _ & P2);
      [exists (doc_parts d), l, []; reflexivity|reflexivity|reflexivity|exact Hd1|exact P1|].
    destruct (play_pkglist o (x_empty_packages o) (g_pkgs g) (doc_parts d) l b1 el (ed :: sk) nm [] d2 Hp Hne eq_refl eq_refl Hd2 P2) as (ts & _ & Ets & _).
    exists ts. split; [exact Ets|]. intros d2' cs2 nm2 H1 H2.
    destruct (play_pkglist o (x_empty_packages o) (g_pkgs g) (doc_parts d) l b1 el (ed :: sk) nm2 cs2 d2' Hp Hne eq_refl eq_refl H1 H2) as (ts' & d3 & Ets' & Q & Hd3 & Hh3 & P3).
    assert (ts' = ts) by congruence. subst ts'. exists d3. auto. }
  destruct Hm as (ts & Ets & Hm). rewrite Ets. cbn [bind].
  destruct (Tx (fun b => with_groups (doc_parts d) (l ++ [mkG b []])) el (ed :: sk) (S_ "group" :: nm) (sers ts ++ WEnd :: cs) d1) as (d2 & Q2 & Hd2 & Hh2 & P2);
    [exists (doc_parts d), l, []; reflexivity|reflexivity|reflexivity|exact Hd1|exact P1|].
  destruct (Hm d2 (WEnd :: cs) (S_ "group" :: nm) Hd2 P2) as (d3 & Q3 & Hd3 & Hh3 & P3).
  pose proof (proj1 Hk1) as Hb1.
  destruct (fill_put (g_base g) b1 "def" (o_default op) Hb1 ltac:(in_keys) B1) as (b2 & F2 & U2).
  destruct (fill_put (g_base g) b2 "uservisible" (o_uservisible op) (proj1 U2) ltac:(in_keys)) as (b3 & F3 & U3).
  { unfold bool_pending in *. free_tac. exact B2. }
  destruct (fill_put (g_base g) b3 "biarchonly" (o_biarchonly op) (proj1 U3) ltac:(in_keys)) as (b4 & F4 & U4).
  { unfold bool_pending in *. free_tac. exact B3. }
  destruct (upd_last_group_ok d3 l (mkG b1 (map (pkg_back o) (g_pkgs g))) (mkG b4 (map (pkg_back o) (g_pkgs g))) (@nil pentry)
     (fun g => es <- required (g_base g) ;; b1 <- fill (g_base g) (S_ "def") (o_default op) ;; b2 <- fill b1 (S_ "uservisible") (o_uservisible op) ;;
             b3 <- fill b2 (S_ "biarchonly") (o_biarchonly op) ;; Ok (mkG b3 (g_pkgs g), es)) Hd3) as (d4 & E4 & Hd4 & Hh4 & P4);
    [now rewrite P3| |exact (proj1 U4)|].
  { cbn [g_base g_pkgs]. rewrite (required_none (g_base g) b1) by (try apply Hn; exact Hk1). cbn [bind]. rewrite F2. cbn [bind]. rewrite F3. cbn [bind]. rewrite F4. reflexivity. }
  exists (Elem (S_ "group") a (xs ++ ts)), d4, (mkG b4 (map (pkg_back o) (g_pkgs g))). split; [reflexivity|]. split.
  - rewrite ser_elem. unfold sers. rewrite flat_map_app, <- app_assoc. eapply plays_trans; [|eapply plays_trans; [exact Q2|eapply plays_trans; [exact Q3|]]].
    + apply plays_start with (dict := dict) (p1 := PLive d1); [|exact Ed|exact Ec| |].
      * apply no_attr_sers2.
      * unfold elem_valid. gtype. cbn [ancestors existsb]. now rewrite Et, Ev.
      * gtype. unfold preproc. cbn [el_type el_attrs live bind]. rewrite Eb. cbn [bind]. rewrite E1. reflexivity.
    + apply plays_end; [reflexivity|reflexivity|]. unfold postproc. cbn [el el_type live bind]. rewrite E4. reflexivity.
  - split; [exact Hd4|]. split; [repeat (eapply same_head_trans; [eassumption|]); apply same_head_refl|]. split; [rewrite P4, P3; reflexivity|].
    unfold group_kept, bool_back, arch_back. cbn [g_base g_pkgs].
    destruct Hk1 as (_ & K1 & K2 & K3 & K4 & K5 & K6). unfold same_prop, arch_back in *.
    split; [|split; [free_tac; exact Hlang|split; [free_tac; rewrite Harch; exact Hab|]]].
    + split; [apply U4|]. unfold same_prop. split; [free_tac; exact K1|]. split; [free_tac; exact K2|]. split; [free_tac; exact K3|]. split; [free_tac; exact K4|].
      split; intros k; [rewrite <- K5|rewrite <- K6]; destruct U2 as (_ & ? & ? & _), U3 as (_ & ? & ? & _), U4 as (_ & ? & ? & _); congruence.
    + split; [free_tac; reflexivity|]. split; [free_tac; reflexivity|]. split; [free_tac; reflexivity|reflexivity].
Qed.

(** ** Categories and environments *)
Lemma gids_tree o ps : Forall (gid_normal o) ps -> exists ts, map_r (gid_tree o) ps = Ok ts.
Proof.
  induction 1 as [|p ps Hp _ (ts & E)]; [now exists []|]. destruct (gid_attrs o p Hp) as (a & s & dict & Et & _).
  eexists. cbn [map_r]. rewrite Et. cbn [bind]. rewrite E. reflexivity.
Qed.
Lemma gidlist_tree tag o al ps : Forall (gid_normal o) ps -> exists ts, members_trees tag al (gid_tree o) ps = Ok ts.
Proof.
  intros H. destruct (gids_tree o ps H) as (ts & E). unfold members_trees. destruct ps; [destruct al|].
  - rewrite E. now eexists.
  - now eexists.
  - rewrite E. now eexists.
Qed.
Definition only_common (b : base) : Prop :=
  forall k, ~ In k [S_ "id"; S_ "name"; S_ "desc"; S_ "display_order"; S_ "arches"] -> look (troot (b_props b)) k = None.
Lemma common_only b b' : blank_base b ->
  (forall k, ~ In k [S_ "id"; S_ "name"; S_ "desc"; S_ "display_order"] -> look (troot (b_props b')) k = look (troot (b_props b)) k) -> only_common b'.
Proof. intros (_ & _ & _ & Hf) H k Hk. cbn [In] in Hk. rewrite H by (cbn [In]; tauto). apply Hf. intros ->. tauto. Qed.
Definition cat_normal (o : xopts) (c : category) : Prop :=
  texts_normal (c_base c) /\ arch_normal o (c_base c) /\ Forall (gid_normal o) (c_gids c) /\ (c_gids c <> [] \/ x_empty_grouplist o = false).
Definition cat_kept (o : xopts) (c c' : category) : Prop :=
  base_kept (c_base c) (c_base c') /\ only_common (c_base c') /\ arch_back o (c_base c) (c_base c') /\ c_gids c' = map (gid_back o) (c_gids c).
Lemma kept_cat o c : ~ cat_left_out o c -> category_tree o c = kept (object_tree o (S_ "category") (c_base c) common_rows
                    (members_trees (S_ "grouplist") (x_empty_grouplist o) (gid_tree o) (c_gids c))).
Proof. unfold cat_left_out, category_tree. destruct (c_gids c); [destruct (x_empty_categories o)|]; intros H; try reflexivity. now elim H. Qed.
Lemma play_cat o c ed sk nm cs d : cat_normal o c -> ~ cat_left_out o c -> el_type ed = TDoc -> el_valid ed = true -> pdoc d ->
  exists t d' c', category_tree o c = Ok (inl t) /\ plays (at_ (ed :: sk) (PLive d)) nm (ser t ++ cs) (at_ (ed :: sk) (PLive d')) nm cs /\
    pdoc d' /\ same_head d d' /\ doc_parts d' = with_cats (doc_parts d) (pt_cats (doc_parts d) ++ [c']) /\ cat_kept o c c'.
Proof.
  intros (Hn & Ha & Hp & Hne) Hl Et Ev Hd. rewrite kept_cat by exact Hl. unfold object_tree, kept.
  destruct (obj_start OCat o (c_base c) Ha) as (a & dict & b & Ea & Ed & Ec & Eb & Hb & Hab). rewrite Ea. cbn [bind].
  destruct (common_read dt en op OCat (c_base c) b Hn Hb) as (b1 & (xs & Ex & Tx) & Hk1 & Harch & Hoth). rewrite Ex. cbn [bind].
  destruct (add_cat_ok d (mkC b []) Hd (proj1 Hb)) as (d1 & E1 & Hd1 & Hh1 & P1).
  set (el := mkElem TCategory true dict).
  set (l := pt_cats (doc_parts d)) in *.
  destruct (gidlist_tree (S_ "grouplist") o (x_empty_grouplist o) (c_gids c) Hp) as (ts & Ets). rewrite Ets. cbn [bind].
  destruct (Tx (fun b => with_cats (doc_parts d) (l ++ [mkC b []])) el (ed :: sk) (S_ "category" :: nm) (sers ts ++ WEnd :: cs) d1) as (d2 & Q2 & Hd2 & Hh2 & P2);
    [exists (doc_parts d), l, []; reflexivity|reflexivity|reflexivity|exact Hd1|exact P1|].
  destruct (play_gidlist o (x_empty_grouplist o) (c_gids c) GCat (doc_parts d) (fun gs => with_cats (doc_parts d) (l ++ [mkC b1 gs])) el (ed :: sk) (S_ "category" :: nm) (WEnd :: cs) d2)
    as (ts' & d3 & Ets' & Q3 & Hd3 & Hh3 & P3); [exists l, b1; split; [apply Hk1|reflexivity]|exact Hp|tauto|reflexivity|reflexivity|exact Hd2|exact P2|].
  cbn [ltag] in Ets'. assert (ts' = ts) by congruence. subst ts'.
  destruct (upd_base_ok OCat (fun b => with_cats (doc_parts d) (l ++ [mkC b (map (gid_back o) (c_gids c))])) d3 b1 b1 (@nil pentry)
     (fun b => es <- required b ;; Ok (b, es)) Hd3) as (d4 & E4 & Hd4 & Hh4 & P4);
    [exists (doc_parts d), l, (map (gid_back o) (c_gids c)); reflexivity|exact P3| |apply Hk1|].
  { rewrite (required_none (c_base c) b1 Hn Hk1). reflexivity. }
  exists (Elem (S_ "category") a (xs ++ ts)), d4, (mkC b1 (map (gid_back o) (c_gids c))). split; [reflexivity|]. split.
  - rewrite ser_elem. unfold sers. rewrite flat_map_app, <- app_assoc. eapply plays_trans; [|eapply plays_trans; [exact Q2|eapply plays_trans; [exact Q3|]]].
    + apply plays_start with (dict := dict) (p1 := PLive d1); [|exact Ed|exact Ec| |].
      * apply no_attr_sers2.
      * unfold elem_valid. gtype. cbn [ancestors existsb]. now rewrite Et, Ev.
      * gtype. unfold preproc. cbn [el_type el_attrs live bind]. rewrite Eb. cbn [bind]. rewrite E1. reflexivity.
    + apply plays_end; [reflexivity|reflexivity|]. unfold postproc. cbn [el el_type live bind]. rewrite E4. reflexivity.
  - split; [exact Hd4|]. split; [repeat (eapply same_head_trans; [eassumption|]); apply same_head_refl|]. split; [rewrite P4; reflexivity|].
    split; [exact Hk1|]. split; [exact (common_only b b1 Hb Hoth)|]. cbn [c_base c_gids]. split; [|reflexivity]. unfold arch_back, same_prop in *. now rewrite Harch.
Qed.

Definition env_normal (o : xopts) (e : env) : Prop :=
  texts_normal (e_base e) /\ arch_normal o (e_base e) /\ Forall (gid_normal o) (e_groups e) /\ Forall (gid_normal o) (e_options e) /\
  (e_groups e <> [] \/ x_empty_grouplist o = false).
Definition env_kept (o : xopts) (e e' : env) : Prop :=
  base_kept (e_base e) (e_base e') /\ only_common (e_base e') /\ arch_back o (e_base e) (e_base e') /\ e_groups e' = map (gid_back o) (e_groups e) /\ e_options e' = map (gid_back o) (e_options e).
Lemma kept_env o e : ~ env_left_out o e -> env_tree o e = kept (object_tree o (S_ "environment") (e_base e) common_rows
      (g <- members_trees (S_ "grouplist") (x_empty_grouplist o) (gid_tree o) (e_groups e) ;;
       p <- members_trees (S_ "optionlist") (x_empty_optionlist o) (gid_tree o) (e_options e) ;; Ok (g ++ p))).
Proof.
  unfold env_left_out, env_tree. destruct (e_groups e); [destruct (e_options e); [destruct (x_empty_environments o)|]|]; intros H; try reflexivity. now elim H.
Qed.
Lemma no_attr_sers3 k l m cs : no_attr (sers k ++ sers l ++ sers m ++ WEnd :: cs).
Proof. destruct k as [|[n a b|s] k]; [apply no_attr_sers2|exact I|exact I]. Qed.
Lemma play_env o e ed sk nm cs d : env_normal o e -> ~ env_left_out o e -> el_type ed = TDoc -> el_valid ed = true -> pdoc d ->
  exists t d' e', env_tree o e = Ok (inl t) /\ plays (at_ (ed :: sk) (PLive d)) nm (ser t ++ cs) (at_ (ed :: sk) (PLive d')) nm cs /\
    pdoc d' /\ same_head d d' /\ doc_parts d' = with_envs (doc_parts d) (pt_envs (doc_parts d) ++ [e']) /\ env_kept o e e'.
Proof.
  intros (Hn & Ha & Hp & Hq & Hne) Hl Et Ev Hd. rewrite kept_env by exact Hl. unfold object_tree, kept.
  destruct (obj_start OEnv o (e_base e) Ha) as (a & dict & b & Ea & Ed & Ec & Eb & Hb & Hab). rewrite Ea. cbn [bind].
  destruct (common_read dt en op OEnv (e_base e) b Hn Hb) as (b1 & (xs & Ex & Tx) & Hk1 & Harch & Hoth). rewrite Ex. cbn [bind].
  destruct (add_env_ok d (mkE b [] []) Hd (proj1 Hb)) as (d1 & E1 & Hd1 & Hh1 & P1).
  set (el := mkElem TEnv true dict).
  set (l := pt_envs (doc_parts d)) in *.
  destruct (gidlist_tree (S_ "grouplist") o (x_empty_grouplist o) (e_groups e) Hp) as (ts & Ets). rewrite Ets. cbn [bind].
  destruct (gidlist_tree (S_ "optionlist") o (x_empty_optionlist o) (e_options e) Hq) as (us & Eus). rewrite Eus. cbn [bind].
  destruct (Tx (fun b => with_envs (doc_parts d) (l ++ [mkE b [] []])) el (ed :: sk) (S_ "environment" :: nm) (sers ts ++ sers us ++ WEnd :: cs) d1) as (d2 & Q2 & Hd2 & Hh2 & P2);
    [exists (doc_parts d), l, [], []; reflexivity|reflexivity|reflexivity|exact Hd1|exact P1|].
  destruct (play_gidlist o (x_empty_grouplist o) (e_groups e) GEnv (doc_parts d) (fun gs => with_envs (doc_parts d) (l ++ [mkE b1 gs []])) el (ed :: sk) (S_ "environment" :: nm)
    (sers us ++ WEnd :: cs) d2)
    as (ts' & d3 & Ets' & Q3 & Hd3 & Hh3 & P3); [exists l, b1, []; split; [apply Hk1|reflexivity]|exact Hp|tauto|reflexivity|reflexivity|exact Hd2|exact P2|].
  cbn [ltag] in Ets'. assert (ts' = ts) by congruence. subst ts'.
  destruct (play_gidlist o (x_empty_optionlist o) (e_options e) GOption (doc_parts d) (fun os => with_envs (doc_parts d) (l ++ [mkE b1 (map (gid_back o) (e_groups e)) os])) el (ed :: sk)
    (S_ "environment" :: nm) (WEnd :: cs) d3)
    as (us' & d3' & Eus' & Q3' & Hd3' & Hh3' & P3'); [exists l, b1, (map (gid_back o) (e_groups e)); split; [apply Hk1|reflexivity]|exact Hq|tauto|reflexivity|reflexivity|exact Hd3|exact P3|].
  cbn [ltag] in Eus'. assert (us' = us) by congruence. subst us'.
  destruct (upd_base_ok OEnv (fun b => with_envs (doc_parts d) (l ++ [mkE b (map (gid_back o) (e_groups e)) (map (gid_back o) (e_options e))])) d3' b1 b1 (@nil pentry)
     (fun b => es <- required b ;; Ok (b, es)) Hd3') as (d4 & E4 & Hd4 & Hh4 & P4);
    [exists (doc_parts d), l, (map (gid_back o) (e_groups e)), (map (gid_back o) (e_options e)); reflexivity|exact P3'| |apply Hk1|].
  { rewrite (required_none (e_base e) b1 Hn Hk1). reflexivity. }
  exists (Elem (S_ "environment") a (xs ++ ts ++ us)), d4, (mkE b1 (map (gid_back o) (e_groups e)) (map (gid_back o) (e_options e))). split; [reflexivity|]. split.
  - rewrite ser_elem. unfold sers. rewrite !flat_map_app, <- !app_assoc.
    eapply plays_trans; [|eapply plays_trans; [exact Q2|eapply plays_trans; [exact Q3|eapply plays_trans; [exact Q3'|]]]].
    + apply plays_start with (dict := dict) (p1 := PLive d1); [|exact Ed|exact Ec| |].
      * apply no_attr_sers3.
      * unfold elem_valid. gtype. cbn [ancestors existsb]. now rewrite Et, Ev.
      * gtype. unfold preproc. cbn [el_type el_attrs live bind]. rewrite Eb. cbn [bind]. rewrite E1. reflexivity.
    + apply plays_end; [reflexivity|reflexivity|]. unfold postproc. cbn [el el_type live bind]. rewrite E4. reflexivity.
  - split; [exact Hd4|]. split; [repeat (eapply same_head_trans; [eassumption|]); apply same_head_refl|]. split; [rewrite P4; reflexivity|].
    split; [exact Hk1|]. split; [exact (common_only b b1 Hb Hoth)|]. cbn [e_base e_groups e_options]. split; [|auto]. unfold arch_back, same_prop in *. now rewrite Harch.
Qed.
End Objects.
