(** Reading back what was written: dictionaries and whole documents. *)
From Coq Require Import NArith Nnat Sorted.
From Verif Require Import CStr CStrFacts HSListModel HSListFacts RTreeModel RTreeFacts RTreeFacts2 RTreeFacts3 RTreeFacts4 MRTreeModel MRTreeFacts MRTreeFacts2
  ObjModel ObjFacts2 Dec StrModel StrFacts DocModel DocFacts2 SpecA SpecB SpecD SpecE ParseModel ParseFacts SpecF SpecF2 SpecF3 SpecF4 XmlModel XmlFacts SpecG SpecG2 SpecG3 SpecG4.

Section Dicts.
Variables (dt : option (ostr * ostr * ostr)) (en : ostr) (op : dopts).
Notation at_ := (at_ dt en op).
(** ** The three dictionaries of a document *)
Inductive dkind := KLang | KBlack | KWhite.
Definition dtag (w : dkind) : str := match w with KLang => S_ "langpacks" | KBlack => S_ "blacklist" | KWhite => S_ "whiteout" end.
Definition detag (w : dkind) : str := match w with KLang => S_ "match" | KBlack => S_ "package" | KWhite => S_ "ignoredep" end.
Definition dkey (w : dkind) : str := match w with KLang => S_ "name" | KBlack => S_ "name" | KWhite => S_ "requires" end.
Definition dval_ (w : dkind) : str := match w with KLang => S_ "install" | KBlack => S_ "arch" | KWhite => S_ "package" end.
Definition dadd (w : dkind) : doc -> str -> ostr -> res doc := match w with KLang => doc_add_langpack | KBlack => doc_add_blacklist | KWhite => doc_add_whiteout end.
Definition dtype (w : dkind) : etype := match w with KLang => TLangpacks | KBlack => TBlacklist | KWhite => TWhiteout end.
Fixpoint dadds (w : dkind) (d : doc) (l : list (str * str)) : res doc :=
  match l with [] => Ok d | (k, v) :: r => d' <- dadd w d k (Some v) ;; dadds w d' r end.

Lemma play_entry w k v el sk nm cs d d' : el_type el = dtype w -> el_valid el = true -> dadd w d k (Some v) = Ok d' ->
  plays (at_ (el :: sk) (PLive d)) nm (ser (entry_tree (detag w) (dkey w) (dval_ w) (k, v)) ++ cs) (at_ (el :: sk) (PLive d')) nm cs.
Proof.
  intros Et Ev E. unfold entry_tree. cbn [fst snd].
  assert (Ha : exists dict, attrs_dict rt_create [(dkey w, k); (dval_ w, v)] = Ok dict /\ check_attributes false (get_type (detag w)) dict = Ok [] /\
     rt_get dict (dkey w) = Ok (Some k) /\ rt_get dict (dval_ w) = Ok (Some v)).
  { destruct (attrs_ok (get_type (detag w)) [(dkey w, k); (dval_ w, v)]) as (dict & E1 & E2 & E3).
    - destruct w; apply nonempty_keys_b; vm_compute; reflexivity.
    - destruct w; apply no_late_prefix_b; vm_compute; reflexivity.
    - destruct w; cbn [dkey dval_ detag map fst]; gtype; cbn [attributes]; intros x [<-|[<-|[]]]; cbn [In]; tauto.
    - exists dict. rewrite !E2. split; [exact E1|]. split; [exact E3|]. destruct w; split; reflexivity. }
  destruct Ha as (dict & E1 & E2 & E3 & E4). rewrite ser_elem. change (sers []) with (@nil call). cbn [app].
  eapply plays_trans.
  - apply plays_start with (a := [(dkey w, k); (dval_ w, v)]) (dict := dict) (p1 := PLive d'); [exact I|exact E1|exact E2| |].
    + unfold elem_valid. destruct w; gtype; cbn [ancestors existsb dtype] in *; now rewrite Et, Ev.
    + unfold preproc. cbn [el_type el_attrs live bind]. destruct w; cbn [dkey dval_ detag dadd] in *; gtype; unfold pair_of_attrs; cbn iota; rewrite E3, E4; cbn [bind fst snd]; rewrite E; reflexivity.
  - apply plays_end; [reflexivity|reflexivity|]. destruct w; reflexivity.
Qed.
Lemma play_entries w l : forall el sk nm cs d d', el_type el = dtype w -> el_valid el = true -> dadds w d l = Ok d' ->
  plays (at_ (el :: sk) (PLive d)) nm (sers (map (entry_tree (detag w) (dkey w) (dval_ w)) l) ++ cs) (at_ (el :: sk) (PLive d')) nm cs.
Proof.
  induction l as [|[k v] l IH]; intros el sk nm cs d d' Et Ev E; cbn [dadds map] in *.
  - injection E as <-. apply plays_refl.
  - apply bind_ok in E. destruct E as (d1 & E1 & E). cbn [sers flat_map]. rewrite <- app_assoc. eapply plays_trans; [exact (play_entry w k v el sk nm _ d d1 Et Ev E1)|].
    now apply IH.
Qed.
Lemma play_dict w l ed sk nm cs d d' : el_type ed = TDoc -> el_valid ed = true -> dadds w d l = Ok d' ->
  plays (at_ (ed :: sk) (PLive d)) nm (ser (dict_tree (dtag w) (detag w) (dkey w) (dval_ w) l) ++ cs) (at_ (ed :: sk) (PLive d')) nm cs.
Proof.
  intros Et Ev E. destruct (no_attrs (dtype w)) as (dict & Ea & Ec & _). unfold dict_tree. rewrite ser_elem.
  assert (Ety : get_type (dtag w) = dtype w) by (destruct w; reflexivity).
  eapply plays_trans.
  - apply plays_start with (a := []) (dict := dict) (p1 := PLive d); rewrite ?Ety; [apply no_attr_sers|exact Ea|exact Ec| |destruct w; reflexivity].
    unfold elem_valid. destruct w; cbn [ancestors existsb dtype]; now rewrite Et, Ev.
  - eapply plays_trans; [apply play_entries; [|reflexivity|exact E]; exact Ety|]. apply plays_end; [reflexivity|reflexivity|]. destruct w; reflexivity.
Qed.

(** ** What the added entries give *)
Definition some_val (kv : str * str) : str * ostr := (fst kv, Some (snd kv)).
Lemma groups_id p l : l = pt_groups p -> p = with_groups p l.
Proof. intros ->. now destruct p. Qed.
Lemma cats_id p l : l = pt_cats p -> p = with_cats p l.
Proof. intros ->. now destruct p. Qed.
Lemma envs_id p l : l = pt_envs p -> p = with_envs p l.
Proof. intros ->. now destruct p. Qed.
Lemma langs_id p t : @Ok (rtree ostr) (pt_langpacks p) = Ok t -> p = with_langpacks p t.
Proof. intros E. injection E as <-. now destruct p. Qed.
Lemma blacks_id p t : @Ok (mtree ostr) (pt_blacklist p) = Ok t -> p = with_blacklist p t.
Proof. intros E. injection E as <-. now destruct p. Qed.
Lemma whites_id p t : @Ok (mtree ostr) (pt_whiteout p) = Ok t -> p = with_whiteout p t.
Proof. intros E. injection E as <-. now destruct p. Qed.
Lemma adds_lang l : forall d t, pdoc d -> rt_sets (pt_langpacks (doc_parts d)) (map (fun kv => (fst kv, Some (snd kv))) l) = Ok t ->
  exists d', dadds KLang d l = Ok d' /\ pdoc d' /\ same_head d d' /\ doc_parts d' = with_langpacks (doc_parts d) t.
Proof.
  induction l as [|[k v] l IH]; intros d t Hd E; cbn [map rt_sets dadds] in *.
  - exists d. split; [reflexivity|]. split; [exact Hd|]. split; [apply same_head_refl|]. now apply langs_id.
  - apply bind_ok in E. destruct E as (t1 & E1 & E). cbn [fst snd] in E1.
    destruct (add_langpack_ok d k (Some v) Hd) as (d1 & t1' & A & Hd1 & Hh1 & S & P1).
    assert (t1' = t1) by congruence. subst t1'. cbn [dadd]. rewrite A. cbn [bind].
    destruct (IH d1 t Hd1) as (d' & A' & Hd' & Hh' & P'); [now rewrite P1|]. exists d'. split; [exact A'|]. split; [exact Hd'|].
    split; [now apply same_head_trans with d1|]. now rewrite P', P1.
Qed.
Lemma adds_black l : forall d t, pdoc d -> mt_sets (pt_blacklist (doc_parts d)) (map some_val l) = Ok t ->
  exists d', dadds KBlack d l = Ok d' /\ pdoc d' /\ same_head d d' /\ doc_parts d' = with_blacklist (doc_parts d) t.
Proof.
  induction l as [|[k v] l IH]; intros d t Hd E; cbn [map mt_sets dadds some_val fst snd] in *.
  - exists d. split; [reflexivity|]. split; [exact Hd|]. split; [apply same_head_refl|]. now apply blacks_id.
  - apply bind_ok in E. destruct E as (t1 & E1 & E).
    destruct (add_blacklist_ok d k (Some v) Hd) as (d1 & t1' & A & Hd1 & Hh1 & S & P1).
    assert (t1' = t1) by congruence. subst t1'. cbn [dadd]. rewrite A. cbn [bind].
    destruct (IH d1 t Hd1) as (d' & A' & Hd' & Hh' & P'); [now rewrite P1|]. exists d'. split; [exact A'|]. split; [exact Hd'|].
    split; [now apply same_head_trans with d1|]. now rewrite P', P1.
Qed.
Lemma adds_white l : forall d t, pdoc d -> mt_sets (pt_whiteout (doc_parts d)) (map some_val l) = Ok t ->
  exists d', dadds KWhite d l = Ok d' /\ pdoc d' /\ same_head d d' /\ doc_parts d' = with_whiteout (doc_parts d) t.
Proof.
  induction l as [|[k v] l IH]; intros d t Hd E; cbn [map mt_sets dadds some_val fst snd] in *.
  - exists d. split; [reflexivity|]. split; [exact Hd|]. split; [apply same_head_refl|]. now apply whites_id.
  - apply bind_ok in E. destruct E as (t1 & E1 & E).
    destruct (add_whiteout_ok d k (Some v) Hd) as (d1 & t1' & A & Hd1 & Hh1 & S & P1).
    assert (t1' = t1) by congruence. subst t1'. cbn [dadd]. rewrite A. cbn [bind].
    destruct (IH d1 t Hd1) as (d' & A' & Hd' & Hh' & P'); [now rewrite P1|]. exists d'. split; [exact A'|]. split; [exact Hd'|].
    split; [now apply same_head_trans with d1|]. now rewrite P', P1.
Qed.

(** ** Dictionaries that survive *)
Definition dict_normal (t : rtree ostr) : Prop :=
  (forall k v, rt_get t k = Ok (Some v) -> exists s, v = Some s) /\ (tlen t = 0 -> forall k, rt_get t k = Ok None).
Definition mdict_normal (t : mtree ostr) : Prop :=
  (forall k l, mt_get t k = Ok (Some l) -> Forall (fun v => exists s, v = MV (Some s)) l /\ l <> []) /\ (mlen t = 0%Z -> forall k, mt_get t k = Ok None).
Lemma lang_back t : wft t -> dict_normal t ->
  exists l t', langpack_trees t = Ok (match l with None => [] | Some l => [dict_tree (dtag KLang) (detag KLang) (dkey KLang) (dval_ KLang) l] end) /\
    rt_sets rt_create (map (fun kv => (fst kv, Some (snd kv))) (match l with None => [] | Some l => l end)) = Ok t' /\ forall k, rt_get t' k = rt_get t k.
Proof.
  intros Hw (Hs & Hz). unfold langpack_trees. destruct (tlen t =? 0) eqn:E.
  { apply Nat.eqb_eq in E. exists None, rt_create. split; [reflexivity|]. split; [reflexivity|]. intros k. rewrite (Hz E), rt_get_look. cbn [rt_create troot]. now rewrite look_empty. }
  destruct (entries_again t Hw) as (l & t' & El & Hin & Es & Hg). rewrite El. cbn [bind].
  exists (Some (map (fun kv => (fst kv, str_tostr (snd kv))) l)), t'. split; [reflexivity|]. split; [|exact Hg].
  rewrite map_map. cbn [fst snd]. transitivity (rt_sets rt_create l); [|exact Es]. f_equal. transitivity (map (fun kv => kv) l); [|apply map_id]. apply map_ext_in. intros [k v] H. apply Hin in H. destruct (Hs k v H) as (s & ->). reflexivity.
Qed.
Lemma texts_flat ps : (forall k l, In (k, l) ps -> Forall (fun v => exists s, v = MV (Some s)) l) ->
  exists ts, mpairs_texts ps = Ok ts /\ map some_val ts = flat_map (fun kl => map (fun v => (fst kl, v)) (mflat (snd kl))) ps.
Proof.
  induction ps as [|[k l] ps IH]; intros H; cbn [mpairs_texts flat_map]; [now exists []|].
  destruct IH as (ts & E & Em); [intros k' l' Hi; apply (H k'); now right|].
  assert (Hl : exists ss, map_r mval_tostr l = Ok ss /\ mflat l = map Some ss).
  { pose proof (H k l (or_introl eq_refl)) as F. clear -F. induction F as [|v l (s & ->) _ (ss & E & Em)]; [now exists []|].
    exists (s :: ss). cbn [map_r mval_tostr bind str_tostr]. rewrite E. split; [reflexivity|]. cbn [map]. rewrite <- Em. reflexivity. }
  destruct Hl as (ss & Es & Ef). rewrite Es. cbn [bind]. rewrite E. cbn [bind]. eexists. split; [reflexivity|].
  rewrite map_app, map_map, Em. f_equal. cbn [fst snd]. rewrite Ef, map_map. reflexivity.
Qed.
Lemma values_of_map {V} (k k' : str) (vs : list V) : values_of (map (fun v => (k, v)) vs) k' = if streq k k' then vs else [].
Proof.
  unfold values_of. induction vs as [|v vs IH]; cbn [map filter fst]; [now destruct (streq k k')|]. destruct (streq k k'); cbn [map snd]; [now rewrite IH|exact IH].
Qed.
Lemma values_of_flat {V} (ps : list (str * list (mval V))) k : NoDup (map fst ps) ->
  (forall l, In (k, l) ps -> values_of (flat_map (fun kl => map (fun v => (fst kl, v)) (mflat (snd kl))) ps) k = mflat l) /\
  (~ In k (map fst ps) -> values_of (flat_map (fun kl => map (fun v => (fst kl, v)) (mflat (snd kl))) ps) k = []).
Proof.
  induction ps as [|[k' l'] ps IH]; intros Hnd; cbn [map fst flat_map snd] in *.
  - split; [intros l []|intros _; reflexivity].
  - inversion Hnd as [|x y Hx Hy]; subst. destruct (IH Hy) as [IH1 IH2]. rewrite values_of_app, values_of_map. split.
    + intros l [E|Hi].
      * apply pair_equal_spec in E. destruct E as [<- <-]. rewrite streq_refl, IH2, app_nil_r by exact Hx. reflexivity.
      * destruct (streq k' k) eqn:E; [|now apply IH1]. apply streq_iff in E. subst k'. elim Hx. apply in_map_iff. now exists (k, l).
    + intros Hn. destruct (streq k' k) eqn:E; [|apply IH2; intros H; apply Hn; now right]. apply streq_iff in E. subst k'. elim Hn. now left.
Qed.
(** Two keys that part inside the tree part at a node. *)
Lemma common_part q : forall p (a b : ascii) ra rb ta tb, a <> b -> p ++ a :: ra = q ++ ta -> p ++ b :: rb = q ++ tb -> exists p', p = q ++ p'.
Proof.
  induction q as [|c q IH]; intros p a b ra rb ta tb Hab E1 E2; [now exists p|]. destruct p as [|c' p]; cbn [app] in *; [congruence|].
  injection E1 as -> E1. injection E2 as E2. destruct (IH p a b ra rb ta tb Hab E1 E2) as (p' & ->). now exists p'.
Qed.
Lemma branch_listed {V} (h : hsl (node (list (mval V)))) : wff h -> full h -> forall p a ra b rb, look h (p ++ a :: ra) <> None -> look h (p ++ b :: rb) <> None ->
  a <> b -> p <> [] -> look h p <> None.
Proof.
  intros Hw. induction Hw as [h Hs Hnd Hk Hsub IH]. intros Hf p a ra b rb H1 H2 Hab Hp.
  assert (Hw : wff h) by now constructor. destruct p as [|c p]; [congruence|]. cbn [app] in H1, H2. rewrite (look_cons h c) in H1 by exact Hw. rewrite (look_cons h c) in H2 by exact Hw.
  rewrite (look_cons h c) by exact Hw. destruct (pick c (hitems h)) as [n|] eqn:En; [|congruence].
  assert (Hin : In n (hitems h)) by (unfold pick in En; now apply find_some in En).
  unfold nlook in H1, H2. destruct (strip (nkey n) (c :: p ++ a :: ra)) as [ta|] eqn:E1; [|congruence]. destruct (strip (nkey n) (c :: p ++ b :: rb)) as [tb|] eqn:E2; [|congruence].
  apply strip_some in E1, E2. change (c :: p ++ a :: ra) with ((c :: p) ++ a :: ra) in E1. change (c :: p ++ b :: rb) with ((c :: p) ++ b :: rb) in E2.
  destruct (common_part _ _ _ _ _ _ _ _ Hab E1 E2) as (p' & Ep). rewrite Ep in *. rewrite <- app_assoc in E1, E2. apply app_inv_head in E1, E2. subst ta tb.
  rewrite nlook_app. destruct p' as [|c' p']; [eapply full_data; eauto|].
  apply (IH n Hin (full_sub _ _ Hf Hin) (c' :: p') a ra b rb); [exact H1|exact H2|exact Hab|discriminate].
Qed.
Definition flat_pairs {V} (ps : list (str * list (mval V))) : list (str * V) := flat_map (fun kl => map (fun v => (fst kl, v)) (mflat (snd kl))) ps.
Lemma flat_split {V} (ps : list (str * list (mval V))) : forall l1 k v l2, flat_pairs ps = l1 ++ (k, v) :: l2 ->
  exists p1 l p2, ps = p1 ++ (k, l) :: p2 /\ incl (map fst l1) (map fst p1 ++ [k]) /\ incl (map fst (flat_pairs p1)) (map fst l1).
Proof.
  induction ps as [|[k' l'] ps IH]; intros l1 k v l2 E; [destruct l1; discriminate|].
  unfold flat_pairs in E. cbn [flat_map fst snd] in E. fold (flat_pairs ps) in E.
  destruct (le_lt_dec (length (map (fun v => (k', v)) (mflat l'))) (length l1)) as [Hle|Hlt].
  - assert (E1 : exists m, l1 = map (fun v => (k', v)) (mflat l') ++ m /\ flat_pairs ps = m ++ (k, v) :: l2).
    { revert l1 E Hle. induction (map (fun v => (k', v)) (mflat l')) as [|x xs IHx]; intros l1 E Hle; cbn [app length] in *; [now exists l1|].
      destruct l1 as [|y l1]; cbn [app length] in *; [lia|]. injection E as -> E. destruct (IHx l1 E) as (m & -> & Em); [lia|]. now exists m. }
    destruct E1 as (m & -> & Em). destruct (IH m k v l2 Em) as (p1 & l & p2 & -> & H1 & H2). exists ((k', l') :: p1), l, p2. split; [reflexivity|].
    split; intros x Hx.
    + rewrite map_app in Hx. apply in_app_or in Hx. cbn [map fst app]. destruct Hx as [Hx|Hx]; [|right; apply H1, Hx]. left.
      apply in_map_iff in Hx. destruct Hx as ([y w] & <- & Hx). apply in_map_iff in Hx. destruct Hx as (u & Eu & _). apply pair_equal_spec in Eu. now destruct Eu as [<- _].
    + unfold flat_pairs in Hx. cbn [flat_map fst snd] in Hx. fold (flat_pairs p1) in Hx. rewrite map_app in *. apply in_or_app. apply in_app_or in Hx. destruct Hx as [Hx|Hx]; [now left|right; apply H2, Hx].
  - assert (E1 : forall x, In x (l1 ++ [(k, v)]) -> fst x = k').
    { assert (Hall : forall x, In x (map (fun v => (k', v)) (mflat l')) -> fst x = k') by (intros x Hx; apply in_map_iff in Hx; destruct Hx as (u & <- & _); reflexivity).
      revert l1 E Hlt. induction (map (fun v => (k', v)) (mflat l')) as [|y xs IHx]; intros l1 E Hlt x Hx; cbn [app length] in *; [lia|].
      destruct l1 as [|z l1]; cbn [app length] in *.
      - injection E as E _. destruct Hx as [<-|[]]. rewrite <- E. apply Hall. now left.
      - injection E as -> E. destruct Hx as [<-|Hx]; [apply Hall; now left|]. refine (IHx _ l1 E _ x Hx); [|lia]. intros q Hq. apply Hall. now right. }
    assert (Ek : k = k') by (apply (E1 (k, v)), in_or_app; right; now left). subst k'.
    exists [], l', ps. split; [reflexivity|]. split; intros x Hx; [|destruct Hx]. apply in_map_iff in Hx. destruct Hx as (q & <- & Hq). left. symmetry. apply E1, in_or_app. now left.
Qed.
Lemma pairs_no_branching {V} (t : mtree V) ps : minv t -> mt_pairs t = Ok ps -> (forall k l, mt_get t k = Ok (Some l) -> mflat l <> []) -> no_branching (flat_pairs ps).
Proof.
  intros (Hw & _ & Hf) Ep Hne l1 k v l2 s p a ra b rb E Hs -> -> Hab Hp.
  unfold mt_pairs in Ep. rewrite rt_pairs_ents in Ep. cbn [troot rmap] in Ep. injection Ep as Ep.
  assert (Hsorted : StronglySorted pre_ok ps) by (rewrite <- Ep; now apply ents_sorted).
  assert (Hin : forall k, In k (map fst ps) <-> look (mroot t) k <> None).
  { intros q. rewrite in_map_iff. split.
    - intros ([q' l] & <- & H). rewrite <- Ep in H. apply (ents_look _ _ _ Hw) in H. cbn [fst]. congruence.
    - intros H. destruct (look (mroot t) q) as [l|] eqn:El; [|congruence]. exists (q, l). split; [reflexivity|]. rewrite <- Ep. now apply (ents_look _ _ _ Hw). }
  destruct (flat_split ps _ _ _ _ E) as (p1 & l & p2 & Eps & H1 & H2).
  assert (Hk : look (mroot t) (p ++ b :: rb) <> None) by (apply Hin; rewrite Eps, map_app; apply in_or_app; right; now left).
  apply H1 in Hs. apply in_app_or in Hs. destruct Hs as [Hs|[Hs|[]]]; [|apply app_inv_head in Hs; congruence].
  assert (Hk' : look (mroot t) (p ++ a :: ra) <> None) by (apply Hin; rewrite Eps, map_app; apply in_or_app; now left).
  pose proof (branch_listed _ Hw Hf p a ra b rb Hk' Hk Hab Hp) as Hlist. apply Hin in Hlist. rewrite Eps, map_app in Hlist. apply in_app_or in Hlist.
  destruct Hlist as [Hl|Hl].
  - apply H2. apply in_map_iff in Hl. destruct Hl as ([q lq] & <- & Hl). cbn [fst] in *.
    assert (Hfl : mflat lq <> []).
    { apply (Hne q). rewrite mt_get_mlook. unfold mlook. f_equal. apply (ents_look _ _ _ Hw). rewrite Ep, Eps. apply in_or_app. now left. }
    destruct (mflat lq) as [|v0 vs] eqn:Ev; [congruence|]. apply in_map_iff. exists (q, v0). split; [reflexivity|]. apply in_flat_map. exists (q, lq). split; [exact Hl|].
    cbn [fst snd]. rewrite Ev. now left.
  - exfalso. apply in_map_iff in Hs. destruct Hs as ([s ls] & Es & Hs). cbn [fst] in Es. subst s.
    apply in_map_iff in Hl. destruct Hl as ([q lq] & Eq & Hl). cbn [fst] in Eq. subst q.
    rewrite Eps in Hsorted. clear -Hsorted Hs Hl. induction p1 as [|x p1 IH]; [contradiction|]. cbn [app] in Hsorted. inversion Hsorted as [|? ? Hss Hall]; subst.
    destruct Hs as [->|Hs]; [|now apply IH]. rewrite Forall_forall in Hall. apply (Hall (p, lq)); [apply in_or_app; now right|]. cbn [fst]. now exists a, ra.
Qed.
Lemma mdict_back tag etag ka va t : mreach t -> mdict_normal t ->
  exists l t', mdict_trees tag etag ka va t = Ok (match l with None => [] | Some l => [dict_tree tag etag ka va l] end) /\
    mt_sets mt_create (map some_val (match l with None => [] | Some l => l end)) = Ok t' /\ forall k, mt_get t' k = mt_get t k.
Proof.
  intros Hr (Hs & Hz). unfold mdict_trees. destruct (mlen t =? 0)%Z eqn:E.
  { apply Z.eqb_eq in E. exists None, mt_create. split; [reflexivity|]. split; [reflexivity|]. intros k. rewrite (Hz E), mt_get_mlook. unfold mlook, mt_create. cbn [mroot]. now rewrite look_empty. }
  destruct (md_enum t Hr) as (ps & Ep & Hnd & Hin & _). rewrite Ep. cbn [bind].
  destruct (texts_flat ps) as (ts & Et & Em); [intros k l H; apply (Hs k), Hin, H|]. rewrite Et. cbn [bind]. fold (flat_pairs ps) in Em.
  assert (Hne : nonempty_keys (map some_val ts)).
  { rewrite Em. intros k v H. apply in_flat_map in H. destruct H as ([k' l] & H & Hv). cbn [fst snd] in *. apply in_map_iff in Hv.
    destruct Hv as (v' & Ev & _). apply pair_equal_spec in Ev. destruct Ev as [<- _]. intros ->. apply Hin in H. discriminate. }
  assert (Hflat : forall k l, mt_get t k = Ok (Some l) -> l = map MV (mflat l) /\ mflat l <> []).
  { intros k l H. destruct (Hs k l H) as [Hf Hn]. clear -Hf Hn.
    assert (E : l = map MV (mflat l)) by (clear Hn; induction Hf as [|v l (s & ->) _ IH]; [reflexivity|]; cbn; f_equal; exact IH).
    split; [exact E|]. intros F. rewrite F in E. contradiction. }
  assert (Hnb : no_branching (map some_val ts)).
  { rewrite Em. apply (pairs_no_branching t ps (mreach_minv _ Hr) Ep). intros k l H. now apply (Hflat k). }
  destruct (md_get_exact (map some_val ts) Hne Hnb) as (t' & Es & Hg).
  exists (Some ts), t'. split; [reflexivity|]. split; [exact Es|]. intros k. rewrite Hg, Em.
  destruct (values_of_flat ps k Hnd) as [H1 H2].
  destruct (in_dec (list_eq_dec Ascii.ascii_dec) k (map fst ps)) as [Hi|Hi].
  - apply in_map_iff in Hi. destruct Hi as ([k' l] & <- & Hi). cbn [fst] in *.
    match goal with |- context [match ?v with [] => _ | _ => _ end] => assert (Hv : v = mflat l) by exact (H1 l Hi); rewrite Hv end. apply Hin in Hi. rewrite Hi.
    destruct (Hflat _ _ Hi) as [Hl Hn]. revert Hl Hn. generalize (mflat l) as vs. intros vs Hl Hn. destruct vs; [congruence|]. now rewrite Hl.
  - match goal with |- context [match ?v with [] => _ | _ => _ end] => assert (Hv : v = []) by exact (H2 Hi); rewrite Hv end.
    destruct (mt_get t k) as [[l|]| |] eqn:Eg; [apply Hin in Eg; elim Hi; apply in_map_iff; now exists (k, l)|reflexivity| |]; rewrite mt_get_mlook in Eg; discriminate.
Qed.
End Dicts.

(** ** Lists of objects *)
Section Docs.
Variables (dt : option (ostr * ostr * ostr)) (en : ostr) (op : dopts).
Notation at_ := (at_ dt en op).
Lemma no_attr_app l cs : no_attr cs -> no_attr (sers l ++ cs).
Proof. destruct l as [|[n a b|s] l]; intros H; [exact H|exact I|exact I]. Qed.
Lemma play_groups o gs : forall ts ed sk nm cs d, Forall (fun g => group_left_out o g \/ group_normal o g) gs -> map_r (group_tree o op) gs = Ok ts ->
  el_type ed = TDoc -> el_valid ed = true -> pdoc d ->
  exists d' gs', plays (at_ (ed :: sk) (PLive d)) nm (sers (trees_of ts) ++ cs) (at_ (ed :: sk) (PLive d')) nm cs /\
    pdoc d' /\ same_head d d' /\ doc_parts d' = with_groups (doc_parts d) (pt_groups (doc_parts d) ++ gs') /\
    Forall2 (group_kept op o) (filter (fun g => negb (group_left_outb o g)) gs) gs'.
Proof.
  induction gs as [|g gs IH]; intros ts ed sk nm cs d Hn E Et Ev Hd; cbn [map_r] in E.
  - injection E as <-. exists d, []. split; [apply plays_refl|]. split; [exact Hd|]. split; [apply same_head_refl|]. split; [rewrite app_nil_r; now apply groups_id|constructor].
  - apply bind_ok in E. destruct E as (y & Ey & E). apply bind_ok in E. destruct E as (ys & Eys & E). injection E as <-.
    apply Forall_cons_iff in Hn. destruct Hn as [Hg Hn]. cbn [filter]. destruct (group_out o op g y Ey) as [(Ho & v & -> & _)|(Ho & t & ->)].
    + assert (Hf : group_left_outb o g = true) by now apply group_left_outb_iff. rewrite Hf. cbn [negb]. exact (IH ys ed sk nm cs d Hn Eys Et Ev Hd).
    + assert (Hf : group_left_outb o g = false) by (destruct (group_left_outb o g) eqn:Hf; [apply group_left_outb_iff in Hf; contradiction|reflexivity]).
      rewrite Hf. cbn [negb]. destruct Hg as [Hg|Hg]; [contradiction|].
      destruct (play_group dt en op o g ed sk nm (sers (trees_of ys) ++ cs) d Hg Ho Et Ev Hd) as (t' & d1 & g' & Et' & Q1 & Hd1 & Hh1 & P1 & K1).
      assert (t' = t) by congruence. subst t'.
      destruct (IH ys ed sk nm cs d1 Hn Eys Et Ev Hd1) as (d2 & gs' & Q2 & Hd2 & Hh2 & P2 & K2).
      exists d2, (g' :: gs'). split; [|split; [exact Hd2|split; [now apply same_head_trans with d1|split; [|now constructor]]]].
      * cbn [trees_of flat_map app sers]. rewrite <- app_assoc. eapply plays_trans; [exact Q1|exact Q2].
      * rewrite P2, P1. cbn [with_groups pt_groups]. now rewrite <- app_assoc.
Qed.
Lemma play_cats o gs : forall ts ed sk nm cs d, Forall (fun g => cat_left_out o g \/ cat_normal o g) gs -> map_r (category_tree o) gs = Ok ts ->
  el_type ed = TDoc -> el_valid ed = true -> pdoc d ->
  exists d' gs', plays (at_ (ed :: sk) (PLive d)) nm (sers (trees_of ts) ++ cs) (at_ (ed :: sk) (PLive d')) nm cs /\
    pdoc d' /\ same_head d d' /\ doc_parts d' = with_cats (doc_parts d) (pt_cats (doc_parts d) ++ gs') /\
    Forall2 (cat_kept o) (filter (fun g => negb (cat_left_outb o g)) gs) gs'.
Proof.
  induction gs as [|g gs IH]; intros ts ed sk nm cs d Hn E Et Ev Hd; cbn [map_r] in E.
  - injection E as <-. exists d, []. split; [apply plays_refl|]. split; [exact Hd|]. split; [apply same_head_refl|]. split; [rewrite app_nil_r; now apply cats_id|constructor].
  - apply bind_ok in E. destruct E as (y & Ey & E). apply bind_ok in E. destruct E as (ys & Eys & E). injection E as <-.
    apply Forall_cons_iff in Hn. destruct Hn as [Hg Hn]. cbn [filter]. destruct (cat_out o g y Ey) as [(Ho & v & -> & _)|(Ho & t & ->)].
    + assert (Hf : cat_left_outb o g = true) by now apply cat_left_outb_iff. rewrite Hf. cbn [negb]. exact (IH ys ed sk nm cs d Hn Eys Et Ev Hd).
    + assert (Hf : cat_left_outb o g = false) by (destruct (cat_left_outb o g) eqn:Hf; [apply cat_left_outb_iff in Hf; contradiction|reflexivity]).
      rewrite Hf. cbn [negb]. destruct Hg as [Hg|Hg]; [contradiction|].
      destruct (play_cat dt en op o g ed sk nm (sers (trees_of ys) ++ cs) d Hg Ho Et Ev Hd) as (t' & d1 & g' & Et' & Q1 & Hd1 & Hh1 & P1 & K1).
      assert (t' = t) by congruence. subst t'.
      destruct (IH ys ed sk nm cs d1 Hn Eys Et Ev Hd1) as (d2 & gs' & Q2 & Hd2 & Hh2 & P2 & K2).
      exists d2, (g' :: gs'). split; [|split; [exact Hd2|split; [now apply same_head_trans with d1|split; [|now constructor]]]].
      * cbn [trees_of flat_map app sers]. rewrite <- app_assoc. eapply plays_trans; [exact Q1|exact Q2].
      * rewrite P2, P1. cbn [with_cats pt_cats]. now rewrite <- app_assoc.
Qed.
Lemma play_envs o gs : forall ts ed sk nm cs d, Forall (fun g => env_left_out o g \/ env_normal o g) gs -> map_r (env_tree o) gs = Ok ts ->
  el_type ed = TDoc -> el_valid ed = true -> pdoc d ->
  exists d' gs', plays (at_ (ed :: sk) (PLive d)) nm (sers (trees_of ts) ++ cs) (at_ (ed :: sk) (PLive d')) nm cs /\
    pdoc d' /\ same_head d d' /\ doc_parts d' = with_envs (doc_parts d) (pt_envs (doc_parts d) ++ gs') /\
    Forall2 (env_kept o) (filter (fun g => negb (env_left_outb o g)) gs) gs'.
Proof.
  induction gs as [|g gs IH]; intros ts ed sk nm cs d Hn E Et Ev Hd; cbn [map_r] in E.
  - injection E as <-. exists d, []. split; [apply plays_refl|]. split; [exact Hd|]. split; [apply same_head_refl|]. split; [rewrite app_nil_r; now apply envs_id|constructor].
  - apply bind_ok in E. destruct E as (y & Ey & E). apply bind_ok in E. destruct E as (ys & Eys & E). injection E as <-.
    apply Forall_cons_iff in Hn. destruct Hn as [Hg Hn]. cbn [filter]. destruct (env_out o g y Ey) as [(Ho & v & -> & _)|(Ho & t & ->)].
    + assert (Hf : env_left_outb o g = true) by now apply env_left_outb_iff. rewrite Hf. cbn [negb]. exact (IH ys ed sk nm cs d Hn Eys Et Ev Hd).
    + assert (Hf : env_left_outb o g = false) by (destruct (env_left_outb o g) eqn:Hf; [apply env_left_outb_iff in Hf; contradiction|reflexivity]).
      rewrite Hf. cbn [negb]. destruct Hg as [Hg|Hg]; [contradiction|].
      destruct (play_env dt en op o g ed sk nm (sers (trees_of ys) ++ cs) d Hg Ho Et Ev Hd) as (t' & d1 & g' & Et' & Q1 & Hd1 & Hh1 & P1 & K1).
      assert (t' = t) by congruence. subst t'.
      destruct (IH ys ed sk nm cs d1 Hn Eys Et Ev Hd1) as (d2 & gs' & Q2 & Hd2 & Hh2 & P2 & K2).
      exists d2, (g' :: gs'). split; [|split; [exact Hd2|split; [now apply same_head_trans with d1|split; [|now constructor]]]].
      * cbn [trees_of flat_map app sers]. rewrite <- app_assoc. eapply plays_trans; [exact Q1|exact Q2].
      * rewrite P2, P1. cbn [with_envs pt_envs]. now rewrite <- app_assoc.
Qed.

(** ** Documents *)
Definition parts_normal (o : xopts) (p : parts) : Prop :=
  Forall (fun g => group_left_out o g \/ group_normal o g) (pt_groups p) /\ Forall (fun g => cat_left_out o g \/ cat_normal o g) (pt_cats p) /\
  Forall (fun g => env_left_out o g \/ env_normal o g) (pt_envs p) /\ dict_normal (pt_langpacks p) /\ mdict_normal (pt_blacklist p) /\ mdict_normal (pt_whiteout p).
Definition parts_kept (o : xopts) (p p' : parts) : Prop :=
  Forall2 (group_kept op o) (filter (fun g => negb (group_left_outb o g)) (pt_groups p)) (pt_groups p') /\
  Forall2 (cat_kept o) (filter (fun g => negb (cat_left_outb o g)) (pt_cats p)) (pt_cats p') /\
  Forall2 (env_kept o) (filter (fun g => negb (env_left_outb o g)) (pt_envs p)) (pt_envs p') /\
  (forall k, rt_get (pt_langpacks p') k = rt_get (pt_langpacks p) k) /\
  (forall k, mt_get (pt_blacklist p') k = mt_get (pt_blacklist p) k) /\
  (forall k, mt_get (pt_whiteout p') k = mt_get (pt_whiteout p) k).
Definition dict_opt w (l : option (list (str * str))) : list xml :=
  match l with None => [] | Some l => [dict_tree (dtag w) (detag w) (dkey w) (dval_ w) l] end.
Definition opt_list {A} (l : option (list A)) : list A := match l with None => [] | Some l => l end.
Lemma play_dicts w l ed sk nm cs d d' : el_type ed = TDoc -> el_valid ed = true -> dadds w d (opt_list l) = Ok d' ->
  plays (at_ (ed :: sk) (PLive d)) nm (sers (dict_opt w l) ++ cs) (at_ (ed :: sk) (PLive d')) nm cs.
Proof.
  intros Et Ev E. destruct l as [l|]; cbn [opt_list dict_opt] in *.
  - cbn [sers flat_map]. rewrite app_nil_r. now apply play_dict.
  - cbn [dadds] in E. injection E as <-. apply plays_refl.
Qed.
Lemma play_doc o d0 x cs p : docwf d0 -> parts_normal o (doc_parts d0) -> doc_tree o op d0 = Ok x ->
  exists d', plays (at_ [] p) [] (ser (fst x) ++ cs) (at_ [] (PLive d')) [] cs /\ pdoc d' /\ d_enc d' = Some en /\ parts_kept o (doc_parts d0) (doc_parts d').
Proof.
  intros Hwf (Hg & Hc & He & Hl & Hb & Hw) E. unfold doc_tree in E.
  destruct (parts_wf d0 Hwf) as (_ & _ & _ & Rl & Rb & Rw).
  destruct (doc_groups_ok d0 Hwf) as (e1 & G1 & W1 & _ & P1). rewrite G1 in E. cbn [bind fst snd] in E.
  apply bind_ok in E. destruct E as (gs & Egs & E).
  destruct (doc_cats_ok e1 W1) as (e2 & G2 & W2 & _ & P2). rewrite G2 in E. cbn [bind fst snd] in E. rewrite P1 in E, P2.
  apply bind_ok in E. destruct E as (cts & Ects & E).
  destruct (doc_envs_ok e2 W2) as (e3 & G3 & W3 & _ & P3). rewrite G3 in E. cbn [bind fst snd] in E. rewrite P2 in E, P3.
  apply bind_ok in E. destruct E as (es & Ees & E).
  destruct (doc_langpacks_ok e3 W3) as (e4 & G4 & W4 & _ & P4). rewrite G4 in E. cbn [bind fst snd] in E. rewrite P3 in E, P4.
  destruct (lang_back _ (reach_wft _ _ Rl) Hl) as (ll & lt & El & Sl & Kl). rewrite El in E. cbn [bind] in E.
  destruct (doc_blacklist_ok e4 W4) as (e5 & G5 & W5 & _ & P5). rewrite G5 in E. cbn [bind fst snd] in E. rewrite P4 in E, P5.
  destruct (mdict_back (S_ "blacklist") (S_ "package") (S_ "name") (S_ "arch") _ Rb Hb) as (bl & bt & Eb & Sb & Kb). rewrite Eb in E. cbn [bind] in E.
  destruct (doc_whiteout_ok e5 W5) as (e6 & G6 & W6 & _ & P6). rewrite G6 in E. cbn [bind fst snd] in E. rewrite P5 in E, P6.
  destruct (mdict_back (S_ "whiteout") (S_ "ignoredep") (S_ "requires") (S_ "package") _ Rw Hw) as (wl & wt & Ew & Sw & Kw). rewrite Ew in E. cbn [bind] in E.
  injection E as <-. cbn [fst].
  destruct (no_attrs TDoc) as (dict & Ea & Ec & _). set (ed := mkElem TDoc true dict).
  destruct (doc_create_ok en) as (d & Ed & Hd & Pd & Hen & _).
  fold (dict_opt KLang ll). change (match bl with Some l => _ | None => _ end) with (dict_opt KBlack bl). change (match wl with Some l => _ | None => _ end) with (dict_opt KWhite wl).
  fold (opt_list ll) in Sl. fold (opt_list bl) in Sb. fold (opt_list wl) in Sw.
  set (nm := [S_ "comps"]). set (tl := WEnd :: cs).
  set (c6 := sers (dict_opt KWhite wl) ++ tl). set (c5 := sers (dict_opt KBlack bl) ++ c6). set (c4 := sers (dict_opt KLang ll) ++ c5).
  set (c3 := sers (trees_of es) ++ c4). set (c2 := sers (trees_of cts) ++ c3).
  destruct (play_groups o _ gs ed [] nm c2 d Hg Egs eq_refl eq_refl Hd) as (d1 & gs' & Q1 & D1 & H1 & R1 & K1).
  destruct (play_cats o _ cts ed [] nm c3 d1 Hc Ects eq_refl eq_refl D1) as (d2 & cs' & Q2 & D2 & H2 & R2 & K2).
  destruct (play_envs o _ es ed [] nm c4 d2 He Ees eq_refl eq_refl D2) as (d3 & es' & Q3 & D3 & H3 & R3 & K3).
  rewrite Pd in R1. rewrite R1 in R2. rewrite R2 in R3. cbn [no_parts with_groups with_cats with_envs pt_groups pt_cats pt_envs pt_langpacks pt_blacklist pt_whiteout app] in R3.
  destruct (adds_lang (opt_list ll) d3 lt D3) as (d4 & A4 & D4 & H4 & R4); [rewrite R3; exact Sl|].
  destruct (adds_black (opt_list bl) d4 bt D4) as (d5 & A5 & D5 & H5 & R5); [rewrite R4, R3; exact Sb|].
  destruct (adds_white (opt_list wl) d5 wt D5) as (d6 & A6 & D6 & H6 & R6); [rewrite R5, R4, R3; exact Sw|].
  exists d6. split; [|split; [exact D6|split]].
  - rewrite ser_elem. unfold sers. rewrite !flat_map_app, <- !app_assoc.
    eapply plays_trans; [apply plays_start with (a := []) (dict := dict) (p1 := PLive d)|].
    + change (no_attr (sers (trees_of gs) ++ c2)). clear. unfold c2, c3, c4, c5, c6, tl.
      repeat apply no_attr_app. exact I.
    + exact Ea.
    + exact Ec.
    + reflexivity.
    + gtype. unfold preproc. cbn [el_type]. rewrite Ed. reflexivity.
    + eapply plays_trans; [exact Q1|]. eapply plays_trans; [exact Q2|]. eapply plays_trans; [exact Q3|].
      eapply plays_trans; [apply (play_dicts KLang ll ed [] nm c5 d3 d4 eq_refl eq_refl A4)|].
      eapply plays_trans; [apply (play_dicts KBlack bl ed [] nm c6 d4 d5 eq_refl eq_refl A5)|].
      eapply plays_trans; [apply (play_dicts KWhite wl ed [] nm tl d5 d6 eq_refl eq_refl A6)|].
      apply plays_end; reflexivity.
  - assert (Hh : same_head d d6) by (repeat (eapply same_head_trans; [eassumption|]); apply same_head_refl). destruct Hh as [-> _]. exact Hen.
  - rewrite R6, R5, R4, R3. unfold parts_kept. cbn [with_langpacks with_blacklist with_whiteout pt_groups pt_cats pt_envs pt_langpacks pt_blacklist pt_whiteout].
    split; [exact K1|]. split; [exact K2|]. split; [exact K3|]. split; [exact Kl|]. split; [exact Kb|exact Kw].
Qed.
End Docs.

(** ** Files *)
Lemma heard_none es : heard [] [] es -> exists bl, es = map EChars bl /\ blanks bl.
Proof.
  intros H. remember (@nil call) as c eqn:Ec. remember (@nil str) as o eqn:Eo. revert Ec Eo. induction H; intros Ec Eo; try discriminate.
  - exists []. split; [reflexivity|constructor].
  - destruct (IHheard Ec Eo) as (bl & -> & Hb). exists (s :: bl). split; [reflexivity|now constructor].
Qed.
Lemma heard_enddoc es : heard [] [WEndDoc] es -> exists bl, es = map EChars bl /\ blanks bl.
Proof.
  intros H. remember [WEndDoc] as c eqn:Ec. remember (@nil str) as o eqn:Eo. revert Ec Eo. induction H; intros Ec Eo; try discriminate.
  - destruct (IHheard Ec Eo) as (bl & -> & Hb). exists (s :: bl). split; [reflexivity|now constructor].
  - injection Ec as ->. now apply heard_none.
Qed.
Lemma heard_dtd1 n p s cs es : heard [] (dtd_calls n p s ++ cs) es -> exists bl es', es = map EChars bl ++ EDoctype n s p :: es' /\ blanks bl /\ heard [] cs es'.
Proof.
  intros H. unfold dtd_calls in H. cbn [app] in H. remember (WDTD n p s :: WEndDTD :: cs) as c eqn:Ec. remember (@nil str) as o eqn:Eo. revert Ec Eo.
  induction H; intros Ec Eo; try discriminate.
  - destruct (IHheard Ec Eo) as (bl & es' & -> & Hb & He). exists (s0 :: bl), es'. split; [reflexivity|]. split; [now constructor|exact He].
  - injection Ec as -> -> -> ->. exists [], es. split; [reflexivity|]. split; [constructor|assumption].
Qed.
Lemma heard_dtd e n p s cs es : heard [] (WStartDoc e :: dtd_calls n p s ++ cs) es ->
  exists bl es', es = map EChars bl ++ EDoctype n s p :: es' /\ blanks bl /\ heard [] cs es'.
Proof.
  intros H. remember (WStartDoc e :: dtd_calls n p s ++ cs) as c eqn:Ec. remember (@nil str) as o eqn:Eo. revert Ec Eo. induction H; intros Ec Eo; try discriminate.
  - destruct (IHheard Ec Eo) as (bl & es' & -> & Hb & He). exists (s0 :: bl), es'. split; [reflexivity|]. split; [now constructor|exact He].
  - injection Ec as _ ->. now apply heard_dtd1.
Qed.
Lemma run_doc op o d0 x e n p s es q en : docwf d0 -> parts_normal o (doc_parts d0) -> doc_tree o op d0 = Ok x ->
  heard [] (WStartDoc e :: dtd_calls n p s ++ ser (fst x) ++ [WEndDoc]) es ->
  exists d', run false (mkP [] [] 0 q [] false None en op) es = Ok (mkP [] [] 0 (PLive d') [] false (Some (n, s, p)) en op) /\
    pdoc d' /\ d_enc d' = Some en /\ parts_kept op o (doc_parts d0) (doc_parts d').
Proof.
  intros Hw Hn E H. destruct (heard_dtd _ _ _ _ _ _ H) as (bl & es' & -> & Hb & He).
  destruct (play_doc (Some (n, s, p)) en op o d0 x [WEndDoc] q Hw Hn E) as (d' & Q & Hd & Hen & Hk).
  destruct (Q es' He) as (e1 & e2 & -> & R & H2). destruct (heard_enddoc _ H2) as (bl2 & -> & Hb2).
  exists d'. split; [|auto]. rewrite run_blanks by exact Hb. cbn [run step bind]. unfold doctype_handler, with_doctype.
  cbn [ps_stack ps_text ps_len ps_doc ps_log ps_fatal ps_enc ps_opts]. rewrite run_app.
  match goal with |- bind ?m _ = _ => replace m with (Ok (at_ (Some (n, s, p)) en op [] (PLive d'))) by (symmetry; exact R) end. cbn [bind].
  rewrite <- (app_nil_r (map EChars bl2)), run_blanks by exact Hb2. reflexivity.
Qed.
Lemma run_feeds_clean strict fs : forall st st', Forall (fun f => snd f = None) fs -> run strict st (concat (map fst fs)) = Ok st' -> run_feeds strict st fs = Ok st'.
Proof.
  induction fs as [|[es er] fs IH]; intros st st' Hf E; cbn [run_feeds map fst concat] in *; [exact E|].
  apply Forall_cons_iff in Hf. destruct Hf as [Hn Hf]. cbn [snd] in Hn. subst er. rewrite run_app in E. apply bind_ok in E. destruct E as (s & E1 & E). rewrite E1. cbn [bind]. now apply IH.
Qed.
