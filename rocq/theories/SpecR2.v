(** Reading back whatever was written: the texts of an object. *)
From Coq Require Import NArith Nnat Sorted.
From Verif Require Import CStr CStrFacts HSListModel HSListFacts RTreeModel RTreeFacts RTreeFacts2 RTreeFacts3 RTreeFacts4 MRTreeModel MRTreeFacts MRTreeFacts2
  ObjModel ObjFacts2 Dec StrModel StrFacts DocModel DocFacts2 SpecA SpecB SpecD SpecE ParseModel ParseFacts SpecF SpecF2 SpecF3 SpecF4 XmlModel XmlFacts SpecG SpecG2 SpecG3 SpecG4 SpecG5
  SpecG7 TextFacts5 SpecR.

Section Rows.
Context {RD : reader}.
Variables (dt : option (ostr * ostr * ostr)) (en : ostr) (op : dopts).
Notation plays2 := (plays2 dt en op).
Notation turns := (turns dt en op).

(** Reading the elements [ts] inside an object turns its dictionaries from [b]
    into [b'], with the complaints [es]. *)
Definition turns2 (w : owner) (ts : list xml) (b b' : base) (es : list pentry) : Prop :=
  forall F eo sk nm cs d, focus w F -> el_type eo = otype w -> el_valid eo = true -> pdoc d -> doc_parts d = F b ->
    exists d', plays2 (eo :: sk) (PLive d) nm (sers ts ++ cs) (eo :: sk) (PLive d') nm cs es /\ pdoc d' /\ same_head d d' /\ doc_parts d' = F b'.
Lemma turns2_of w ts b b' : turns w ts b b' -> turns2 w ts b b' [].
Proof. intros H F eo sk nm cs d Hf Et Ev Hd E. destruct (H F eo sk nm cs d Hf Et Ev Hd E) as (d' & P & H'). exists d'. split; [exact P|exact H']. Qed.
Lemma turns2_nil w b : turns2 w [] b b [].
Proof. apply turns2_of, turns_nil. Qed.
Lemma turns2_app w t1 t2 a b c e1 e2 : turns2 w t1 a b e1 -> turns2 w t2 b c e2 -> turns2 w (t1 ++ t2) a c (e1 ++ e2).
Proof.
  intros H1 H2 F eo sk nm cs d Hf Et Ev Hd E. unfold sers. rewrite flat_map_app, <- app_assoc.
  destruct (H1 F eo sk nm (sers t2 ++ cs) d Hf Et Ev Hd E) as (d1 & P1 & Hd1 & Hh1 & E1).
  destruct (H2 F eo sk nm cs d1 Hf Et Ev Hd1 E1) as (d2 & P2 & Hd2 & Hh2 & E2).
  exists d2. split; [exact (plays2_trans _ _ _ _ _ _ _ _ _ _ _ _ _ _ _ _ _ P1 P2)|]. split; [exact Hd2|]. split; [now apply same_head_trans with d1|exact E2].
Qed.
Lemma turns2_text w n a s b b' dict f es :
  attrs_dict rt_create a = Ok dict -> check_attributes false (get_type n) dict = Ok [] ->
  In (otype w) (ancestors (get_type n)) -> (forall p, preproc op en (mkElem (get_type n) true dict) p = fun q => Ok q) ->
  f b = Ok (b', es) -> pb b' ->
  (forall eo sk d, el_type eo = otype w ->
     postproc op (mkElem (get_type n) true dict) (eo :: sk) (PLive d) (text_of s) = (r <- upd_base w d f ;; Ok (PLive (fst r), snd r, None))) ->
  turns2 w [Elem n a [Text s]] b b' es.
Proof.
  intros Ea Ec Hi Hp Ef Hb Hpost F eo sk nm cs d Hf Et Ev Hd E.
  destruct (upd_base_ok w F d b b' es f Hd Hf E Ef Hb) as (d' & Eu & Hd' & Hh & E').
  exists d'. split; [|auto]. cbn [sers flat_map ser app]. rewrite app_nil_r. cbn [app]. rewrite <- app_assoc. cbn [app].
  change es with ([] ++ es). eapply plays2_trans.
  - apply plays2_of, plays_start with (dict := dict) (p1 := PLive d); [exact I|exact Ea|exact Ec| |now rewrite Hp].
    unfold elem_valid. destruct (ancestors (get_type n)) as [|x l]; [destruct Hi|]. apply existsb_exists. exists (otype w). split; [exact Hi|].
    now rewrite Et, Ev, etype_eqb_refl.
  - apply plays2_text_end; [reflexivity|reflexivity|]. rewrite Hpost by exact Et. rewrite Eu. reflexivity.
Qed.

(** id, name, description without a language. *)
Definition plain_tags : list (str * str) := [(S_ "id", S_ "id"); (S_ "name", S_ "name"); (S_ "description", S_ "desc")].
Lemma plain_any w n k s b : In (n, k) plain_tags -> pb b -> free b k ->
  exists b' es, turns2 w [prop_tree n s] b b' es /\ put b b' k (option_map PStr (told_text s)) /\ (es = [] <-> s <> []).
Proof.
  intros Hin Hb Hf. destruct s as [|c s].
  - exists b, [perr E_NOCONTENT [Some (info_name (get_type n))]]. split; [|split; [now apply put_none|split; [discriminate|congruence]]].
    destruct (no_attrs (get_type n)) as (dict & Ea & Ec & Eg).
    apply turns2_text with (dict := dict) (f := fun b => Ok (b, [perr E_NOCONTENT [Some (info_name (get_type n))]])); auto.
    + unfold plain_tags in Hin. cbn [In] in Hin. destruct Hin as [E'|[E'|[E'|[]]]]; apply pair_equal_spec in E'; destruct E' as [<- <-]; destruct w; vm_compute; tauto.
    + intros p. unfold plain_tags in Hin. cbn [In] in Hin. destruct Hin as [E'|[E'|[E'|[]]]]; apply pair_equal_spec in E'; destruct E' as [<- <-]; reflexivity.
    + intros eo sk d Et. unfold plain_tags in Hin. cbn [In] in Hin.
      destruct Hin as [E'|[E'|[E'|[]]]]; apply pair_equal_spec in E'; destruct E' as [<- <-]; gtype;
      unfold postproc; cbn [el_type el_attrs parent_type live bind text_of]; rewrite Et; destruct w; reflexivity.
  - destruct (plain_text dt en op w n k (c :: s) b Hin Hb Hf ltac:(discriminate)) as (b' & T & P). exists b', []. split; [now apply turns2_of|]. split; [exact P|]. split; [discriminate|reflexivity].
Qed.
(** Translations. *)
Definition lang_elem (tag : str) (kv : str * str) : xml := Elem tag [(S_ "xml:lang", fst kv)] [Text (snd kv)].
Definition told_pairs (l : list (str * str)) : list (str * ostr) := flat_map (fun kv => match told_text (snd kv) with Some x => [(fst kv, x)] | None => [] end) l.
Lemma name_any w k s b : pb b ->
  exists b' es, turns2 w [lang_elem (S_ "name") (k, s)] b b' es /\ pb b' /\ b_props b' = b_props b /\ b_descs b' = b_descs b /\
    rt_sets (b_names b) (told_pairs [(k, s)]) = Ok (b_names b') /\ (es = [] <-> s <> []).
Proof.
  intros Hb. destruct s as [|c s].
  - exists b, [perr E_NOCONTENT [Some (info_name TName)]]. split; [|split; [exact Hb|split; [reflexivity|split; [reflexivity|split; [reflexivity|split; [discriminate|congruence]]]]]].
    destruct (lang_attrs TName k (or_introl eq_refl)) as (dict & Ea & Ec & Eg). unfold lang_elem. cbn [fst snd].
    apply turns2_text with (dict := dict) (f := fun b => Ok (b, [perr E_NOCONTENT [Some (info_name TName)]])); auto.
    + destruct w; vm_compute; tauto.
    + intros eo sk d Et. gtype. unfold postproc. cbn [el_type el_attrs parent_type live bind text_of]. rewrite Et. destruct w; reflexivity.
  - destruct (name_text dt en op w k (c :: s) b Hb ltac:(discriminate)) as (b' & T & Hb' & Hp & Hd & Hn). exists b', []. split; [apply turns2_of; exact T|].
    split; [exact Hb'|]. split; [exact Hp|]. split; [exact Hd|]. split; [|split; [discriminate|reflexivity]].
    unfold told_pairs. cbn [flat_map told_text fst snd app rt_sets]. match goal with |- bind ?m _ = _ => replace m with (Ok (b_names b')) by (symmetry; exact Hn) end. reflexivity.
Qed.
Lemma desc_any w k s b : pb b ->
  exists b' es, turns2 w [lang_elem (S_ "description") (k, s)] b b' es /\ pb b' /\ b_props b' = b_props b /\ b_names b' = b_names b /\
    rt_sets (b_descs b) (told_pairs [(k, s)]) = Ok (b_descs b') /\ (es = [] <-> s <> []).
Proof.
  intros Hb. destruct s as [|c s].
  - exists b, [perr E_NOCONTENT [Some (info_name TDesc)]]. split; [|split; [exact Hb|split; [reflexivity|split; [reflexivity|split; [reflexivity|split; [discriminate|congruence]]]]]].
    destruct (lang_attrs TDesc k (or_intror eq_refl)) as (dict & Ea & Ec & Eg). unfold lang_elem. cbn [fst snd].
    apply turns2_text with (dict := dict) (f := fun b => Ok (b, [perr E_NOCONTENT [Some (info_name TDesc)]])); auto.
    + destruct w; vm_compute; tauto.
    + intros eo sk d Et. gtype. unfold postproc. cbn [el_type el_attrs parent_type live bind text_of]. rewrite Et. destruct w; reflexivity.
  - destruct (desc_text dt en op w k (c :: s) b Hb ltac:(discriminate)) as (b' & T & Hb' & Hp & Hd & Hn). exists b', []. split; [apply turns2_of; exact T|].
    split; [exact Hb'|]. split; [exact Hp|]. split; [exact Hd|]. split; [|split; [discriminate|reflexivity]].
    unfold told_pairs. cbn [flat_map told_text fst snd app rt_sets]. match goal with |- bind ?m _ = _ => replace m with (Ok (b_descs b')) by (symmetry; exact Hn) end. reflexivity.
Qed.
Lemma rt_sets_app {V} (a b : list (str * V)) : forall t, rt_sets t (a ++ b) = (t1 <- rt_sets t a ;; rt_sets t1 b).
Proof. induction a as [|[k v] a IH]; intros t; cbn [app rt_sets bind]; [reflexivity|]. destruct (rt_set t k (Some v)); cbn [bind]; auto. Qed.
Lemma app_nil_iff {A} (a b : list A) (P Q : Prop) : (a = [] <-> P) -> (b = [] <-> Q) -> (a ++ b = [] <-> P /\ Q).
Proof.
  intros HP HQ. rewrite <- HP, <- HQ. split; [apply app_eq_nil|intros [-> ->]; reflexivity].
Qed.
Lemma names_any w l : forall b, pb b ->
  exists b' es, turns2 w (map (lang_elem (S_ "name")) l) b b' es /\ pb b' /\ b_props b' = b_props b /\ b_descs b' = b_descs b /\
    rt_sets (b_names b) (told_pairs l) = Ok (b_names b') /\ (es = [] <-> Forall (fun kv => snd kv <> []) l).
Proof.
  induction l as [|[k s] l IH]; intros b Hb; cbn [map].
  - exists b, []. split; [apply turns2_nil|]. split; [exact Hb|]. repeat (split; [reflexivity|]). split; [constructor|reflexivity].
  - destruct (name_any w k s b Hb) as (b1 & e1 & T1 & Hb1 & Hp1 & Hd1 & Hn1 & He1). destruct (IH b1 Hb1) as (b2 & e2 & T2 & Hb2 & Hp2 & Hd2 & Hn2 & He2).
    exists b2, (e1 ++ e2). split; [exact (turns2_app w [_] _ b b1 b2 _ _ T1 T2)|]. split; [exact Hb2|]. split; [congruence|]. split; [congruence|]. split.
    + change (told_pairs ((k, s) :: l)) with (told_pairs [(k, s)] ++ told_pairs l) || (unfold told_pairs; cbn [flat_map]; rewrite <- (app_nil_r (match told_text (snd (k, s)) with Some x => _ | None => _ end)); fold (told_pairs l)).
      match goal with |- rt_sets _ ?m = _ => replace m with (told_pairs [(k, s)] ++ told_pairs l) by (unfold told_pairs; cbn [flat_map]; now rewrite ?app_nil_r) end.
      rewrite rt_sets_app, Hn1. exact Hn2.
    + rewrite (app_nil_iff _ _ _ _ He1 He2). rewrite Forall_cons_iff. reflexivity.
Qed.
Lemma descs_any w l : forall b, pb b ->
  exists b' es, turns2 w (map (lang_elem (S_ "description")) l) b b' es /\ pb b' /\ b_props b' = b_props b /\ b_names b' = b_names b /\
    rt_sets (b_descs b) (told_pairs l) = Ok (b_descs b') /\ (es = [] <-> Forall (fun kv => snd kv <> []) l).
Proof.
  induction l as [|[k s] l IH]; intros b Hb; cbn [map].
  - exists b, []. split; [apply turns2_nil|]. split; [exact Hb|]. repeat (split; [reflexivity|]). split; [constructor|reflexivity].
  - destruct (desc_any w k s b Hb) as (b1 & e1 & T1 & Hb1 & Hp1 & Hd1 & Hn1 & He1). destruct (IH b1 Hb1) as (b2 & e2 & T2 & Hb2 & Hp2 & Hd2 & Hn2 & He2).
    exists b2, (e1 ++ e2). split; [exact (turns2_app w [_] _ b b1 b2 _ _ T1 T2)|]. split; [exact Hb2|]. split; [congruence|]. split; [congruence|]. split.
    + match goal with |- rt_sets _ ?m = _ => replace m with (told_pairs [(k, s)] ++ told_pairs l) by (unfold told_pairs; cbn [flat_map]; now rewrite ?app_nil_r) end.
      rewrite rt_sets_app, Hn1. exact Hn2.
    + rewrite (app_nil_iff _ _ _ _ He1 He2). rewrite Forall_cons_iff. reflexivity.
Qed.
(** What becomes of a dictionary of translations. *)
Definition dict_after (t t' : rtree ostr) : Prop :=
  forall k, match rt_get t k with Ok (Some v) => exists x, text_after (str_tostr v) x /\ rt_get t' k = Ok x | _ => rt_get t' k = Ok None end.
Definition dict_full (t t' : rtree ostr) : Prop := forall k, rt_get t k <> Ok None -> rt_get t' k <> Ok None.
Definition seen_pair (kv : str * ostr) (kv' : str * str) : Prop := fst kv' = fst kv /\ seen (str_tostr (snd kv)) (snd kv').
Lemma thin_langs tag l : forall ts, Forall2 thin (map (lang_tree tag) l) ts -> exists l', ts = map (lang_elem tag) l' /\ Forall2 seen_pair l l'.
Proof.
  induction l as [|[k v] l IH]; intros ts H; cbn [map] in H; inversion H as [|? t ? r Ht Hr]; subst; [exists []; split; [reflexivity|constructor]|].
  destruct (IH _ Hr) as (l' & -> & Hl). unfold lang_tree in Ht. apply thin_leaf in Ht. destruct Ht as (s' & -> & Hs). exists ((k, s') :: l'). split; [reflexivity|].
  constructor; [|exact Hl]. now split.
Qed.
Lemma told_keys l l' : Forall2 seen_pair l l' -> forall k v, In (k, v) (told_pairs l') -> In k (map fst l).
Proof.
  induction 1 as [|[k0 v0] [k1 s1] l l' [E _] _ IH]; intros k v Hi; [destruct Hi|]. cbn [fst snd] in E. subst k1.
  unfold told_pairs in Hi. cbn [flat_map] in Hi. apply in_app_or in Hi. cbn [map fst]. destruct Hi as [Hi|Hi]; [|right; eapply IH; exact Hi]. left. cbn [fst snd] in Hi.
  destruct (told_text s1); [|destruct Hi]. destruct Hi as [Hi|[]]. apply pair_equal_spec in Hi. now destruct Hi as [-> _].
Qed.
Lemma told_sorted l l' : Forall2 seen_pair l l' -> StronglySorted pre_ok l -> StronglySorted pre_ok (told_pairs l').
Proof.
  induction 1 as [|[k0 v0] [k1 s1] l l' [E _] Hl IH]; intros Hs; [constructor|]. cbn [fst snd] in E. subst k1. inversion Hs as [|? ? Hs1 Hall]; subst.
  unfold told_pairs. cbn [flat_map fst snd]. destruct (told_text s1); [|exact (IH Hs1)]. cbn [app]. constructor; [exact (IH Hs1)|]. apply Forall_forall. intros [k v] Hi.
  unfold pre_ok. cbn [fst]. apply (told_keys _ _ Hl) in Hi. apply in_map_iff in Hi. destruct Hi as ([k' v'] & Ek & Hi). cbn [fst] in Ek. subst k'.
  rewrite Forall_forall in Hall. exact (Hall _ Hi).
Qed.
Lemma told_nodup l l' : Forall2 seen_pair l l' -> NoDup (map fst l) -> NoDup (map fst (told_pairs l')).
Proof.
  induction 1 as [|[k0 v0] [k1 s1] l l' [E _] Hl IH]; intros Hs; [constructor|]. cbn [fst snd map] in *. subst k1. inversion Hs as [|? ? Hn Hd]; subst.
  unfold told_pairs. cbn [flat_map fst snd]. destruct (told_text s1); [|exact (IH Hd)]. cbn [app map fst]. constructor; [|exact (IH Hd)].
  intros Hi. apply in_map_iff in Hi. destruct Hi as ([k v] & Ek & Hi). cbn [fst] in Ek. subst k. apply (told_keys _ _ Hl) in Hi. contradiction.
Qed.
Lemma seen_in l l' : Forall2 seen_pair l l' -> forall k v, In (k, v) l -> exists s', In (k, s') l' /\ seen (str_tostr v) s'.
Proof.
  induction 1 as [|[k0 v0] [k1 s1] l l' [E Hs] _ IH]; intros k v Hi; [destruct Hi|]. cbn [fst snd] in *. subst k1. destruct Hi as [Hi|Hi].
  - apply pair_equal_spec in Hi. destruct Hi as [-> ->]. exists s1. split; [now left|exact Hs].
  - destruct (IH k v Hi) as (s' & Hi' & Hs'). exists s'. split; [now right|exact Hs'].
Qed.
Lemma told_in l k s c : In (k, s) l -> s = c -> c <> [] -> In (k, Some c) (told_pairs l).
Proof.
  intros Hi -> Hc. unfold told_pairs. apply in_flat_map. exists (k, c). split; [exact Hi|]. cbn [fst snd]. destruct c; [congruence|]. now left.
Qed.
Lemma told_inv l k x : In (k, x) (told_pairs l) -> exists s, In (k, s) l /\ s <> [] /\ x = Some s.
Proof.
  unfold told_pairs. intros H. apply in_flat_map in H. destruct H as ([k' s] & Hi & Hx). cbn [fst snd] in Hx. destruct s as [|c s]; cbn [told_text] in Hx; [destruct Hx|].
  destruct Hx as [Hx|[]]. apply pair_equal_spec in Hx. destruct Hx as [<- <-]. exists (c :: s). split; [exact Hi|]. split; [discriminate|reflexivity].
Qed.
Lemma nodup_fst {V} (l : list (str * V)) k v v' : NoDup (map fst l) -> In (k, v) l -> In (k, v') l -> v = v'.
Proof.
  induction l as [|[a x] l IH]; intros Hn H1 H2; [destruct H1|]. cbn [map fst] in Hn. inversion Hn as [|? ? Ha Hd]; subst.
  destruct H1 as [H1|H1], H2 as [H2|H2]; try apply pair_equal_spec in H1; try apply pair_equal_spec in H2.
  - destruct H1, H2. congruence.
  - destruct H1 as [-> ->]. elim Ha. apply in_map_iff. now exists (k, v').
  - destruct H2 as [-> ->]. elim Ha. apply in_map_iff. now exists (k, v).
  - now apply IH.
Qed.
Lemma seen_keys l l' : Forall2 seen_pair l l' -> map fst l' = map fst l.
Proof. induction 1 as [|[k0 v0] [k1 s1] l l' [E _] _ IH]; cbn [map fst] in *; [reflexivity|]. now rewrite E, IH. Qed.
Lemma pairs_after (t : rtree ostr) l' : wft t -> Forall2 seen_pair (ents (hitems (troot t))) l' ->
  exists t', rt_sets rt_create (told_pairs l') = Ok t' /\ dict_after t t' /\ (Forall (fun kv => snd kv <> []) l' <-> dict_full t t').
Proof.
  intros Hw Hl. set (l := ents (hitems (troot t))) in *.
  assert (Hin : forall k v, In (k, v) l <-> rt_get t k = Ok (Some v)).
  { intros k v. unfold l. rewrite (ents_look _ _ _ Hw), rt_get_look. split; congruence. }
  assert (Hnd : NoDup (map fst l)) by now apply ents_nodup.
  assert (Hlf : late_free (fun _ => False) (fun _ => False) (told_pairs l')).
  { apply sorted_late; [apply (told_sorted l l' Hl); now apply ents_sorted| |intros s []]. intros k v H ->. apply (told_keys _ _ Hl) in H. apply in_map_iff in H.
    destruct H as ([k' v'] & Ek & H). cbn [fst] in Ek. subst k'. apply Hin in H. rewrite rt_get_look in H. discriminate. }
  destruct (rt_sets_spec _ rt_create (fun _ => False) (fun _ => False) wft_create (tn_empty _) (fun s (F : False) => match F with end) Hlf) as (t' & Et & _ & _ & Hg).
  assert (Hgt : forall k x, In (k, x) (told_pairs l') -> rt_get t' k = Ok (Some x)).
  { intros k x Hi. rewrite rt_get_look, Hg. cbn [rt_create troot]. rewrite look_empty. f_equal. apply last_set_in; [now apply (told_nodup l l')|exact Hi]. }
  assert (Hgn : forall k, ~ In k (map fst (told_pairs l')) -> rt_get t' k = Ok None).
  { intros k Hi. rewrite rt_get_look, Hg. cbn [rt_create troot]. rewrite look_empty. f_equal. now apply last_set_notin. }
  assert (Hnone : forall k, rt_get t k = Ok None -> rt_get t' k = Ok None).
  { intros k Ek. apply Hgn. intros Hi. apply in_map_iff in Hi. destruct Hi as ([k' x] & E' & Hi). cbn [fst] in E'. subst k'. apply (told_keys _ _ Hl) in Hi. apply in_map_iff in Hi.
    destruct Hi as ([k' v'] & E' & Hi). cbn [fst] in E'. subst k'. apply Hin in Hi. congruence. }
  assert (Hsome : forall k v, rt_get t k = Ok (Some v) -> exists s', In (k, s') l' /\ seen (str_tostr v) s' /\ rt_get t' k = Ok (told_text s')).
  { intros k v Ek. apply Hin in Ek. destruct (seen_in _ _ Hl k v Ek) as (s' & Hi & Hs). exists s'. split; [exact Hi|]. split; [exact Hs|]. destruct s' as [|c s'].
    - apply Hgn. intros Hx. apply in_map_iff in Hx. destruct Hx as ([k' x] & E' & Hx). cbn [fst] in E'. subst k'. apply told_inv in Hx. destruct Hx as (s & Hx & Hne & _).
      assert (s = []); [|contradiction]. apply (nodup_fst l' k); [|exact Hx|exact Hi]. rewrite (seen_keys _ _ Hl). exact Hnd.
    - apply Hgt. apply told_in with (s := c :: s'); [exact Hi|reflexivity|discriminate]. }
  exists t'. split; [exact Et|]. split; [|split].
  - intros k. destruct (rt_get t k) as [[v|]| |] eqn:Ek; [|now apply Hnone|rewrite rt_get_look in Ek; discriminate|rewrite rt_get_look in Ek; discriminate].
    destruct (Hsome k v Ek) as (s' & _ & Hs & Eg). exists (told_text s'). split; [now apply seen_after|exact Eg].
  - intros Hf k Hk. destruct (rt_get t k) as [[v|]| |] eqn:Ek; [|congruence|rewrite rt_get_look in Ek; discriminate|rewrite rt_get_look in Ek; discriminate].
    destruct (Hsome k v Ek) as (s' & Hi & _ & Eg). rewrite Eg. rewrite Forall_forall in Hf. specialize (Hf _ Hi). cbn [snd] in Hf. destruct s'; [congruence|discriminate].
  - intros Hf. apply Forall_forall. intros [k s'] Hi. cbn [snd]. intros ->.
    assert (Hk : In k (map fst l)) by (rewrite <- (seen_keys _ _ Hl); apply in_map_iff; now exists (k, [])).
    apply in_map_iff in Hk. destruct Hk as ([k' v] & E' & Hk). cbn [fst] in E'. subst k'. apply Hin in Hk. destruct (Hsome k v Hk) as (s' & Hi' & _ & Eg).
    assert (s' = []) by (apply (nodup_fst l' k); [rewrite (seen_keys _ _ Hl); exact Hnd|exact Hi'|exact Hi]). subst s'. apply (Hf k); [congruence|exact Eg].
Qed.
Lemma names_row_any w b0 b ts ts' : reach ostr_copy (b_names b0) -> pb b -> b_names b = rt_create -> row_trees b0 RNames = Ok ts -> Forall2 thin ts ts' ->
  exists b' es, turns2 w ts' b b' es /\ pb b' /\ b_props b' = b_props b /\ b_descs b' = b_descs b /\ dict_after (b_names b0) (b_names b') /\
    (es = [] <-> dict_full (b_names b0) (b_names b')).
Proof.
  intros Hr Hb En E Ht. cbn [row_trees] in E. rewrite rt_pairs_ents in E. cbn [bind] in E. injection E as <-. apply thin_langs in Ht. destruct Ht as (l' & -> & Hl).
  destruct (pairs_after _ l' (reach_wft _ _ Hr) Hl) as (t' & Et & Ha & Hf). destruct (names_any w l' b Hb) as (b' & es & T & Hb' & Hp & Hd & Hn & He).
  rewrite En, Et in Hn. injection Hn as Hn. exists b', es. split; [exact T|]. split; [exact Hb'|]. split; [exact Hp|]. split; [exact Hd|]. rewrite <- Hn. split; [exact Ha|]. now rewrite He.
Qed.
Lemma descs_row_any w b0 b ts ts' : reach ostr_copy (b_descs b0) -> pb b -> b_descs b = rt_create -> row_trees b0 RDescs = Ok ts -> Forall2 thin ts ts' ->
  exists b' es, turns2 w ts' b b' es /\ pb b' /\ b_props b' = b_props b /\ b_names b' = b_names b /\ dict_after (b_descs b0) (b_descs b') /\
    (es = [] <-> dict_full (b_descs b0) (b_descs b')).
Proof.
  intros Hr Hb En E Ht. cbn [row_trees] in E. rewrite rt_pairs_ents in E. cbn [bind] in E. injection E as <-. apply thin_langs in Ht. destruct Ht as (l' & -> & Hl).
  destruct (pairs_after _ l' (reach_wft _ _ Hr) Hl) as (t' & Et & Ha & Hf). destruct (descs_any w l' b Hb) as (b' & es & T & Hb' & Hp & Hd & Hn & He).
  rewrite En, Et in Hn. injection Hn as Hn. exists b', es. split; [exact T|]. split; [exact Hb'|]. split; [exact Hp|]. split; [exact Hd|]. rewrite <- Hn. split; [exact Ha|]. now rewrite He.
Qed.

(** ** Single properties *)
(** What becomes of a property written as a text. *)
Definition prop_after (b0 b' : base) (k : str) : Prop :=
  match look (troot (b_props b0)) k with
  | None => look (troot (b_props b')) k = None
  | Some v => exists s x, pval_tostr (Some v) = Ok s /\ text_after s x /\ look (troot (b_props b')) k = option_map PStr x
  end.
Definition prop_full (b0 b' : base) (k : str) : Prop := look (troot (b_props b0)) k <> None -> look (troot (b_props b')) k <> None.
Lemma thin_one n a s ts : Forall2 thin [Elem n a [Text s]] ts -> exists s', ts = [Elem n a [Text s']] /\ seen s s'.
Proof.
  intros H. inversion H as [|? t ? r Ht Hr]; subst. inversion Hr; subst. apply thin_leaf in Ht. destruct Ht as (s' & -> & Hs). eauto.
Qed.
Lemma thin_none ts : Forall2 thin [] ts -> ts = [].
Proof. intros H. now inversion H. Qed.
Lemma plain_row_any w n k b0 b ts ts' : In (n, k) plain_tags -> pb b -> free b k -> row_trees b0 (RText k n) = Ok ts -> Forall2 thin ts ts' ->
  exists b' es v, turns2 w ts' b b' es /\ put b b' k v /\
    (forall b2, look (troot (b_props b2)) k = v -> prop_after b0 b2 k /\ (es = [] <-> prop_full b0 b2 k)).
Proof.
  intros Hin Hb Hf E Ht. cbn [row_trees] in E. rewrite base_get_ok in E. cbn [bind] in E. destruct (look (troot (b_props b0)) k) as [v|] eqn:Ev.
  - destruct (pval_tostr (Some v)) as [s| |] eqn:Es; cbn [bind] in E; try discriminate. injection E as <-. apply thin_one in Ht. destruct Ht as (s' & -> & Hs).
    destruct (plain_any w n k s' b Hin Hb Hf) as (b' & es & T & P & He). exists b', es, (option_map PStr (told_text s')). split; [exact T|]. split; [exact P|].
    intros b2 E2. split.
    + unfold prop_after. rewrite Ev. exists s, (told_text s'). split; [exact Es|]. split; [now apply seen_after|exact E2].
    + rewrite He. unfold prop_full. rewrite Ev, E2. destruct s'; cbn; split; intros H; try congruence; try discriminate. elim H; congruence.
  - injection E as <-. apply thin_none in Ht. subst ts'. exists b, [], None. split; [apply turns2_nil|]. split; [now apply put_none|].
    intros b2 E2. split; [unfold prop_after; now rewrite Ev|]. unfold prop_full. rewrite Ev. split; congruence.
Qed.
(** An order that fits: none, or a number not above INT_MAX. *)
Definition order_fits (v : option pval) : Prop := v = None \/ exists z, v = Some (PNum z) /\ (z <= 2147483647)%Z.
Lemma dec_no_white n : Forall (fun c => ~ white c) (dec n).
Proof.
  pose proof (dec_digits n) as H. rewrite forallb_forall in H. apply Forall_forall. intros c Hc Hw. apply H in Hc. unfold white in Hw. revert Hc Hw. clear. destruct c as [[] [] [] [] [] [] [] []]; vm_compute; intuition (discriminate || congruence).
Qed.
Lemma order_row_any w b0 b ts ts' : prop b0 (S_ "display_order") order_fits -> pb b -> free b (S_ "display_order") ->
  row_trees b0 (RText (S_ "display_order") (S_ "display_order")) = Ok ts -> Forall2 thin ts ts' ->
  exists b', turns2 w ts' b b' [] /\ put b b' (S_ "display_order") (look (troot (b_props b0)) (S_ "display_order")).
Proof.
  intros Hl Hb Hf E Ht.
  assert (Hn : prop b0 (S_ "display_order") order_normal).
  { intros v Hv. destruct (Hl v Hv) as [->|(z & -> & Hz)]; [now left|]. right. exists z. split; [reflexivity|]. split; [|exact Hz].
    cbn [row_trees] in E. rewrite Hv in E. cbn [bind pval_tostr] in E. destruct (Z.ltb_spec z 0) as [Lt|Le]; [|exact Le]. rewrite num_tostr_neg in E by exact Lt. discriminate. }
  destruct (order_row dt en op w b0 b Hn Hb Hf) as (ts0 & b' & E0 & T & P). assert (ts0 = ts) by congruence. subst ts0. clear E0.
  exists b'. split; [|exact P]. apply turns2_of. replace ts' with ts; [exact T|].
  cbn [row_trees] in E. rewrite base_get_ok in E. cbn [bind] in E. specialize (Hn _ (base_get_ok b0 _)). destruct Hn as [Ev|(z & Ev & Hz)]; rewrite Ev in E.
  - injection E as <-. symmetry. now apply thin_none.
  - cbn [pval_tostr] in E. rewrite num_tostr_ok in E by lia. cbn [bind] in E. injection E as <-. apply thin_one in Ht. destruct Ht as (s' & -> & Hs).
    apply seen_solid in Hs; [now subst s'|apply dec_no_white].
Qed.
Lemma bool_no_white c : Forall (fun c => ~ white c) (bool_str c).
Proof. 
  destruct c; apply Forall_forall; intros x Hx Hw; unfold white in Hw; cbn in Hx; repeat (destruct Hx as [Hx|Hx]; [subst x; vm_compute in Hw; intuition discriminate|]); destruct Hx.
Qed.
Lemma bool_row_any n k ex df b0 b ts ts' : In (n, k) bool_keys -> pb b -> free b k -> row_trees b0 (RBool k n ex df) = Ok ts -> Forall2 thin ts ts' ->
  exists b' v, turns2 OGroup ts' b b' [] /\ put b b' k v /\
    let c := truth (look (troot (b_props b0)) k) df in (v = Some (PNum (if c then 1 else 0)) \/ v = None /\ c = df).
Proof.
  intros Hin Hb Hf E Ht.
  assert (Hn : prop b0 k number).
  { intros v Hv. cbn [row_trees] in E. rewrite Hv in E. cbn [bind] in E. destruct v as [[|z|]|]; try discriminate; [right; eauto|now left]. }
  destruct (bool_row_back dt en op n k ex df b0 b Hin Hn Hb Hf) as (ts0 & b' & v & E0 & T & P & V). assert (ts0 = ts) by congruence. subst ts0. clear E0.
  exists b', v. split; [|split; [exact P|exact V]]. apply turns2_of. replace ts' with ts; [exact T|].
  assert (Hs : ts = [] \/ exists c, ts = [prop_tree n (bool_str c)]).
  { cbn [row_trees] in E. rewrite base_get_ok in E. cbn [bind] in E. specialize (Hn _ (base_get_ok b0 _)). destruct Hn as [Ev|(z & Ev)]; rewrite Ev in E; cbn [num2bool bind] in E;
      injection E as <-; [destruct ex; [right; eauto|now left]|destruct (ex || _); [right; eauto|now left]]. }
  destruct Hs as [->|(c & ->)]; [symmetry; now apply thin_none|]. apply thin_one in Ht. destruct Ht as (s' & -> & Hs). apply seen_solid in Hs; [now subst s'|apply bool_no_white].
Qed.
Lemma langonly_any s b : pb b -> free b (S_ "langonly") ->
  exists b', turns2 OGroup [prop_tree (S_ "langonly") s] b b' [] /\ put b b' (S_ "langonly") (option_map PStr (told_text s)).
Proof.
  intros Hb Hf. destruct s as [|c s].
  - exists b. split; [|now apply put_none]. destruct (no_attrs TLangonly) as (dict & Ea & Ec & Eg).
    apply turns2_text with (dict := dict) (f := fun b => v <- base_get b (S_ "langonly") ;; b' <- base_set_str b (S_ "langonly") None ;; Ok (b', check_already v (S_ "langonly"))); auto.
    + vm_compute; tauto.
    + rewrite base_get_ok, Hf. reflexivity.
  - destruct (langonly_text dt en op (c :: s) b Hb Hf ltac:(discriminate)) as (b' & T & P). exists b'. split; [now apply turns2_of|exact P].
Qed.
Lemma langonly_row_any b0 b ts ts' : pb b -> free b (S_ "langonly") -> row_trees b0 (RText (S_ "langonly") (S_ "langonly")) = Ok ts -> Forall2 thin ts ts' ->
  exists b' v, turns2 OGroup ts' b b' [] /\ put b b' (S_ "langonly") v /\ (forall b2, look (troot (b_props b2)) (S_ "langonly") = v -> prop_after b0 b2 (S_ "langonly")).
Proof.
  intros Hb Hf E Ht. cbn [row_trees] in E. rewrite base_get_ok in E. cbn [bind] in E. destruct (look (troot (b_props b0)) (S_ "langonly")) as [v|] eqn:Ev.
  - destruct (pval_tostr (Some v)) as [s| |] eqn:Es; cbn [bind] in E; try discriminate. injection E as <-. apply thin_one in Ht. destruct Ht as (s' & -> & Hs).
    destruct (langonly_any s' b Hb Hf) as (b' & T & P). exists b', (option_map PStr (told_text s')). split; [exact T|]. split; [exact P|].
    intros b2 E2. unfold prop_after. rewrite Ev. exists s, (told_text s'). split; [exact Es|]. split; [now apply seen_after|exact E2].
  - injection E as <-. apply thin_none in Ht. subst ts'. exists b, None. split; [apply turns2_nil|]. split; [now apply put_none|].
    intros b2 E2. unfold prop_after. now rewrite Ev.
Qed.
End Rows.
