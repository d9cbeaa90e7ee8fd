(** Reading back whatever was written: whole documents. *)
From Coq Require Import NArith Nnat Sorted.
From Verif Require Import CStr CStrFacts HSListModel HSListFacts RTreeModel RTreeFacts RTreeFacts2 RTreeFacts3 RTreeFacts4 MRTreeModel MRTreeFacts MRTreeFacts2
  ObjModel ObjFacts2 Dec StrModel StrFacts DocModel DocFacts2 SpecA SpecB SpecD SpecE ParseModel ParseFacts SpecF SpecF2 SpecF3 SpecF4 XmlModel XmlFacts SpecG SpecG2 SpecG3 SpecG4 SpecG5
  SpecG6 SpecG7 TextFacts5 SpecR SpecR2 SpecR3 SpecR4.

(** ** The dictionaries of a document *)
Section Reader.
Context {RD : reader}.
Definition lang_after (t t' : rtree ostr) : Prop :=
  (forall k, rt_get t' k = if tlen t =? 0 then Ok None else match rt_get t k with Ok (Some v) => Ok (Some (Some (str_tostr v))) | _ => Ok None end) /\
  (tlen t' = 0 -> forall k, rt_get t' k = Ok None).
Definition mdict_after (t t' : mtree ostr) : Prop :=
  (forall k, match mt_get t k with
    | Ok (Some l) => if (mlen t =? 0)%Z then plain (mt_get t' k) = [] else exists ss, map_r mval_tostr l = Ok ss /\ plain (mt_get t' k) = map Some ss
    | _ => plain (mt_get t' k) = []
    end) /\
  (mlen t' = 0%Z -> forall k, mt_get t' k = Ok None) /\ (mdict_normal t -> forall k, mt_get t' k = mt_get t k).
Lemma lang_any t ls : wft t -> langpack_trees t = Ok ls ->
  exists l t', ls = dict_opt KLang l /\ rt_sets rt_create (map (fun kv => (fst kv, Some (snd kv))) (opt_list l)) = Ok t' /\ lang_after t t'.
Proof.
  intros Hw. unfold langpack_trees, lang_after. destruct (tlen t =? 0).
  { intros E. apply Ok_inj in E. subst ls. exists None, rt_create. split; [reflexivity|]. split; [reflexivity|].
    assert (H0 : forall k, rt_get (@rt_create ostr) k = Ok None) by (intros k; rewrite rt_get_look; cbn [rt_create troot]; now rewrite look_empty). auto. }
  rewrite rt_pairs_ents. cbn [bind]. intros E. apply Ok_inj in E. set (l := ents (hitems (troot t))) in *.
  assert (Hin : forall k v, In (k, v) l <-> rt_get t k = Ok (Some v)).
  { intros k v. unfold l. rewrite (ents_look _ _ _ Hw), rt_get_look. split; congruence. }
  assert (Hnd : NoDup (map fst l)) by now apply ents_nodup.
  set (f := (fun kv : str * ostr => (fst kv, Some (str_tostr (snd kv)))) : str * ostr -> str * ostr).
  assert (Hkeys : map fst (map f l) = map fst l) by (rewrite map_map; apply map_ext; reflexivity).
  assert (Hss : StronglySorted pre_ok (map f l)).
  { assert (Hs : StronglySorted pre_ok l) by now apply ents_sorted. clear -Hs. induction Hs as [|x l Hs IH Hall]; [constructor|]. cbn [map]. constructor; [exact IH|].
    apply Forall_forall. intros y Hy. apply in_map_iff in Hy. destruct Hy as (z & <- & Hz). rewrite Forall_forall in Hall. exact (Hall _ Hz). }
  assert (Hlf : late_free (fun _ => False) (fun _ => False) (map f l)).
  { apply sorted_late; [exact Hss| |intros s []]. intros k v H ->. apply in_map_iff in H. destruct H as ([k' v'] & Ek & H). apply pair_equal_spec in Ek. destruct Ek as [Ek _].
    cbn [fst] in Ek. subst k'. apply Hin in H. rewrite rt_get_look in H. discriminate. }
  destruct (rt_sets_spec _ rt_create (fun _ => False) (fun _ => False) wft_create (tn_empty _) (fun s (F : False) => match F with end) Hlf) as (t' & Et & Hw' & _ & Hg).
  exists (Some (map (fun kv => (fst kv, str_tostr (snd kv))) l)), t'. split; [now subst ls|]. split.
  { cbn [opt_list]. rewrite map_map. exact Et. }
  split.
  2:{ destruct (rt_sets_len (map f l) rt_create (fun _ => False) (fun _ => False) wft_create (tn_empty _) (fun s (F : False) => match F with end)) as (t1 & E1 & Hc); [|reflexivity|exact Hlf|].
      { intros q m Hq. apply at_path_inv in Hq. destruct Hq as (n & [] & _). }
      assert (Et1 : t1 = t') by congruence. rewrite Et1 in Hc. intros Hz k. unfold count in Hc. pose proof (eq_trans (eq_sym Hz) Hc) as Hc0. clear Hc. rewrite rt_get_look. f_equal.
      destruct (look (troot t') k) as [v|] eqn:Ek; [|reflexivity]. apply (ents_look _ _ _ Hw') in Ek. match type of Hc0 with _ = length ?e => destruct e; [destruct Ek|discriminate] end. }
  intros k. rewrite (rt_get_look t'), Hg. cbn [rt_create troot]. rewrite look_empty.
  destruct (rt_get t k) as [[v|]| |] eqn:Ek; [|f_equal; apply last_set_notin|rewrite rt_get_look in Ek; discriminate|rewrite rt_get_look in Ek; discriminate].
  - f_equal. apply last_set_in; [now rewrite Hkeys|]. apply in_map_iff. exists (k, v). split; [reflexivity|]. now apply Hin.
  - rewrite Hkeys. intros Hi. apply in_map_iff in Hi. destruct Hi as ([k' v] & E' & Hi). cbn [fst] in E'. subst k'. apply Hin in Hi. congruence.
Qed.
Lemma texts_values ps : forall ts, mpairs_texts ps = Ok ts -> NoDup (map fst ps) ->
  incl (map fst ts) (map fst ps) /\ forall k l, In (k, l) ps -> exists ss, map_r mval_tostr l = Ok ss /\ values_of ts k = ss.
Proof.
  induction ps as [|[k l] ps IH]; intros ts E Hnd.
  - apply Ok_inj in E. subst ts. split; [apply incl_refl|]. intros k l [].
  - cbn [mpairs_texts] in E. destruct (map_r mval_tostr l) as [ss| |] eqn:Es; cbn [bind] in E; try discriminate.
    destruct (mpairs_texts ps) as [ts'| |] eqn:Et; cbn [bind] in E; try discriminate. apply Ok_inj in E. subst ts.
    cbn [map fst] in Hnd. inversion Hnd as [|? ? Hn Hd]; subst. destruct (IH ts' eq_refl Hd) as [Hi Hv].
    split.
    + rewrite map_app. intros k0 H. apply in_app_or in H. cbn [map fst]. destruct H as [H|H]; [|right; now apply Hi]. left. apply in_map_iff in H. destruct H as ([k1 s1] & <- & H).
      apply in_map_iff in H. destruct H as (s & Es' & _). apply pair_equal_spec in Es'. now destruct Es' as [-> _].
    + intros k0 l0 [H|H].
      * apply pair_equal_spec in H. destruct H as [-> ->]. exists ss. split; [exact Es|]. rewrite values_of_app, values_of_map, streq_refl.
        assert (Hz : values_of ts' k0 = []); [|now rewrite Hz, app_nil_r]. destruct (values_of ts' k0) eqn:Ez; [reflexivity|]. elim Hn. apply Hi. apply values_of_in. congruence.
      * destruct (Hv k0 l0 H) as (s0 & E0 & E1). exists s0. split; [exact E0|]. rewrite values_of_app, values_of_map. destruct (streq k k0) eqn:Ek; [|exact E1].
        apply streq_iff in Ek. subst k0. elim Hn. apply in_map_iff. now exists (k, l0).
Qed.
Lemma values_of_some ts k : values_of (map some_val ts) k = map Some (values_of ts k).
Proof. unfold values_of. induction ts as [|[k0 s] ts IH]; [reflexivity|]. cbn [map some_val fst snd filter]. destruct (streq k0 k); cbn [map snd]; [now f_equal|exact IH]. Qed.
Lemma mt_sets_len (kvs : list (str * ostr)) : forall t t', nonempty_keys kvs -> mt_sets t kvs = Ok t' -> mlen t' = (mlen t + Z.of_nat (length kvs))%Z.
Proof.
  induction kvs as [|[k v] kvs IH]; intros t t' Hne E; cbn [mt_sets length] in *; [apply Ok_inj in E; subst t'; lia|].
  unfold mt_set, mt_put in E. destruct (mset_sub (length k) (mroot t) k [MV v]) as [h| |]; cbn [bind] in E; try discriminate.
  rewrite (IH _ _ (fun k' v' H => Hne k' v' (or_intror H)) E). cbn [mlen]. destruct k; [elim (Hne [] v); [now left|reflexivity]|lia].
Qed.
Lemma entry_trees_inj tag ka va l : forall l', map (entry_tree tag ka va) l = map (entry_tree tag ka va) l' -> l = l'.
Proof.
  induction l as [|[a b] l IH]; intros [|[a' b'] l'] E; try discriminate; [reflexivity|]. injection E as -> -> E. f_equal. now apply IH.
Qed.
Lemma mdict_any w t ls : mreach t -> mdict_trees (dtag w) (detag w) (dkey w) (dval_ w) t = Ok ls ->
  exists l t', ls = dict_opt w l /\ mt_sets mt_create (map some_val (opt_list l)) = Ok t' /\ mdict_after t t'.
Proof.
  intros Hr Em. pose proof (mdict_back (dtag w) (detag w) (dkey w) (dval_ w) t Hr) as Hback. rewrite Em in Hback. revert Em.
  unfold mdict_trees, mdict_after. destruct (mlen t =? 0)%Z eqn:Eml.
  { intros E. apply Ok_inj in E. subst ls. exists None, mt_create. split; [reflexivity|]. split; [reflexivity|].
    assert (Hp : forall k, mt_get (@mt_create ostr) k = Ok None) by (intros k; rewrite mt_get_mlook; unfold mlook, mt_create; cbn [mroot]; now rewrite look_empty).
    split; [|split; [auto|]].
    - intros k. rewrite Hp. destruct (mt_get t k) as [[l|]| |]; reflexivity.
    - intros (_ & Hz) k. rewrite Hp, Hz; [reflexivity|]. now apply Z.eqb_eq. }
  destruct (md_enum t Hr) as (ps & Ep & Hnd & Hin & _). rewrite Ep. cbn [bind]. destruct (mpairs_texts ps) as [ts| |] eqn:Et; cbn [bind]; try discriminate. intros E. apply Ok_inj in E.
  destruct (texts_values ps ts Et Hnd) as [Hi Hv].
  assert (Hne : nonempty_keys (map some_val ts)).
  { intros k v H ->. apply in_map_iff in H. destruct H as ([k0 s] & Ek & H). apply pair_equal_spec in Ek. destruct Ek as [Ek _]. cbn [fst] in Ek. subst k0.
    assert (Hk : In [] (map fst ps)) by (apply Hi, in_map_iff; now exists ([], s)). apply in_map_iff in Hk. destruct Hk as ([k0 l] & Ek & Hk). cbn [fst] in Ek. subst k0.
    apply Hin in Hk. discriminate. }
  destruct (md_get_flat (map some_val ts) Hne) as (t' & Es & _ & Hg). exists (Some ts), t'. split; [now subst ls|]. split; [exact Es|]. split; [|split].
  2:{ intros Hz. rewrite (mt_sets_len _ _ _ Hne Es) in Hz. cbn [mt_create mlen] in Hz. destruct ts as [|x ts]; [|cbn [map length] in Hz; lia].
      cbn [map mt_sets] in Es. apply Ok_inj in Es. subst t'. intros k. rewrite mt_get_mlook. unfold mlook, mt_create. cbn [mroot]. now rewrite look_empty. }
  2:{ intros Hn. destruct (Hback Hn) as (l & t2 & El & E2 & Hg2). subst ls. assert (El' : l = Some ts).
      { apply Ok_inj in El. destruct l as [l|]; [|discriminate]. injection El as El. f_equal. symmetry. revert El. apply entry_trees_inj. }
      subst l. cbn [map] in E2. assert (t2 = t') by congruence. subst t2. exact Hg2. }
  intros k.
  rewrite Hg, values_of_some.
  assert (Hnone : (forall l, ~ In (k, l) ps) -> map (@Some str) (values_of ts k) = []).
  { intros Hn. destruct (values_of ts k) eqn:Ez; [reflexivity|]. exfalso. assert (Hk : In k (map fst ps)) by (apply Hi, values_of_in; congruence).
    apply in_map_iff in Hk. destruct Hk as ([k0 l0] & Ek & Hk). cbn [fst] in Ek. subst k0. exact (Hn l0 Hk). }
  destruct (mt_get t k) as [[l|]| |] eqn:Ek.
  - apply Hin in Ek. destruct (Hv k l Ek) as (ss & E1 & E2). exists ss. split; [exact E1|]. now rewrite E2.
  - apply Hnone. intros l Hl. apply Hin in Hl. congruence.
  - apply Hnone. intros l Hl. apply Hin in Hl. congruence.
  - apply Hnone. intros l Hl. apply Hin in Hl. congruence.
Qed.
Lemma thin_entries tag ka va l : forall ts, Forall2 thin (map (entry_tree tag ka va) l) ts -> ts = map (entry_tree tag ka va) l.
Proof.
  induction l as [|x l IH]; intros ts H; cbn [map] in H; inversion H as [|? t ? r Ht Hr]; subst; [reflexivity|]. apply thin_elem in Ht. destruct Ht as (b & -> & Hb). inversion Hb; subst.
  cbn [map]. f_equal. now apply IH.
Qed.
Lemma thin_dict w l ts : Forall2 thin (dict_opt w l) ts -> ts = dict_opt w l.
Proof.
  destruct l as [l|]; cbn [dict_opt]; [|apply thin_none]. intros H. unfold dict_tree in H. apply thin_list in H. destruct H as (us & -> & H). apply thin_entries in H. subst us. reflexivity.
Qed.

(** ** Lists of objects *)
Section Docs.
Variables (dt : option (ostr * ostr * ostr)) (en : ostr) (op : dopts).
Notation plays2 := (plays2 dt en op).
Lemma map_r_cons' {A B} (f : A -> res B) x l ts : map_r f (x :: l) = Ok ts -> exists t us, f x = Ok t /\ map_r f l = Ok us /\ ts = t :: us.
Proof. apply map_r_cons. Qed.
Lemma full_cons {A} (R : A -> A -> Prop) x y l l' : Forall2 R (x :: l) (y :: l') <-> R x y /\ Forall2 R l l'.
Proof. split; [intros H; inversion H; subst; auto|intros [? ?]; now constructor]. Qed.
Lemma play_groups_any o gs : forall ts us ed sk nm cs d, Forall (fun g => base_fits (g_base g)) gs -> map_r (group_tree o op) gs = Ok ts -> Forall2 thin (trees_of ts) us ->
  el_type ed = TDoc -> el_valid ed = true -> pdoc d ->
  exists d' gs' es, plays2 (ed :: sk) (PLive d) nm (sers us ++ cs) (ed :: sk) (PLive d') nm cs es /\
    pdoc d' /\ same_head d d' /\ doc_parts d' = with_groups (doc_parts d) (pt_groups (doc_parts d) ++ gs') /\
    Forall2 (group_after op o) (filter (fun g => negb (group_left_outb o g)) gs) gs' /\
    (es = [] <-> Forall2 (group_full o) (filter (fun g => negb (group_left_outb o g)) gs) gs').
Proof.
  induction gs as [|g gs IH]; intros ts us ed sk nm cs d Hf E Ht Et Ev Hd.
  - apply Ok_inj in E. subst ts. apply thin_none in Ht. subst us. exists d, [], []. split; [apply plays2_refl|]. split; [exact Hd|]. split; [apply same_head_refl|].
    split; [rewrite app_nil_r; now apply groups_id|]. split; [constructor|]. split; [constructor|reflexivity].
  - apply map_r_cons in E. destruct E as (y & ys & Ey & Eys & ->). apply Forall_cons_iff in Hf. destruct Hf as [Hg Hf]. cbn [filter].
    destruct (group_out o op g y Ey) as [(Ho & v & -> & _)|(Ho & t & ->)].
    + assert (Hb : group_left_outb o g = true) by now apply group_left_outb_iff. rewrite Hb. cbn [negb]. exact (IH ys us ed sk nm cs d Hf Eys Ht Et Ev Hd).
    + assert (Hb : group_left_outb o g = false) by (destruct (group_left_outb o g) eqn:Hb; [apply group_left_outb_iff in Hb; contradiction|reflexivity]).
      rewrite Hb. cbn [negb]. change (trees_of (inl t :: ys)) with (t :: trees_of ys) in Ht. inversion Ht as [|? t' ? us' Ht1 Ht2]; subst.
      destruct (play_group_any dt en op o g t t' ed sk nm (sers us' ++ cs) d Hg Ey Ht1 Et Ev Hd) as (d1 & g' & e1 & Q1 & Hd1 & Hh1 & P1 & K1 & F1).
      destruct (IH ys us' ed sk nm cs d1 Hf Eys Ht2 Et Ev Hd1) as (d2 & gs' & e2 & Q2 & Hd2 & Hh2 & P2 & K2 & F2).
      exists d2, (g' :: gs'), (e1 ++ e2). split; [|split; [exact Hd2|split; [now apply same_head_trans with d1|split; [|split; [now constructor|]]]]].
      * unfold sers. cbn [flat_map]. rewrite <- app_assoc. eapply plays2_trans; [exact Q1|exact Q2].
      * rewrite P2, P1. cbn [with_groups pt_groups]. now rewrite <- app_assoc.
      * rewrite full_cons. now apply app_nil_iff.
Qed.
Lemma play_cats_any o gs : forall ts us ed sk nm cs d, Forall (fun g => base_fits (c_base g)) gs -> map_r (category_tree o) gs = Ok ts -> Forall2 thin (trees_of ts) us ->
  el_type ed = TDoc -> el_valid ed = true -> pdoc d ->
  exists d' gs' es, plays2 (ed :: sk) (PLive d) nm (sers us ++ cs) (ed :: sk) (PLive d') nm cs es /\
    pdoc d' /\ same_head d d' /\ doc_parts d' = with_cats (doc_parts d) (pt_cats (doc_parts d) ++ gs') /\
    Forall2 (cat_after o) (filter (fun g => negb (cat_left_outb o g)) gs) gs' /\
    (es = [] <-> Forall2 (cat_full o) (filter (fun g => negb (cat_left_outb o g)) gs) gs').
Proof.
  induction gs as [|g gs IH]; intros ts us ed sk nm cs d Hf E Ht Et Ev Hd.
  - apply Ok_inj in E. subst ts. apply thin_none in Ht. subst us. exists d, [], []. split; [apply plays2_refl|]. split; [exact Hd|]. split; [apply same_head_refl|].
    split; [rewrite app_nil_r; now apply cats_id|]. split; [constructor|]. split; [constructor|reflexivity].
  - apply map_r_cons in E. destruct E as (y & ys & Ey & Eys & ->). apply Forall_cons_iff in Hf. destruct Hf as [Hg Hf]. cbn [filter].
    destruct (cat_out o g y Ey) as [(Ho & v & -> & _)|(Ho & t & ->)].
    + assert (Hb : cat_left_outb o g = true) by now apply cat_left_outb_iff. rewrite Hb. cbn [negb]. exact (IH ys us ed sk nm cs d Hf Eys Ht Et Ev Hd).
    + assert (Hb : cat_left_outb o g = false) by (destruct (cat_left_outb o g) eqn:Hb; [apply cat_left_outb_iff in Hb; contradiction|reflexivity]).
      rewrite Hb. cbn [negb]. change (trees_of (inl t :: ys)) with (t :: trees_of ys) in Ht. inversion Ht as [|? t' ? us' Ht1 Ht2]; subst.
      destruct (play_cat_any dt en op o g t t' ed sk nm (sers us' ++ cs) d Hg Ey Ht1 Et Ev Hd) as (d1 & g' & e1 & Q1 & Hd1 & Hh1 & P1 & K1 & F1).
      destruct (IH ys us' ed sk nm cs d1 Hf Eys Ht2 Et Ev Hd1) as (d2 & gs' & e2 & Q2 & Hd2 & Hh2 & P2 & K2 & F2).
      exists d2, (g' :: gs'), (e1 ++ e2). split; [|split; [exact Hd2|split; [now apply same_head_trans with d1|split; [|split; [now constructor|]]]]].
      * unfold sers. cbn [flat_map]. rewrite <- app_assoc. eapply plays2_trans; [exact Q1|exact Q2].
      * rewrite P2, P1. cbn [with_cats pt_cats]. now rewrite <- app_assoc.
      * rewrite full_cons. now apply app_nil_iff.
Qed.
Lemma play_envs_any o gs : forall ts us ed sk nm cs d, Forall (fun g => base_fits (e_base g)) gs -> map_r (env_tree o) gs = Ok ts -> Forall2 thin (trees_of ts) us ->
  el_type ed = TDoc -> el_valid ed = true -> pdoc d ->
  exists d' gs' es, plays2 (ed :: sk) (PLive d) nm (sers us ++ cs) (ed :: sk) (PLive d') nm cs es /\
    pdoc d' /\ same_head d d' /\ doc_parts d' = with_envs (doc_parts d) (pt_envs (doc_parts d) ++ gs') /\
    Forall2 (env_after o) (filter (fun g => negb (env_left_outb o g)) gs) gs' /\
    (es = [] <-> Forall2 (env_full o) (filter (fun g => negb (env_left_outb o g)) gs) gs').
Proof.
  induction gs as [|g gs IH]; intros ts us ed sk nm cs d Hf E Ht Et Ev Hd.
  - apply Ok_inj in E. subst ts. apply thin_none in Ht. subst us. exists d, [], []. split; [apply plays2_refl|]. split; [exact Hd|]. split; [apply same_head_refl|].
    split; [rewrite app_nil_r; now apply envs_id|]. split; [constructor|]. split; [constructor|reflexivity].
  - apply map_r_cons in E. destruct E as (y & ys & Ey & Eys & ->). apply Forall_cons_iff in Hf. destruct Hf as [Hg Hf]. cbn [filter].
    destruct (env_out o g y Ey) as [(Ho & v & -> & _)|(Ho & t & ->)].
    + assert (Hb : env_left_outb o g = true) by now apply env_left_outb_iff. rewrite Hb. cbn [negb]. exact (IH ys us ed sk nm cs d Hf Eys Ht Et Ev Hd).
    + assert (Hb : env_left_outb o g = false) by (destruct (env_left_outb o g) eqn:Hb; [apply env_left_outb_iff in Hb; contradiction|reflexivity]).
      rewrite Hb. cbn [negb]. change (trees_of (inl t :: ys)) with (t :: trees_of ys) in Ht. inversion Ht as [|? t' ? us' Ht1 Ht2]; subst.
      destruct (play_env_any dt en op o g t t' ed sk nm (sers us' ++ cs) d Hg Ey Ht1 Et Ev Hd) as (d1 & g' & e1 & Q1 & Hd1 & Hh1 & P1 & K1 & F1).
      destruct (IH ys us' ed sk nm cs d1 Hf Eys Ht2 Et Ev Hd1) as (d2 & gs' & e2 & Q2 & Hd2 & Hh2 & P2 & K2 & F2).
      exists d2, (g' :: gs'), (e1 ++ e2). split; [|split; [exact Hd2|split; [now apply same_head_trans with d1|split; [|split; [now constructor|]]]]].
      * unfold sers. cbn [flat_map]. rewrite <- app_assoc. eapply plays2_trans; [exact Q1|exact Q2].
      * rewrite P2, P1. cbn [with_envs pt_envs]. now rewrite <- app_assoc.
      * rewrite full_cons. now apply app_nil_iff.
Qed.

(** ** Documents *)
Definition fits (b : base) : Prop := prop b (S_ "display_order") order_fits.
Definition parts_fit (p : parts) : Prop :=
  Forall (fun g => fits (g_base g)) (pt_groups p) /\ Forall (fun c => fits (c_base c)) (pt_cats p) /\ Forall (fun e => fits (e_base e)) (pt_envs p).
Definition kept_groups o (p : parts) := filter (fun g => negb (group_left_outb o g)) (pt_groups p).
Definition kept_cats o (p : parts) := filter (fun g => negb (cat_left_outb o g)) (pt_cats p).
Definition kept_envs o (p : parts) := filter (fun g => negb (env_left_outb o g)) (pt_envs p).
Definition parts_after (o : xopts) (p p' : parts) : Prop :=
  Forall2 (group_after op o) (kept_groups o p) (pt_groups p') /\ Forall2 (cat_after o) (kept_cats o p) (pt_cats p') /\ Forall2 (env_after o) (kept_envs o p) (pt_envs p') /\
  lang_after (pt_langpacks p) (pt_langpacks p') /\ mdict_after (pt_blacklist p) (pt_blacklist p') /\ mdict_after (pt_whiteout p) (pt_whiteout p').
Definition parts_full (o : xopts) (p p' : parts) : Prop :=
  Forall2 (group_full o) (kept_groups o p) (pt_groups p') /\ Forall2 (cat_full o) (kept_cats o p) (pt_cats p') /\ Forall2 (env_full o) (kept_envs o p) (pt_envs p').
Lemma play_doc_any o d0 x t' cs p : docwf d0 -> parts_fit (doc_parts d0) -> doc_tree o op d0 = Ok x -> thin (fst x) t' ->
  exists d' es, plays2 [] p [] (ser t' ++ cs) [] (PLive d') [] cs es /\ pdoc d' /\ d_enc d' = Some en /\ parts_after o (doc_parts d0) (doc_parts d') /\
    (es = [] <-> parts_full o (doc_parts d0) (doc_parts d')).
Proof.
  intros Hwf (Fg & Fc & Fe) E Ht. unfold doc_tree in E.
  destruct (parts_wf d0 Hwf) as (Gg & Gc & Ge & Rl & Rb & Rw).
  assert (Hg : Forall (fun g => base_fits (g_base g)) (pt_groups (doc_parts d0))) by (rewrite Forall_forall in *; intros g Hi; split; [exact (Gg g Hi)|exact (Fg g Hi)]).
  assert (Hc : Forall (fun g => base_fits (c_base g)) (pt_cats (doc_parts d0))) by (rewrite Forall_forall in *; intros g Hi; split; [exact (Gc g Hi)|exact (Fc g Hi)]).
  assert (He : Forall (fun g => base_fits (e_base g)) (pt_envs (doc_parts d0))) by (rewrite Forall_forall in *; intros g Hi; split; [exact (Ge g Hi)|exact (Fe g Hi)]).
  clear Gg Gc Ge Fg Fc Fe.
  destruct (doc_groups_ok d0 Hwf) as (e1 & G1 & W1 & _ & P1). rewrite G1 in E. cbn [bind fst snd] in E.
  apply bind_ok in E. destruct E as (gs & Egs & E).
  destruct (doc_cats_ok e1 W1) as (e2 & G2 & W2 & _ & P2). rewrite G2 in E. cbn [bind fst snd] in E. rewrite P1 in E, P2.
  apply bind_ok in E. destruct E as (cts & Ects & E).
  destruct (doc_envs_ok e2 W2) as (e3 & G3 & W3 & _ & P3). rewrite G3 in E. cbn [bind fst snd] in E. rewrite P2 in E, P3.
  apply bind_ok in E. destruct E as (es & Ees & E).
  destruct (doc_langpacks_ok e3 W3) as (e4 & G4 & W4 & _ & P4). rewrite G4 in E. cbn [bind fst snd] in E. rewrite P3 in E, P4.
  apply bind_ok in E. destruct E as (ls & El & E). destruct (lang_any _ _ (reach_wft _ _ Rl) El) as (ll & lt & -> & Sl & Kl).
  destruct (doc_blacklist_ok e4 W4) as (e5 & G5 & W5 & _ & P5). rewrite G5 in E. cbn [bind fst snd] in E. rewrite P4 in E, P5.
  apply bind_ok in E. destruct E as (bs & Eb & E). destruct (mdict_any KBlack _ _ Rb Eb) as (bl & bt & -> & Sb & Kb).
  destruct (doc_whiteout_ok e5 W5) as (e6 & G6 & W6 & _ & P6). rewrite G6 in E. cbn [bind fst snd] in E. rewrite P5 in E, P6.
  apply bind_ok in E. destruct E as (ws & Ew & E). destruct (mdict_any KWhite _ _ Rw Ew) as (wl & wt & -> & Sw & Kw).
  apply Ok_inj in E. subst x. cbn [fst] in Ht. apply thin_elem in Ht. destruct Ht as (b' & -> & Ht).
  apply Forall2_app_inv_l in Ht. destruct Ht as (ug & r1 & Tg & Ht & ->). apply Forall2_app_inv_l in Ht. destruct Ht as (uc & r2 & Tc & Ht & ->).
  apply Forall2_app_inv_l in Ht. destruct Ht as (ue & r3 & Te & Ht & ->). apply Forall2_app_inv_l in Ht. destruct Ht as (ul & r4 & Tl & Ht & ->).
  apply Forall2_app_inv_l in Ht. destruct Ht as (ub & uw & Tb & Tw & ->). apply thin_dict in Tl, Tb, Tw. subst ul ub uw.
  destruct (no_attrs TDoc) as (dict & Ea & Ec & _). set (ed := mkElem TDoc true dict).
  destruct (doc_create_ok en) as (d & Ed & Hd & Pd & Hen & _).
  set (nm := [S_ "comps"]). set (tl := WEnd :: cs).
  set (c6 := sers (dict_opt KWhite wl) ++ tl). set (c5 := sers (dict_opt KBlack bl) ++ c6). set (c4 := sers (dict_opt KLang ll) ++ c5).
  set (c3 := sers ue ++ c4). set (c2 := sers uc ++ c3).
  destruct (play_groups_any o _ gs ug ed [] nm c2 d Hg Egs Tg eq_refl eq_refl Hd) as (d1 & gs' & l1 & Q1 & D1 & H1 & R1 & K1 & F1).
  destruct (play_cats_any o _ cts uc ed [] nm c3 d1 Hc Ects Tc eq_refl eq_refl D1) as (d2 & cs' & l2 & Q2 & D2 & H2 & R2 & K2 & F2).
  destruct (play_envs_any o _ es ue ed [] nm c4 d2 He Ees Te eq_refl eq_refl D2) as (d3 & es' & l3 & Q3 & D3 & H3 & R3 & K3 & F3).
  rewrite Pd in R1. rewrite R1 in R2. rewrite R2 in R3. cbn [no_parts with_groups with_cats with_envs pt_groups pt_cats pt_envs pt_langpacks pt_blacklist pt_whiteout app] in R3.
  destruct (adds_lang (opt_list ll) d3 lt D3) as (d4 & A4 & D4 & H4 & R4); [rewrite R3; exact Sl|].
  destruct (adds_black (opt_list bl) d4 bt D4) as (d5 & A5 & D5 & H5 & R5); [rewrite R4, R3; exact Sb|].
  destruct (adds_white (opt_list wl) d5 wt D5) as (d6 & A6 & D6 & H6 & R6); [rewrite R5, R4, R3; exact Sw|].
  exists d6, ([] ++ l1 ++ l2 ++ l3 ++ [] ++ [] ++ [] ++ []). split; [|split; [exact D6|split; [|split]]].
  - rewrite ser_elem. unfold sers. rewrite !flat_map_app, <- !app_assoc.
    eapply plays2_trans; [apply plays2_of, plays_start with (a := []) (dict := dict) (p1 := PLive d)|].
    + change (no_attr (sers ug ++ c2)). clear. unfold c2, c3, c4, c5, c6, tl.
      repeat apply no_attr_app. exact I.
    + exact Ea.
    + exact Ec.
    + reflexivity.
    + gtype. unfold preproc. cbn [el_type]. rewrite Ed. reflexivity.
    + eapply plays2_trans; [exact Q1|]. eapply plays2_trans; [exact Q2|]. eapply plays2_trans; [exact Q3|].
      eapply plays2_trans; [apply plays2_of, (play_dicts dt en op KLang ll ed [] nm c5 d3 d4 eq_refl eq_refl A4)|].
      eapply plays2_trans; [apply plays2_of, (play_dicts dt en op KBlack bl ed [] nm c6 d4 d5 eq_refl eq_refl A5)|].
      eapply plays2_trans; [apply plays2_of, (play_dicts dt en op KWhite wl ed [] nm tl d5 d6 eq_refl eq_refl A6)|].
      apply plays2_end; reflexivity.
  - assert (Hh : same_head d d6) by (repeat (eapply same_head_trans; [eassumption|]); apply same_head_refl). destruct Hh as [-> _]. exact Hen.
  - rewrite R6, R5, R4, R3. unfold parts_after. cbn [with_langpacks with_blacklist with_whiteout pt_groups pt_cats pt_envs pt_langpacks pt_blacklist pt_whiteout].
    split; [exact K1|]. split; [exact K2|]. split; [exact K3|]. split; [exact Kl|]. split; [exact Kb|exact Kw].
  - rewrite R6, R5, R4, R3. unfold parts_full. cbn [with_langpacks with_blacklist with_whiteout pt_groups pt_cats pt_envs pt_langpacks pt_blacklist pt_whiteout].
    cbn [app]. rewrite app_nil_r. exact (app_nil_iff _ _ _ _ F1 (app_nil_iff _ _ _ _ F2 F3)).
Qed.
End Docs.

(** ** Files and strings *)
Lemma run_doc_any op o d0 x t' e n p s es q en : docwf d0 -> parts_fit (doc_parts d0) -> doc_tree o op d0 = Ok x -> thin (fst x) t' ->
  heard [] (WStartDoc e :: dtd_calls n p s ++ ser t' ++ [WEndDoc]) es ->
  exists d' lg, run false (mkP [] [] 0 q [] false None en op) es = Ok (mkP [] [] 0 (PLive d') lg false (Some (n, s, p)) en op) /\
    pdoc d' /\ d_enc d' = Some en /\ parts_after op o (doc_parts d0) (doc_parts d') /\ (lg = [] <-> parts_full o (doc_parts d0) (doc_parts d')).
Proof.
  intros Hw Hn E Ht H. destruct (heard_dtd _ _ _ _ _ _ H) as (bl & es' & -> & Hb & He).
  destruct (play_doc_any (Some (n, s, p)) en op o d0 x t' [WEndDoc] q Hw Hn E Ht) as (d' & lg & Q & Hd & Hen & Hk & Hfull).
  destruct (Q es' He) as (e1 & e2 & -> & R & H2). destruct (heard_enddoc _ H2) as (bl2 & -> & Hb2).
  exists d', lg. split; [|auto]. rewrite run_blanks by exact Hb. cbn [run step bind]. unfold doctype_handler, with_doctype.
  cbn [ps_stack ps_text ps_len ps_doc ps_log ps_fatal ps_enc ps_opts]. rewrite SpecF3.run_app.
  match goal with |- bind ?m _ = _ => replace m with (Ok (pre lg (at_ (Some (n, s, p)) en op [] (PLive d')))) by (symmetry; exact R) end. cbn [bind].
  rewrite <- (app_nil_r (map EChars bl2)), run_blanks by exact Hb2. unfold pre, at_. cbn. now rewrite app_nil_r.
Qed.
(** What a load returns: 0 if nothing was lost that is complained about, else 1. *)
Definition load_result (o : xopts) (df : dopts) (d : doc) (en : ostr) (st' : pst) (c : Z) : Prop :=
  exists d', ps_doc st' = PLive d' /\ docwf d' /\ head_carried d d' en /\ parts_after df o (doc_parts d) (doc_parts d') /\ ps_fatal st' = false /\
    (ps_log st' = [] <-> parts_full o (doc_parts d) (doc_parts d')) /\ (c = 0%Z <-> parts_full o (doc_parts d) (doc_parts d')) /\ (c = 0%Z \/ c = 1%Z).
Lemma retext_file n p s t e cs' : Forall2 (retext seen) (WStartDoc e :: dtd_calls n p s ++ ser t ++ [WEndDoc]) cs' ->
  exists t', thin t t' /\ cs' = WStartDoc e :: dtd_calls n p s ++ ser t' ++ [WEndDoc].
Proof.
  assert (Hsame : forall c c' , retext seen c c' -> (forall s, c <> WText s) -> c' = c) by (intros c c' H Hn; inversion H; subst; [now elim (Hn s0)|reflexivity]).
  intros H. inversion H as [|? c1 ? r1 H1 R1]; subst. apply Hsame in H1; [|discriminate]. subst c1.
  unfold dtd_calls in *. cbn [app] in R1. inversion R1 as [|? c2 ? r2 H2 R2]; subst. apply Hsame in H2; [|discriminate]. subst c2.
  inversion R2 as [|? c3 ? r3 H3 R3]; subst. apply Hsame in H3; [|discriminate]. subst c3.
  apply retext_thin in R3. destruct R3 as (t' & r & -> & Ht & R4). inversion R4 as [|? c4 ? r4 H4 R5]; subst. apply Hsame in H4; [|discriminate]. subst c4. inversion R5; subst.
  exists t'. split; [exact Ht|reflexivity].
Qed.
Lemma load_done o df d n p s en d' lg st' : d_name d = Some n -> d_pubid d = Some p -> d_sysid d = Some s -> pdoc d' -> d_enc d' = Some en ->
  parts_after df o (doc_parts d) (doc_parts d') -> (lg = [] <-> parts_full o (doc_parts d) (doc_parts d')) ->
  st' = mkP [] [] 0 (PLive (mkDoc (d_objs d') (d_enc d') (Some n) (Some s) (Some p))) lg false (Some (n, s, p)) en df ->
  load_result o df d en st' (parse_code st').
Proof.
  intros En Ep Es Hd He Hk Hf ->. exists (mkDoc (d_objs d') (d_enc d') (Some n) (Some s) (Some p)). split; [reflexivity|]. split; [exact (proj1 Hd)|].
  split; [unfold head_carried; cbn [d_enc d_name d_sysid d_pubid]; auto|]. split; [exact Hk|]. split; [reflexivity|]. split; [exact Hf|].
  change (parts_full o (doc_parts d) (doc_parts (mkDoc (d_objs d') (d_enc d') (Some n) (Some s) (Some p)))) with (parts_full o (doc_parts d) (doc_parts d')).
  rewrite <- Hf. unfold parse_code. cbn [ps_log ps_fatal]. destruct lg; split; auto; split; intros H; try reflexivity; try discriminate.
Qed.
Lemma round_file_any ac name saved x df d w' r cs' st fs : docwf d -> parts_fit (doc_parts d) ->
  comps2xml_f ac name saved x df d w0 = Ok (w', r) -> Forall (fun c => snd c = true) (w_calls w') ->
  Forall2 (retext seen) (calls w') cs' -> heard [] cs' (concat (map fst fs)) -> Forall (fun f => snd f = None) fs -> ready st ->
  exists st' c, parse_file false st (Some fs) df = Ok (st', c) /\ ready st' /\ load_result (opt_xopts x) (opt_dopts df) d (ps_enc st) st' c.
Proof.
  intros Hw Hn E Ha Hr Hh Hf (Hl & Hd). destruct (xml_f_calls _ _ _ _ _ _ _ _ E Ha) as (n & p & s & t & En & Ep & Es & Et & Ec & _). rewrite Ec in Hr.
  apply retext_file in Hr. destruct Hr as (t' & Ht & ->).
  set (q := match ps_doc st with PLive _ => PFreed | x => x end).
  assert (Er : reinit st = Ok (mkP [] [] 0 q [] false None (ps_enc st) (ps_opts st))).
  { unfold reinit, q. rewrite Hl. destruct (ps_doc st); [reflexivity|congruence|reflexivity]. }
  destruct (run_doc_any (opt_dopts df) (opt_xopts x) d t t' (enc_str d) n p s (concat (map fst fs)) q (ps_enc st) Hw Hn Et Ht Hh) as (d' & lg & R & Hd' & Hen & Hk & Hfl).
  unfold parse_file. rewrite Er. cbn [bind]. unfold with_opts. cbn [ps_stack ps_text ps_len ps_doc ps_log ps_fatal ps_doctype ps_enc].
  apply run_feeds_clean in R; [|exact Hf]. fold (opt_dopts df). rewrite R. cbn [bind]. erewrite after_dtd by reflexivity. cbn [bind].
  eexists _, _. split; [reflexivity|]. split; [split; [reflexivity|discriminate]|].
  exact (load_done _ _ d n p s (ps_enc st) d' lg _ En Ep Es Hd' Hen Hk Hfl eq_refl).
Qed.
Lemma round_str_any ac x df d w' cs' en f : docwf d -> parts_fit (doc_parts d) ->
  comps2xml_str ac x df d w0 = Ok (w', tt) -> Forall (fun c => snd c = true) (w_calls w') ->
  Forall2 (retext seen) (calls w') cs' -> heard [] cs' (fst f) -> snd f = None ->
  exists st' c, parse_str false (parsed_init en) f df = Ok (st', c) /\ load_result (opt_xopts x) (opt_dopts df) d en st' c.
Proof.
  intros Hw Hn E Ha Hr Hh Hf. destruct (xml_str_calls _ _ _ _ _ E Ha) as (n & p & s & t & En & Ep & Es & Et & Ec). rewrite Ec in Hr.
  apply retext_file in Hr. destruct Hr as (t' & Ht & ->).
  destruct (run_doc_any (opt_dopts df) (opt_xopts x) d t t' (enc_str d) n p s (fst f) PNull en Hw Hn Et Ht Hh) as (d' & lg & R & Hd' & Hen & Hk & Hfl).
  unfold parse_str, parsed_init, with_opts. cbn [ps_stack ps_text ps_len ps_doc ps_log ps_fatal ps_doctype ps_enc].
  fold (opt_dopts df). rewrite <- (app_nil_r (fst f)) in R. change (fst f ++ []) with (concat (map fst [f])) in R.
  apply run_feeds_clean in R; [|repeat constructor; exact Hf].
  match goal with |- context [run_feeds ?a ?b ?c] => let E := fresh in assert (E : run_feeds a b c = _) by exact R; rewrite E; clear E end. cbn [bind]. erewrite after_dtd by reflexivity. cbn [bind].
  eexists _, _. split; [reflexivity|].
  exact (load_done _ _ d n p s en d' lg _ En Ep Es Hd' Hen Hk Hfl eq_refl).
Qed.
End Reader.
