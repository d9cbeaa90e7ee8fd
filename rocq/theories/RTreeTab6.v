(** The tables of RTreeTab3 for the users of the string dictionaries: the Python
    StrDict (pycomps_dict.c, PyDictModel) and the attributes of an XML element
    (comps_parse.c, OwnModel). *)
From Coq Require Import Permutation.
From Verif Require Import CStr CStrFacts HSListModel HSListFacts RTreeModel RTreeFacts RTreeFacts2 RTreeFacts3 RTreeFacts4 SpecA SpecB
  OwnModel OwnFacts OwnFacts2 OwnFacts3 OwnFacts4 MDictFacts MDictSpec RTreeTab RTreeTab2 RTreeTab3 RTreeTab4 RTreeTab5
  ParseModel ObjModel StrModel PyObjModel PyDictModel PyDictFacts.

(** Storing the pairs [kvs] one after the other, on a table. *)
Definition y_put {V} (s : ystate V) (k : str) (v : V) : ystate V :=
  let r := y_set (y_tab s) k (Some v) in mkY (fst r) (if snd r then S (y_len s) else y_len s).
Definition y_puts {V} (s : ystate V) (kvs : list (str * V)) : ystate V := fold_left (fun s kv => y_put s (fst kv) (snd kv)) kvs s.
Lemma put_shows {V} (t : rtree V) s k v : tshows t s -> exists t', rt_set t k (Some v) = Ok t' /\ tshows t' (y_put s k v).
Proof.
  intros (Hs & El). unfold rt_set, y_put. destruct (set_oshows (troot t) (y_tab s) k (Some v) Hs) as (h' & -> & H'). cbn [bind fst snd].
  eexists. split; [reflexivity|]. split; [exact H'|]. cbn [tlen y_len]. now rewrite El.
Qed.
Lemma puts_shows {V} (kvs : list (str * V)) : forall t s, tshows t s -> exists t', rt_sets t kvs = Ok t' /\ tshows t' (y_puts s kvs).
Proof.
  induction kvs as [|[k v] kvs IH]; intros t s H; cbn [rt_sets y_puts fold_left fst snd]; [eauto|].
  destruct (put_shows t s k v H) as (t' & -> & H'). cbn [bind]. exact (IH _ _ H').
Qed.

(** Assignments and clear() of a StrDict, on a table: a key that is a str and a value
    that is a str or bytes (one without an encoding is stored without a value). *)
Fixpoint y_assign (s : ystate ostr) (os : list sdop) : ystate ostr :=
  match os with
  | [] => s
  | SdSet (PyText k) (PyText v) :: r | SdSet (PyText k) (PyBytes v) :: r => y_assign (y_put s (cut k) (Some (cut v))) r
  | SdSet (PyText k) PyBadText :: r => y_assign (y_put s (cut k) None) r
  | SdSet _ _ :: r => y_assign s r
  | SdClear :: r => y_assign (mkY y_new 0) r
  end.
Lemma sd_run_shows os : forall d s, no_del os -> tshows d s -> exists d' rs, sd_run d os = Ok (d', rs) /\ tshows d' (y_assign s os).
Proof.
  induction os as [|[k v|] os IH]; intros d s Hd H; cbn [sd_run y_assign]; [eauto| |].
  - assert (Hd' : no_del os) by (intros k' Hin; apply (Hd k'); now right).
    assert (Hst : exists d1 r, sd_set d k v = Ok (d1, r) /\ tshows d1 (y_assign s [SdSet k v])).
    { destruct k, v; try (exfalso; eapply Hd; left; reflexivity); cbn [sd_set str_in key_arg y_assign]; eauto;
        match goal with |- context [y_put s ?x ?y] => destruct (put_shows d s x y H) as (t' & -> & H') end; cbn [bind]; eauto. }
    destruct Hst as (d1 & r & -> & H1). cbn [bind fst snd]. destruct (IH d1 _ Hd' H1) as (d' & rs & E & H'). rewrite E. cbn [bind fst snd].
    exists d', (r :: rs). split; [reflexivity|]. destruct k, v; exact H'.
  - destruct (IH (sd_clear d) (mkY y_new 0)) as (d' & rs & -> & H').
    { intros k' Hin. apply (Hd k'). now right. }
    { split; [apply oshows_new|reflexivity]. }
    cbn [bind fst snd]. eauto.
Qed.
(** What a StrDict answers, for a table. *)
Record sd_reads (d : sdict) (s : ystate ostr) : Prop := {
  re_get : forall k, sd_get d (PyText k) = Ok (match y_get (y_tab s) (cut k) with Some x => to_py (str_tostr x) | None => Raise KeyError end);
  re_get_ : forall k, sd_get_ d (PyText k) =
    Ok (match y_get (y_tab s) (cut k) with
        | Some x => match to_py (str_tostr x) with Ret y => Ret (Some y) | _ => Raise UnicodeError end
        | None => Ret None end);
  re_has : forall k, sd_has_key d (PyText k) = Ok (Ret (match y_get (y_tab s) (cut k) with Some _ => true | None => false end));
  re_len : sd_len d = y_len s;
  re_lists : exists ps, Permutation ps (y_pairs (y_tab s)) /\
    sd_keys d = Ok (to_pys (map fst ps)) /\ sd_values d = Ok (to_pys (map (fun p => str_tostr (snd p)) ps)) /\
    sd_items d = (if forallb pair_ok ps then Ok (Ret (map (fun p => (fst p, str_tostr (snd p))) ps)) else UB)
}.
Lemma shows_reads d s : tshows d s -> sd_reads d s.
Proof.
  intros H. pose proof (fun k => rt_get_shows d s k H) as Hg. destruct H as (H & El). split.
  - intros k. unfold sd_get. cbn [key_arg]. now rewrite Hg.
  - intros k. unfold sd_get_. cbn [key_arg]. now rewrite Hg.
  - intros k. unfold sd_has_key. cbn [key_arg]. now rewrite Hg.
  - exact El.
  - exists (ents (hitems (troot d))). split; [now apply pairs_oshows|]. unfold sd_keys, sd_values, sd_items, rt_keys, rt_values. rewrite rt_pairs_ents. cbn [rmap bind]. rewrite map_map. auto.
Qed.
Lemma sd_run_exact os : no_del os -> exists d rs, sd_run sd_new os = Ok (d, rs) /\ sd_reads d (y_assign (mkY y_new 0) os).
Proof.
  intros Hd. destruct (sd_run_shows os sd_new (mkY y_new 0) Hd) as (d & rs & E & H); [split; [apply oshows_new|reflexivity]|]. exists d, rs. split; [exact E|]. now apply shows_reads.
Qed.

(** update() stores the pairs of the other dictionary, shorter keys first. *)
Definition prefixes_first {V} (kvs : list (str * V)) : Prop :=
  forall l1 k v l2 k', kvs = l1 ++ (k, v) :: l2 -> In k' (map fst l1) -> ~ proper_prefix k k'.
Lemma late_free_first {V} (kvs : list (str * V)) : forall D S : str -> Prop, NoDup (map fst kvs) -> (forall k, D k -> ~ In k (map fst kvs)) -> late_free D S kvs ->
  forall l1 k v l2 k', kvs = l1 ++ (k, v) :: l2 -> S k' \/ In k' (map fst l1) -> ~ proper_prefix k k'.
Proof.
  induction kvs as [|[k0 v0] kvs IH]; intros D S Hnd HD Hl l1 k v l2 k' E Hk; [now destruct l1|]. cbn [late_free] in Hl. destruct Hl as (_ & Hk0 & Hl).
  cbn [map fst] in Hnd. inversion Hnd as [|? ? Hn Hnd']; subst. destruct l1 as [|e l1]; cbn [app] in E.
  - injection E as -> -> ->. destruct Hk as [Hk|[]]. destruct Hk0 as [Hd|Hs]; [|now apply Hs]. exfalso. apply (HD _ Hd). now left.
  - injection E as <- E. eapply IH; [exact Hnd'| |exact Hl|exact E|].
    + intros q [Hq| ->]; [|exact Hn]. intros Hin. apply (HD _ Hq). now right.
    + destruct Hk as [Hk|[Hk|Hk]]; [left; now left|left; right; now symmetry|now right].
Qed.
Lemma sd_update_exact d e s1 s2 : tshows d s1 -> tshows e s2 ->
  exists kvs d', Permutation kvs (y_pairs (y_tab s2)) /\ prefixes_first kvs /\ sd_update d (Some e) = Ok (d', Ret tt) /\ tshows d' (y_puts s1 kvs).
Proof.
  intros H1 H2. assert (Hw : wft e) by apply H2. destruct (rt_unite_sets d e Hw) as (kvs & E & Hp & Hlf).
  destruct (puts_shows kvs d s1 H1) as (d' & E' & H'). exists kvs, d'. split; [etransitivity; [exact Hp|]; apply pairs_oshows, H2|]. split.
  - intros l1 k v l2 k' El Hin. eapply late_free_first with (D := fun _ => False) (S := fun _ => False); [| |apply Hlf; auto|exact El|now right].
    + eapply Permutation_NoDup; [apply Permutation_sym, Permutation_map, Hp|]. now apply ents_nodup.
    + intros ? [].
  - unfold sd_update. rewrite E, E'. auto.
Qed.
Lemma sd_pair_exact o1 o2 : no_del o1 -> no_del o2 ->
  let s1 := y_assign (mkY y_new 0) o1 in let s2 := y_assign (mkY y_new 0) o2 in
  exists d e r1 r2, sd_run sd_new o1 = Ok (d, r1) /\ sd_run sd_new o2 = Ok (e, r2) /\
    (exists kvs d', Permutation kvs (y_pairs (y_tab s2)) /\ prefixes_first kvs /\ sd_update d (Some e) = Ok (d', Ret tt) /\ sd_reads d' (y_puts s1 kvs)) /\
    (exists b, sd_cmp d (Some e) OpEq = Ok (Ret b) /\ sd_cmp d (Some e) OpNe = Ok (Ret (negb b)) /\ (b = true <-> forall k, y_get (y_tab s1) k = y_get (y_tab s2) k)).
Proof.
  intros Hd1 Hd2 s1 s2. assert (H0 : tshows sd_new (mkY y_new 0)) by (split; [apply oshows_new|reflexivity]).
  destruct (sd_run_shows o1 _ _ Hd1 H0) as (d & r1 & E1 & H1). destruct (sd_run_shows o2 _ _ Hd2 H0) as (e & r2 & E2 & H2). fold s1 in H1. fold s2 in H2.
  exists d, e, r1, r2. split; [exact E1|]. split; [exact E2|]. split.
  - destruct (sd_update_exact d e s1 s2 H1 H2) as (kvs & d' & A & B & C & D). exists kvs, d'. repeat (split; [assumption|]). now apply shows_reads.
  - set (id := fun v : ostr => v). pose proof (run_sets _ _ _ Hd1 E1) as R1. pose proof (run_sets _ _ _ Hd2 E2) as R2.
    destruct (cmp_same_map id ostr_cmp d e (reach_sets id _ _ R1) (reach_sets id _ _ R2)) as (b & E & Hb). exists b. unfold sd_cmp, dict_cmp. rewrite E. cbn [bind].
    split; [reflexivity|]. split; [reflexivity|]. rewrite Hb. unfold same_map. split; intros H k; specialize (H k); rewrite (rt_get_shows _ _ k H1), (rt_get_shows _ _ k H2) in *.
    + destruct (y_get (y_tab s1) k), (y_get (y_tab s2) k); try contradiction; [|reflexivity]. apply ostr_cmp_eq in H. congruence.
    + rewrite H. destruct (y_get (y_tab s2) k); [|exact I]. now apply ostr_cmp_eq.
Qed.

(** The attributes of an XML element. *)
Lemma attrs_exact (attrs : list (str * str)) :
  exists t s effs ev tb es' lost,
    attrs_dict rt_create attrs = Ok t /\ o_run (Plain true) (fun d => d) o_create (attr_ops attrs) = Ok (s, effs) /\
    o_root s = troot t /\ o_destroy (Plain true) s = Ok ev /\
    w_run (Plain true) (fun d => d) y_new (attr_ops attrs) = Ok (tb, es', lost) /\
    Permutation (destroyed effs ++ flat_map olist ev ++ lost) (map snd attrs).
Proof.
  destruct (attrs_total attrs rt_create wff_empty) as (t & Et).
  pose proof (attrs_refine attrs rt_create o_create eq_refl eq_refl) as R. rewrite Et in R. fold (attr_ops attrs) in R.
  assert (Hc : Forall (covered (Plain true)) (attr_ops attrs)).
  { apply Forall_forall. intros o Ho. unfold attr_ops in Ho. apply in_map_iff in Ho. destruct Ho as (x & <- & _). right. discriminate. }
  pose proof (w_run_exact (Plain true) (fun d => d) (attr_ops attrs) ltac:(discriminate) Hc) as W.
  destruct (o_run (Plain true) (fun d => d) o_create (attr_ops attrs)) as [[s effs]| |]; try contradiction.
  destruct (w_run (Plain true) (fun d => d) y_new (attr_ops attrs)) as [[[tb es'] lost]| |]; try contradiction.
  destruct R as [R1 R2]. destruct W as (_ & ev & Ed & _ & Hp). rewrite given_attrs in Hp.
  exists t, s, effs, ev, tb, es', lost. auto 10.
Qed.
(** comps_objrtree_set_n, comps_rtree_set_n after any history. *)
Lemma set_n_exact {V} kd ctor (os : list (oop V)) s es tb es' lost own k m d : kd <> Plain false -> Forall (covered kd) os ->
  o_run kd ctor o_create os = Ok (s, es) -> w_run kd ctor y_new os = Ok (tb, es', lost) -> m <= length k ->
  o_step kd ctor s (OSetN own k m d) = o_step kd ctor s (OSet own (w_key kd tb k m) d).
Proof.
  intros Hk Hc E1 E2 Hm. apply set_n_used; [|exact Hm].
  pose proof (w_run_shows kd ctor Hk os o_create y_new Hc (conj oshows_new eq_refl)) as H. rewrite E1, E2 in H. apply H.
Qed.
