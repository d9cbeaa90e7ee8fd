(** Facts about the Python dictionaries. *)
From Coq Require Import Permutation.
From Verif Require Import CStr CStrFacts HSListModel HSListFacts SetModel SetFacts RTreeModel RTreeFacts RTreeFacts2
  RTreeFacts3 RTreeFacts4 MRTreeModel MRTreeFacts MRTreeFacts2 MRTreeFacts3 ObjModel StrModel PyObjModel SpecA SpecB PyDictModel.

(** * UTF-8 *)
Lemma not_nul lo hi c : (0 < lo)%N -> byte_in lo hi c = true -> Ascii.eqb c NUL = false.
Proof.
  intros Hlo H. destruct (Ascii.eqb_spec c NUL) as [->|]; [|reflexivity].
  unfold byte_in in H. apply andb_true_iff in H. destruct H as [H _]. apply N.leb_le in H.
  change (N_of_ascii NUL) with 0%N in H. lia.
Qed.
Lemma cont_nn c : cont c = true -> Ascii.eqb c NUL = false.
Proof. apply not_nul. lia. Qed.
Ltac nn H := repeat match type of H with
  | _ && _ = true => let A := fresh in apply andb_true_iff in H; destruct H as [H A]
  end.
Lemma two_nn a b : two a b = true -> Ascii.eqb a NUL = false /\ Ascii.eqb b NUL = false.
Proof.
  unfold two. rewrite andb_true_iff. intros [H1 H2]. split; [exact (not_nul 194 223 a ltac:(lia) H1)|exact (cont_nn _ H2)].
Qed.
Lemma lead_nn lo hi lo' hi' a b : (0 < lo)%N -> (0 < lo')%N -> byte_in lo hi a && byte_in lo' hi' b = true ->
  Ascii.eqb a NUL = false /\ Ascii.eqb b NUL = false.
Proof.
  intros H1 H2. rewrite andb_true_iff. intros [Ha Hb]. split; [exact (not_nul _ _ _ H1 Ha)|exact (not_nul _ _ _ H2 Hb)].
Qed.
Lemma three_nn a b : three a b = true -> Ascii.eqb a NUL = false /\ Ascii.eqb b NUL = false.
Proof.
  unfold three. rewrite !orb_true_iff. intros [[H|H]|H].
  - refine (lead_nn _ _ _ _ a b _ _ H); lia.
  - apply andb_true_iff in H. destruct H as [H Hb]. split; [|exact (cont_nn _ Hb)].
    apply orb_true_iff in H. destruct H as [H|H]; refine (not_nul _ _ _ _ H); lia.
  - refine (lead_nn _ _ _ _ a b _ _ H); lia.
Qed.
Lemma four_nn a b : four a b = true -> Ascii.eqb a NUL = false /\ Ascii.eqb b NUL = false.
Proof.
  unfold four, cont. rewrite !orb_true_iff. intros [[H|H]|H]; refine (lead_nn _ _ _ _ a b _ _ H); lia.
Qed.
(** Cutting valid text at a NUL leaves valid text. *)
Lemma utf8_cut_n n : forall s, length s <= n -> utf8 s = true -> utf8 (cut s) = true.
Proof.
  induction n as [|n IH]; intros s Hn H.
  { destruct s; [reflexivity|cbn in Hn; lia]. }
  destruct s as [|a r]; [reflexivity|]. cbn [utf8] in H. cbn [cut]. cbn [length] in Hn.
  destruct (byte_in 0 127 a) eqn:Ea.
  - destruct (Ascii.eqb a NUL); [reflexivity|]. cbn [utf8]. rewrite Ea. apply IH; [lia|exact H].
  - destruct r as [|b r1]; [discriminate|]. cbn [length] in Hn.
    destruct (two a b) eqn:E2.
    { destruct (two_nn _ _ E2) as [-> Hb]. cbn [cut]. rewrite Hb. cbn [utf8]. rewrite Ea, E2. apply IH; [lia|exact H]. }
    destruct r1 as [|c r2]; [discriminate|]. cbn [length] in Hn.
    destruct (three a b && cont c) eqn:E3.
    { pose proof E3 as E3'. apply andb_true_iff in E3'. destruct E3' as [H3 Hc]. destruct (three_nn _ _ H3) as [-> Hb].
      cbn [cut]. rewrite Hb, (cont_nn _ Hc). cbn [utf8]. rewrite Ea, E2, E3. apply IH; [lia|exact H]. }
    destruct r2 as [|d r3]; [discriminate|]. cbn [length] in Hn.
    rewrite !andb_true_iff in H. destruct H as [[[H4 Hc] Hd] H]. destruct (four_nn _ _ H4) as [-> Hb].
    cbn [cut]. rewrite Hb, (cont_nn _ Hc), (cont_nn _ Hd). cbn [utf8]. rewrite Ea, E2, E3, H4, Hc, Hd.
    cbn [andb]. apply IH; [lia|exact H].
Qed.
Lemma utf8_cut s : utf8 s = true -> utf8 (cut s) = true.
Proof. intros H. exact (utf8_cut_n (length s) s (le_n _) H). Qed.
Lemma to_pys_ok l : forallb utf8 l = true -> to_pys l = Ret l.
Proof.
  induction l as [|s l IH]; intros H; [reflexivity|]. cbn [forallb] in H. apply andb_true_iff in H. destruct H as [H1 H2].
  cbn [to_pys]. unfold to_py. rewrite H1, (IH H2). reflexivity.
Qed.
Lemma to_pys_bad l : forallb utf8 l = false -> to_pys l = Raise UnicodeError.
Proof.
  induction l as [|s l IH]; intros H; [discriminate|]. cbn [forallb] in H. cbn [to_pys]. unfold to_py.
  destruct (utf8 s); [|reflexivity]. cbn [andb] in H. now rewrite (IH H).
Qed.

(** * StrDict *)
(** The bindings that take part: the key a str other than "", the value a str or
    bytes. *)
Definition bound (k v : pyval) : list (str * ostr) :=
  match key_arg k, str_in v with
  | KStr (c :: r), Some (x, _) => [(c :: r, x)]
  | _, _ => []
  end.
Fixpoint bindings (acc : list (str * ostr)) (os : list sdop) : list (str * ostr) :=
  match os with
  | [] => acc
  | SdSet k v :: r => bindings (acc ++ bound k v) r
  | SdClear :: r => bindings [] r
  end.
Definition no_del (os : list sdop) : Prop := forall k, ~ In (SdSet k PyNull) os.

Lemma rt_set_nil {V} (t : rtree V) d : rt_set t [] d = Ok t.
Proof. unfold rt_set. cbn. now destruct t. Qed.
Lemma rt_sets_app {V} (a : list (str * V)) : forall b t, rt_sets t (a ++ b) = (t' <- rt_sets t a ;; rt_sets t' b).
Proof.
  induction a as [|[k v] a IH]; intros b t; [reflexivity|]. cbn [app rt_sets]. destruct (rt_set t k (Some v)) as [t1| |]; cbn [bind]; auto.
Qed.
Lemma sd_set_bound d k v : v <> PyNull -> wft d ->
  exists d' r, sd_set d k v = Ok (d', r) /\ rt_sets d (bound k v) = Ok d'.
Proof.
  intros Hv Hw. unfold sd_set, bound.
  destruct (key_arg k) as [[|c s]| |].
  - destruct v; try congruence; cbn [str_in]; rewrite ?rt_set_nil; cbn [bind]; do 2 eexists; split; reflexivity.
  - destruct (str_in v) as [[x p]|] eqn:Ev.
    + destruct (rt_set_ok d (c :: s) (Some x) Hw) as (d' & E & _). exists d', (if p then RetSet tt else Ret tt).
      cbn [rt_sets]. rewrite E. cbn [bind]. split; [|reflexivity]. destruct v; try congruence; reflexivity.
    + do 2 eexists. split; [|reflexivity]. destruct v; try congruence; reflexivity.
  - do 2 eexists. split; [|reflexivity]. destruct v; try congruence; reflexivity.
  - do 2 eexists. split; [|reflexivity]. destruct v; try congruence; reflexivity.
Qed.
Lemma bound_ne k v : nonempty_keys (bound k v).
Proof.
  intros s x. unfold bound. destruct (key_arg k) as [[|c r]| |]; try contradiction. destruct (str_in v) as [[y p]|]; [|contradiction].
  intros [E|[]]. inversion E. discriminate.
Qed.
Lemma bindings_ne os : forall acc, nonempty_keys acc -> nonempty_keys (bindings acc os).
Proof.
  induction os as [|[k v|] os IH]; intros acc H; cbn [bindings]; [exact H| |].
  - apply IH. intros s x Hin. apply in_app_or in Hin. destruct Hin as [Hin|Hin]; [exact (H s x Hin)|exact (bound_ne k v s x Hin)].
  - apply IH. intros s x [].
Qed.
Lemma sd_run_bindings os : forall d acc, wft d -> no_del os -> rt_sets rt_create acc = Ok d ->
  exists d' rs, sd_run d os = Ok (d', rs) /\ wft d' /\ rt_sets rt_create (bindings acc os) = Ok d'.
Proof.
  induction os as [|[k v|] os IH]; intros d acc Hw Hd E; cbn [sd_run bindings].
  - exists d, []. auto.
  - assert (Hv : v <> PyNull) by (intros ->; apply (Hd k); now left).
    destruct (sd_set_bound d k v Hv Hw) as (d1 & r & -> & E1). cbn [bind fst snd].
    assert (Hw1 : wft d1) by (eapply rt_sets_wft; eauto).
    destruct (IH d1 (acc ++ bound k v) Hw1) as (d' & rs & -> & Hw' & E').
    { intros k' Hin. apply (Hd k'). now right. }
    { rewrite rt_sets_app, E. exact E1. }
    cbn [bind fst snd]. eauto.
  - destruct (IH (sd_clear d) [] wft_create) as (d' & rs & E1 & Hw' & E').
    { intros k' Hin. apply (Hd k'). now right. }
    { reflexivity. }
    change (sd_clear d) with (@rt_create ostr) in *. rewrite E1. cbn [bind fst snd]. eauto.
Qed.

(** What a dictionary shows, for a list of bindings. *)
Record sd_shows (d : sdict) (b : list (str * ostr)) : Prop := {
  sh_get : forall k, sd_get d (PyText k) =
    Ok (match latest b (cut k) with Some x => to_py (str_tostr x) | None => Raise KeyError end);
  sh_get_ : forall k, sd_get_ d (PyText k) =
    Ok (match latest b (cut k) with
        | Some x => match to_py (str_tostr x) with Ret y => Ret (Some y) | _ => Raise UnicodeError end
        | None => Ret None end);
  sh_has : forall k, sd_has_key d (PyText k) = Ok (Ret (match latest b (cut k) with Some _ => true | None => false end));
  sh_len : exists ks, NoDup ks /\ length ks = sd_len d /\ forall k, In k ks <-> In k (map fst b);
  sh_items : exists ps, rt_pairs d = Ok ps /\ NoDup (map fst ps) /\ forall k x, In (k, x) ps <-> latest b k = Some x
}.
Lemma latest_in {V} (b : list (str * V)) k : latest b k <> None <-> In k (map fst b).
Proof.
  unfold latest. rewrite in_map_iff. split.
  - destruct (find (fun p => streq k (fst p)) (rev b)) as [p|] eqn:E; [|cbn; congruence]. intros _.
    apply find_some in E. destruct E as [Hin He]. exists p. split; [|now apply in_rev].
    destruct (streq_spec k (fst p)); congruence.
  - intros ([k' v] & <- & Hin). cbn [fst]. destruct (find (fun p => streq k' (fst p)) (rev b)) as [p|] eqn:E; [cbn; discriminate|].
    exfalso. apply in_rev in Hin. pose proof (find_none _ _ E _ Hin) as H. cbn [fst] in H. now rewrite streq_refl in H.
Qed.
Lemma sets_shows b d : nonempty_keys b -> no_late_prefix b -> rt_sets rt_create b = Ok d -> sd_shows d b.
Proof.
  intros Hne Hn E. destruct (sets_get b Hne Hn) as (t & E1 & Hg). assert (t = d) by congruence. subst t.
  destruct (sets_len b Hne Hn) as (t & E2 & Hc). assert (t = d) by congruence. subst t. split.
  - intros k. unfold sd_get. cbn [key_arg]. rewrite Hg. reflexivity.
  - intros k. unfold sd_get_. cbn [key_arg]. rewrite Hg. reflexivity.
  - intros k. unfold sd_has_key. cbn [key_arg]. rewrite Hg. reflexivity.
  - destruct Hc as (ks & H1 & H2 & H3). exists ks. split; [exact H1|]. split; [exact H2|]. intros k. rewrite H3, <- latest_in. rewrite Hg.
    destruct (latest b k) as [v|]; split; try congruence; [eauto|intros (v & Ev); discriminate].
  - destruct (reach_enum (fun v => v) d (reach_sets _ b d E)) as (ps & H1 & H2 & H3 & _). exists ps.
    split; [exact H1|]. split; [exact H2|]. intros k x. rewrite H3, Hg. split; congruence.
Qed.
Lemma sd_history os : no_del os -> no_late_prefix (bindings [] os) ->
  exists d rs, sd_run sd_new os = Ok (d, rs) /\ sd_shows d (bindings [] os).
Proof.
  intros Hd Hn. destruct (sd_run_bindings os sd_new [] wft_create Hd eq_refl) as (d & rs & E & Hw & E1).
  exists d, rs. split; [exact E|]. apply sets_shows; [|exact Hn|exact E1]. apply bindings_ne. intros ? ? [].
Qed.

(** Lists of keys, values and items. *)
Lemma shows_lists d b : sd_shows d b ->
  exists ps, NoDup (map fst ps) /\ (forall k x, In (k, x) ps <-> latest b k = Some x) /\
    sd_keys d = Ok (to_pys (map fst ps)) /\ sd_values d = Ok (to_pys (map (fun p => str_tostr (snd p)) ps)) /\
    sd_items d = (if forallb pair_ok ps then Ok (Ret (map (fun p => (fst p, str_tostr (snd p))) ps)) else UB).
Proof.
  intros [_ _ _ _ (ps & E & H1 & H2)]. exists ps. split; [exact H1|]. split; [exact H2|].
  unfold sd_keys, sd_values, sd_items, rt_keys, rt_values. rewrite E. cbn [rmap bind]. rewrite map_map. auto.
Qed.

(** Texts only. *)
Definition all_text (os : list sdop) : Prop :=
  Forall (fun o => match o with
                   | SdSet (PyText k) (PyText v) => utf8 k = true /\ utf8 v = true
                   | SdSet _ _ => False
                   | SdClear => True
                   end) os.
Lemma all_text_nodel os : all_text os -> no_del os.
Proof.
  intros H k Hin. unfold all_text in H. rewrite Forall_forall in H. specialize (H _ Hin). cbn in H. destruct k; contradiction.
Qed.
Definition text_pair (p : str * ostr) : Prop := utf8 (fst p) = true /\ exists s, snd p = Some s /\ utf8 s = true.
Lemma all_text_bindings os : forall acc, Forall text_pair acc -> all_text os -> Forall text_pair (bindings acc os).
Proof.
  induction os as [|[k v|] os IH]; intros acc Ha H; cbn [bindings]; [exact Ha| |]; inversion H as [|? ? H1 H2]; subst.
  - apply IH; [|exact H2]. apply Forall_app. split; [exact Ha|]. destruct k; try contradiction. destruct v; try contradiction.
    destruct H1 as [Hk Hv]. unfold bound. cbn [key_arg str_in].
    pose proof (utf8_cut _ Hk) as Hk'. destruct (cut s) as [|c r]; [constructor|]. apply Forall_cons; [|constructor].
    split; [exact Hk'|]. cbn [snd]. eexists. split; [reflexivity|]. now apply utf8_cut.
  - apply IH; [constructor|exact H2].
Qed.
Lemma latest_Forall {V} (P : str * V -> Prop) (b : list (str * V)) k v : Forall P b -> latest b k = Some v -> P (k, v).
Proof.
  intros Hf. unfold latest. destruct (find (fun p => streq k (fst p)) (rev b)) as [p|] eqn:E; [|discriminate].
  cbn. intros H. inversion H; subst v. apply find_some in E. destruct E as [Hin He]. apply in_rev in Hin.
  rewrite Forall_forall in Hf. specialize (Hf _ Hin). destruct (streq_spec k (fst p)) as [->|]; [|discriminate]. now destruct p.
Qed.
Lemma sd_history_text os : all_text os -> no_late_prefix (bindings [] os) ->
  exists d rs, sd_run sd_new os = Ok (d, rs) /\ Forall (fun r => r = Ret tt) rs /\
    (forall k, sd_get d (PyText k) = Ok (match latest (bindings [] os) (cut k) with Some x => Ret (str_tostr x) | None => Raise KeyError end)) /\
    exists ps, NoDup (map fst ps) /\ length ps = sd_len d /\
      (forall k v, In (k, v) ps <-> latest (bindings [] os) k = Some (Some v)) /\
      sd_keys d = Ok (Ret (map fst ps)) /\ sd_values d = Ok (Ret (map snd ps)) /\ sd_items d = Ok (Ret ps).
Proof.
  intros Ht Hn. destruct (sd_history os (all_text_nodel os Ht) Hn) as (d & rs & E & Hs). exists d, rs. split; [exact E|].
  assert (Hb : Forall text_pair (bindings [] os)) by (apply all_text_bindings; [constructor|exact Ht]).
  assert (Hl : forall k x, latest (bindings [] os) k = Some x -> utf8 k = true /\ exists s, x = Some s /\ utf8 s = true).
  { intros k x H. exact (latest_Forall text_pair _ k x Hb H). }
  split; [|split].
  - clear Hn Hs Hb Hl. revert E. generalize sd_new. revert d rs Ht.
    induction os as [|o os IH]; intros d rs Ht d0 E; cbn [sd_run] in E; [inversion E; constructor|].
    inversion Ht as [|? ? H1 H2]; subst. destruct o as [k v|].
    + apply bind_ok in E. destruct E as ([d1 r1] & E1 & E). apply bind_ok in E. destruct E as ([d2 r2] & E2 & E).
      inversion E; subst. apply Forall_cons; [|exact (IH _ _ H2 _ E2)].
      destruct k; try contradiction. destruct v; try contradiction. unfold sd_set in E1. cbn [key_arg str_in] in E1.
      apply bind_ok in E1. destruct E1 as (t & _ & E1). now inversion E1.
    + apply bind_ok in E. destruct E as ([d2 r2] & E2 & E). inversion E; subst. apply Forall_cons; [reflexivity|exact (IH _ _ H2 _ E2)].
  - intros k. rewrite (sh_get _ _ Hs). destruct (latest (bindings [] os) (cut k)) as [x|] eqn:El; [|reflexivity].
    destruct (Hl _ _ El) as (_ & s & -> & Hu). cbn [str_tostr]. unfold to_py. now rewrite Hu.
  - destruct (sh_len _ _ Hs) as (ks & Hk1 & Hk2 & Hk3). destruct (shows_lists _ _ Hs) as (ps & H1 & H2 & H3 & H4 & H5).
    exists (map (fun p => (fst p, str_tostr (snd p))) ps).
    assert (Hps : forall p, In p ps -> utf8 (fst p) = true /\ exists s, snd p = Some s /\ utf8 s = true).
    { intros [k x] Hin. apply H2 in Hin. exact (Hl _ _ Hin). }
    assert (Hall : forallb pair_ok ps = true).
    { apply forallb_forall. intros p Hin. destruct (Hps p Hin) as (Ha & s & Es & Hu). unfold pair_ok. rewrite Ha, Es. exact Hu. }
    rewrite !map_map. cbn [fst snd]. split; [exact H1|]. split.
    { rewrite map_length. rewrite <- Hk2, <- (map_length fst ps). apply Permutation_length. apply NoDup_Permutation; [exact H1|exact Hk1|].
      intros k. rewrite Hk3, <- (latest_in (bindings [] os)), in_map_iff. split.
      - intros ([k' x] & <- & Hin). apply H2 in Hin. cbn [fst]. rewrite Hin. discriminate.
      - destruct (latest (bindings [] os) k) as [x|] eqn:El; [|congruence]. intros _. exists (k, x). split; [reflexivity|]. now apply H2. }
    split.
    { intros k v. rewrite in_map_iff. split.
      - intros ([k' x] & Ep & Hin). cbn [fst snd] in Ep. inversion Ep; subst. pose proof (Hps _ Hin) as (_ & s & Es & _).
        cbn [snd] in Es. subst x. apply H2 in Hin. exact Hin.
      - intros Hin. apply H2 in Hin. exists (k, Some v). split; [reflexivity|exact Hin]. }
    rewrite H3, H4, H5, Hall. split; [|split; [|reflexivity]].
    + rewrite to_pys_ok; [reflexivity|]. apply forallb_forall. intros k Hin. apply in_map_iff in Hin. destruct Hin as (p & <- & Hin). apply (Hps p Hin).
    + rewrite to_pys_ok; [reflexivity|]. apply forallb_forall. intros k Hin. apply in_map_iff in Hin. destruct Hin as (p & <- & Hin).
      destruct (Hps p Hin) as (_ & s & -> & Hu). exact Hu.
Qed.

(** Update. *)
Lemma late_free_join {V} (kvs : list (str * V)) : forall D1 S1 D S S0 : str -> Prop,
  late_free D1 S1 kvs -> (forall s, D1 s -> D s) -> (forall s, S s -> S1 s \/ S0 s) ->
  (forall k v, In (k, v) kvs -> D k \/ forall s, S0 s -> ~ proper_prefix k s) -> late_free D S kvs.
Proof.
  induction kvs as [|[k v] kvs IH]; intros D1 S1 D S S0 H HD HS Hc; cbn [late_free] in *; [exact I|].
  destruct H as (H1 & H2 & H3). split; [exact H1|]. split.
  - destruct H2 as [H2|H2]; [left; auto|]. destruct (Hc k v (or_introl eq_refl)) as [Hd|Hd]; [now left|]. right.
    intros s Hs. destruct (HS s Hs) as [Ha|Ha]; [exact (H2 s Ha)|exact (Hd s Ha)].
  - refine (IH _ _ _ _ S0 H3 _ _ _).
    + unfold addS. intros s [Hs| ->]; [left; auto|now right].
    + unfold addS. intros s [Hs| ->]; [destruct (HS s Hs); tauto|tauto].
    + intros k' v' Hin. destruct (Hc k' v' (or_intror Hin)) as [Ha|Ha]; [left; now left|now right].
Qed.
Lemma late_free_app {V} (a : list (str * V)) : forall b D S,
  late_free D S a -> late_free (fun s => D s \/ In s (map fst a)) (fun s => S s \/ In s (map fst a)) b -> late_free D S (a ++ b).
Proof.
  induction a as [|[k v] a IH]; intros b D S Ha Hb; cbn [app map late_free] in *.
  - refine (late_free_join _ _ _ _ _ (fun _ => False) Hb _ _ _); [intros s [Hs|[]]; exact Hs|intros s Hs; left; now left|intros; right; intros s []].
  - destruct Ha as (H1 & H2 & H3). split; [exact H1|]. split; [exact H2|]. apply IH; [exact H3|].
    refine (late_free_join _ _ _ _ _ (fun _ => False) Hb _ _ _).
    + intros s [Hs|[Hs|Hs]]; [left; now left|left; right; symmetry; exact Hs|now right].
    + unfold addS. intros s [[Hs| ->]|Hs]; left; [now left|right; now left|right; now right].
    + intros; right; intros s [].
Qed.
Lemma late_free_nlp {V} (kvs : list (str * V)) : forall D S, late_free D S kvs ->
  (forall s, D s -> S s) ->
  forall l1 k v l2 k', kvs = l1 ++ (k, v) :: l2 -> S k' \/ In k' (map fst l1) -> proper_prefix k k' -> D k \/ In k (map fst l1).
Proof.
  induction kvs as [|[k0 v0] kvs IH]; intros D S H HDS l1 k v l2 k' E Hin Hp; [destruct l1; discriminate|].
  cbn [late_free] in H. destruct H as (H1 & H2 & H3). destruct l1 as [|[k1 v1] l1]; inversion E; subst.
  - destruct Hin as [Hin|[]]. destruct H2 as [H2|H2]; [now left|]. exfalso. exact (H2 k' Hin Hp).
  - assert (HDS' : forall s, addS D k1 s -> addS S k1 s) by (unfold addS; intros s [Hs|Hs]; [left; auto|now right]).
    destruct (IH _ _ H3 HDS' l1 k v l2 k' eq_refl) as [Hd|Hd]; [|exact Hp| |].
    + unfold addS. cbn [map] in Hin. cbn [fst] in Hin. destruct Hin as [Hin|[Hin|Hin]]; [left; now left|left; right; now symmetry|now right].
    + unfold addS in Hd. destruct Hd as [Hd| ->]; [now left|right; now left].
    + right. now right.
Qed.
(** No key of [e] that is new to [d] is a proper prefix of a key of [d]. *)
Definition fits (b1 b2 : list (str * ostr)) : Prop :=
  forall k s, In k (map fst b2) -> In s (map fst b1) -> proper_prefix k s -> In k (map fst b1).
Lemma sd_update_shows b1 b2 d e : nonempty_keys b1 -> nonempty_keys b2 -> no_late_prefix b1 -> no_late_prefix b2 ->
  rt_sets rt_create b1 = Ok d -> rt_sets rt_create b2 = Ok e -> fits b1 b2 ->
  exists d', sd_update d (Some e) = Ok (d', Ret tt) /\
    sd_shows d' (b1 ++ b2).
Proof.
  intros Hne1 Hne2 Hn1 Hn2 E1 E2 Hf.
  assert (Hw1 : wft d) by (eapply rt_sets_wft; [apply wft_create|exact E1]).
  assert (Hw2 : wft e) by (eapply rt_sets_wft; [apply wft_create|exact E2]).
  destruct (rt_unite_sets d e Hw2) as (kvs & E & Hp & Hlf).
  destruct (sets_get b2 Hne2 Hn2) as (t & Et & Hg2). assert (t = e) by congruence. subst t.
  assert (Hkv : forall k v, In (k, v) kvs <-> latest b2 k = Some v).
  { intros k v. specialize (Hg2 k). rewrite rt_get_look in Hg2. split.
    - intros Hin. apply (Permutation_in _ Hp) in Hin. apply (ents_look _ _ _ Hw2) in Hin. congruence.
    - intros Hl. apply (Permutation_in _ (Permutation_sym Hp)). apply (ents_look _ _ _ Hw2). congruence. }
  assert (Hnd : NoDup (map fst kvs)).
  { eapply Permutation_NoDup; [apply Permutation_sym, Permutation_map, Hp|]. now apply ents_nodup. }
  assert (Hall : late_free (fun _ => False) (fun _ => False) (b1 ++ kvs)).
  { apply late_free_app; [exact (late_free_nil b1 Hne1 Hn1)|].
    refine (late_free_join kvs (fun _ => False) (fun _ => False) _ _ (fun s => In s (map fst b1)) _ _ _ _).
    - apply Hlf. intros s [].
    - intros s [].
    - intros s [[]|Hs]. now right.
    - intros k v Hin. apply Hkv in Hin. destruct (in_dec str_eq_dec k (map fst b1)) as [Hi|Hi]; [left; now right|right].
      intros s Hs Hpp. apply Hi. apply (Hf k s); [|exact Hs|exact Hpp]. apply latest_in. rewrite Hin. discriminate. }
  assert (Hn : no_late_prefix (b1 ++ kvs)).
  { intros l1 k v l2 k' El Hin Hpp.
    destruct (late_free_nlp _ _ _ Hall (fun s F => F) l1 k v l2 k' El (or_intror Hin) Hpp) as [[]|H]. exact H. }
  assert (Hne : nonempty_keys (b1 ++ kvs)).
  { intros k v Hin. apply in_app_or in Hin. destruct Hin as [Hin|Hin]; [exact (Hne1 k v Hin)|]. apply Hkv in Hin.
    refine (latest_Forall (fun p => fst p <> []) b2 k v _ Hin). apply Forall_forall. intros [k0 v0] H0. exact (Hne2 k0 v0 H0). }
  destruct (sets_get (b1 ++ kvs) Hne Hn) as (t & Et1 & _).
  assert (Ed : rt_unite d e = Ok t) by (rewrite rt_sets_app, E1 in Et1; cbn [bind] in Et1; congruence).
  exists t. unfold sd_update. rewrite Ed. cbn [bind]. split; [reflexivity|].
  pose proof (sets_shows _ _ Hne Hn Et1) as Hs.
  assert (Hlat : forall k, latest (b1 ++ kvs) k = latest (b1 ++ b2) k).
  { assert (Ha : forall (x y : list (str * ostr)) k, latest (x ++ y) k = match latest y k with Some v => Some v | None => latest x k end).
    { intros x y k. unfold latest. rewrite rev_app_distr, find_app. now destruct (find (fun p => streq k (fst p)) (rev y)). }
    intros k. rewrite !Ha. replace (latest kvs k) with (latest b2 k); [reflexivity|].
    destruct (latest kvs k) as [v|] eqn:El.
    - assert (Hin : In (k, v) kvs).
      { revert El. unfold latest. destruct (find (fun p => streq k (fst p)) (rev kvs)) as [p|] eqn:Ef; [|discriminate].
        cbn. intros Ev. inversion Ev. apply find_some in Ef. destruct Ef as [Hin He]. apply in_rev in Hin.
        destruct (streq_spec k (fst p)) as [->|]; [|discriminate]. now destruct p. }
      now apply Hkv.
    - destruct (latest b2 k) as [v|] eqn:E2'; [|reflexivity]. exfalso. apply Hkv in E2'.
      assert (Hc : latest kvs k <> None) by (apply latest_in, in_map_iff; exists (k, v); auto). congruence. }
  assert (Hkeys : forall k, In k (map fst (b1 ++ kvs)) <-> In k (map fst (b1 ++ b2))) by (intros k; rewrite <- !latest_in, Hlat; tauto).
  destruct Hs as [A B C (ks & D1 & D2 & D3) (ps & F1 & F2 & F3)]. split.
  - intros k. now rewrite A, Hlat.
  - intros k. now rewrite B, Hlat.
  - intros k. now rewrite C, Hlat.
  - exists ks. split; [exact D1|]. split; [exact D2|]. intros k. now rewrite D3, Hkeys.
  - exists ps. split; [exact F1|]. split; [exact F2|]. intros k x. now rewrite F3, Hlat.
Qed.
Lemma run_sets os d rs : no_del os -> sd_run sd_new os = Ok (d, rs) -> rt_sets rt_create (bindings [] os) = Ok d.
Proof.
  intros Hd E. destruct (sd_run_bindings os sd_new [] wft_create Hd eq_refl) as (d' & rs' & E' & _ & H). congruence.
Qed.
Lemma sd_update_history o1 o2 d e r1 r2 : no_del o1 -> no_del o2 ->
  sd_run sd_new o1 = Ok (d, r1) -> sd_run sd_new o2 = Ok (e, r2) ->
  no_late_prefix (bindings [] o1) -> no_late_prefix (bindings [] o2) -> fits (bindings [] o1) (bindings [] o2) ->
  exists d', sd_update d (Some e) = Ok (d', Ret tt) /\ sd_shows d' (bindings [] o1 ++ bindings [] o2).
Proof.
  intros Hd1 Hd2 E1 E2 Hn1 Hn2 Hf.
  apply sd_update_shows with (e := e); auto; try (apply bindings_ne; intros ? ? []).
  - exact (run_sets _ _ _ Hd1 E1).
  - exact (run_sets _ _ _ Hd2 E2).
Qed.

(** Copy and comparison. *)
Lemma sd_copy_obs os d rs : no_del os -> sd_run sd_new os = Ok (d, rs) ->
  (forall k, sd_get (sd_copy d) k = sd_get d k) /\ (forall k, sd_get_ (sd_copy d) k = sd_get_ d k) /\
  (forall k, sd_has_key (sd_copy d) k = sd_has_key d k) /\
  sd_keys (sd_copy d) = sd_keys d /\ sd_values (sd_copy d) = sd_values d /\ sd_items (sd_copy d) = sd_items d /\
  sd_str (sd_copy d) = sd_str d /\
  sd_cmp d (Some (sd_copy d)) OpEq = Ok (Ret true) /\ sd_len (sd_copy d) = 0.
Proof.
  intros Hd E. pose proof (run_sets _ _ _ Hd E) as Er. set (id := fun v : ostr => v).
  pose proof (reach_sets id _ d Er) as Hr. destruct (copy_obs id d Hr) as [Hg Hp].
  change (rt_copy id d) with (sd_copy d) in *.
  assert (Hg' : forall k, rt_get (sd_copy d) k = rt_get d k).
  { intros k. rewrite Hg. destruct (rt_get d k) as [[v|]| |]; reflexivity. }
  assert (Hp' : rt_pairs (sd_copy d) = rt_pairs d).
  { rewrite Hp. destruct (rt_pairs d) as [ps| |]; try reflexivity. cbn [rmap bind]. f_equal.
    rewrite <- (map_id ps) at 2. apply map_ext. intros [k v]. reflexivity. }
  unfold sd_get, sd_get_, sd_has_key, sd_keys, sd_values, sd_items, sd_str, rt_keys, rt_values. rewrite Hp'.
  split; [intros k; destruct (key_arg k); [now rewrite Hg'|reflexivity|reflexivity]|].
  split; [intros k; destruct (key_arg k); [now rewrite Hg'|reflexivity|reflexivity]|].
  split; [intros k; destruct (key_arg k); [now rewrite Hg'|reflexivity|reflexivity]|].
  do 4 (split; [reflexivity|]). split; [|reflexivity].
  unfold sd_cmp, dict_cmp. destruct (clone_cmp id ostr_cmp d) as [_ H].
  - intros [s|]; cbn; [apply streq_refl|reflexivity].
  - exact Hr.
  - change (rt_copy id d) with (sd_copy d) in H. now rewrite H.
Qed.
Lemma ostr_cmp_eq a b : ostr_cmp a b = true <-> a = b.
Proof.
  destruct a as [a|], b as [b|]; cbn; try (split; congruence). destruct (streq_spec a b) as [->|Hn]; split; congruence.
Qed.
Lemma sd_cmp_history o1 o2 d e r1 r2 : no_del o1 -> no_del o2 ->
  sd_run sd_new o1 = Ok (d, r1) -> sd_run sd_new o2 = Ok (e, r2) ->
  no_late_prefix (bindings [] o1) -> no_late_prefix (bindings [] o2) ->
  exists b, sd_cmp d (Some e) OpEq = Ok (Ret b) /\ sd_cmp d (Some e) OpNe = Ok (Ret (negb b)) /\
    (b = true <-> forall k, latest (bindings [] o1) k = latest (bindings [] o2) k).
Proof.
  intros Hd1 Hd2 E1 E2 Hn1 Hn2. set (id := fun v : ostr => v).
  pose proof (run_sets _ _ _ Hd1 E1) as R1. pose proof (run_sets _ _ _ Hd2 E2) as R2.
  destruct (cmp_same_map id ostr_cmp d e (reach_sets id _ _ R1) (reach_sets id _ _ R2)) as (b & E & Hb).
  exists b. unfold sd_cmp, dict_cmp. rewrite E. cbn [bind]. split; [reflexivity|]. split; [reflexivity|]. rewrite Hb.
  assert (Hne : forall os, nonempty_keys (bindings [] os)) by (intros os; apply bindings_ne; intros ? ? []).
  destruct (sets_get _ (Hne o1) Hn1) as (t & Et & G1). assert (t = d) by congruence. subst t.
  destruct (sets_get _ (Hne o2) Hn2) as (t & Et2 & G2). assert (t = e) by congruence. subst t.
  unfold same_map. split; intros H k; specialize (H k); rewrite ?G1, ?G2 in *.
  - destruct (latest (bindings [] o1) k), (latest (bindings [] o2) k); try contradiction; [|reflexivity].
    apply ostr_cmp_eq in H. congruence.
  - destruct (latest (bindings [] o1) k), (latest (bindings [] o2) k); try congruence; [|exact I].
    apply ostr_cmp_eq. congruence.
Qed.
