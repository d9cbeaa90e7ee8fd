(** Facts about the dictionaries of document objects: union, intersection,
    property setters. *)
From Coq Require Import Permutation Sorted.
From Verif Require Import CStr CStrFacts HSListModel HSListFacts SetModel SetFacts
  RTreeModel RTreeFacts RTreeFacts2 RTreeFacts3 RTreeFacts4 SpecA ObjModel ObjFacts.

(** ** In an enumeration no key comes after an extension of it *)
Section Order.
Context {V : Type}.
Definition pre_ok (a b : str * V) : Prop := ~ proper_prefix (fst b) (fst a).

Lemma ss_app (R : str * V -> str * V -> Prop) l1 l2 :
  StronglySorted R l1 -> StronglySorted R l2 -> (forall a b, In a l1 -> In b l2 -> R a b) ->
  StronglySorted R (l1 ++ l2).
Proof.
  induction l1 as [|x l1 IH]; intros H1 H2 H; cbn; [exact H2|]. inversion H1; subst. constructor.
  - apply IH; auto. intros a b Ha Hb. apply H; [now right|exact Hb].
  - apply Forall_app. split; [assumption|]. apply Forall_forall. intros b Hb. apply H; [now left|exact Hb].
Qed.
Lemma ss_filter (R : str * V -> str * V -> Prop) f l : StronglySorted R l -> StronglySorted R (filter f l).
Proof.
  induction 1 as [|x l Hs IH Hall]; cbn; [constructor|]. destruct (f x); [|exact IH].
  constructor; [exact IH|]. rewrite Forall_forall in *. intros y Hy. apply filter_In in Hy. apply Hall, Hy.
Qed.
Lemma ents_sorted (h : hsl (node V)) : wff h -> StronglySorted pre_ok (ents (hitems h)).
Proof.
  induction 1 as [h Hs Hnd Hk Hsub IH]. revert Hnd Hk IH.
  generalize (hitems h) as l. induction l as [|n l IHl]; intros Hnd Hk IH; [constructor|].
  change (ents (n :: l)) with (nents n ++ ents l). inversion Hnd as [|? ? Hn Hnd']; subst.
  apply ss_app.
  - rewrite nents_eq. apply ss_app.
    + unfold own. destruct (ndata n); repeat constructor.
    + specialize (IH n (or_introl eq_refl)). unfold eprefix.
      induction IH as [|x r Hsr IHr Hall]; cbn; [constructor|]. constructor; [exact IHr|].
      rewrite Forall_forall in *. intros y Hy. apply in_map_iff in Hy. destruct Hy as (z & <- & Hz).
      intros Hp. apply (Hall z Hz). unfold fst in Hp at 1 2. cbn in Hp. now apply proper_prefix_app_inv in Hp.
    + intros [a va] [b vb] Ha Hb Hp. unfold own in Ha. destruct (ndata n); [|contradiction].
      destruct Ha as [Ha|[]]. inversion Ha; subst. apply in_eprefix in Hb. destruct Hb as (r & -> & _).
      apply proper_prefix_length in Hp. cbn in Hp. rewrite app_length in Hp. lia.
  - apply IHl; auto.
    + intros m Hm. apply Hk. now right.
    + intros m Hm. apply IH. now right.
  - intros [a va] [b vb] Ha Hb Hp. cbn in Hp.
    destruct (nents_head n a va (Hk n (or_introl eq_refl)) Ha) as [Ea Hane].
    unfold ents in Hb. apply in_flat_map in Hb. destruct Hb as (m & Hm & Hb).
    destruct (nents_head m b vb (Hk m (or_intror Hm)) Hb) as [Eb Hbne].
    apply Hn. apply in_map_iff. exists m. split; [|exact Hm]. rewrite <- Ea, <- Eb.
    symmetry. apply (prefix_char0 b a Hbne). now apply proper_prefix_prefix.
Qed.
Lemma sorted_late (e : list (str * V)) : forall D S : str -> Prop,
  StronglySorted pre_ok e -> (forall k v, In (k, v) e -> k <> []) ->
  (forall s, S s -> forall k v, In (k, v) e -> ~ proper_prefix k s) ->
  late_free D S e.
Proof.
  induction e as [|[k v] e IH]; intros D S Hs Hne HS; cbn; [exact I|].
  inversion Hs as [|? ? Hs' Hall]; subst. split; [apply (Hne k v); now left|]. split.
  - right. intros s Hss. apply (HS s Hss k v). now left.
  - apply IH; auto.
    + intros; eapply Hne; right; eauto.
    + intros s [Hss| ->] k' v' Hin; [apply (HS s Hss k' v'); now right|].
      rewrite Forall_forall in Hall. exact (Hall _ Hin).
Qed.
End Order.

(** ** Dictionaries over a fixed set of keys, none a proper prefix of another *)
Section Within.
Context {V : Type} (K : str -> Prop).
Hypothesis Kne : ~ K [].
Hypothesis Kpf : forall a b, K a -> K b -> ~ proper_prefix a b.

Definition within (t : rtree V) : Prop :=
  wft t /\ tn K (troot t) /\ forall k, look (troot t) k <> None -> K k.

Lemma within_create : within rt_create.
Proof. split; [apply wft_create|]. split; [apply tn_empty|]. intros k H. cbn [rt_create troot] in H. now rewrite look_empty in H. Qed.
Lemma within_set t k d : within t -> K k ->
  exists t', rt_set t k d = Ok t' /\ within t' /\
    forall k', look (troot t') k' = if streq k' k then d else look (troot t) k'.
Proof.
  intros (Hw & Ht & Hd) Hk. assert (Hne : k <> []) by (intros ->; auto).
  destruct (set_sub_spec (length k) (troot t) k d Hw (le_n _)) as (h' & b & E & Hw' & Hl).
  destruct (set_sub_tn (length k) (troot t) k d h' b K Hw (le_n _) Hne Ht) as [Hc Ht']; auto.
  unfold rt_set. rewrite E. cbn [bind fst snd]. eexists; split; [reflexivity|].
  specialize (Hl Hc). unfold within. cbn [troot]. split; [|intros; now apply Hl].
  split; [exact Hw'|]. split.
  - apply (tn_mono _ Hw' (addS K k)); [|exact Ht']. intros s [Hs| ->]; auto.
  - intros k' H. rewrite Hl in H by exact Hne. destruct (streq k' k) eqn:Ek; [|auto]. apply streq_iff in Ek. now rewrite Ek.
Qed.
Lemma within_clone (cp : V -> V) t : within t -> within (rt_clone cp t) /\ within (rt_copy cp t).
Proof.
  intros (Hw & Ht & Hd).
  assert (H : within (rt_clone cp t)).
  { split; [now apply clone_wff|]. split; [now apply clone_tn|]. intros k H. cbn [rt_clone troot] in H.
    rewrite clone_look in H by exact Hw. apply Hd. intros E. now rewrite E in H. }
  split; [exact H|]. exact H.
Qed.
Lemma within_sets kvs : forall t t', within t -> (forall k v, In (k, v) kvs -> K k) -> rt_sets t kvs = Ok t' -> within t'.
Proof.
  induction kvs as [|[k v] kvs IH]; intros t t' Hw Hk E; cbn in E; [congruence|].
  destruct (within_set t k (Some v) Hw) as (t1 & E1 & Hw1 & _); [apply (Hk k v); now left|].
  rewrite E1 in E. apply (IH t1); auto. intros; eapply Hk; right; eauto.
Qed.
Lemma within_union (cp : V -> V) t1 t2 t : within t1 -> within t2 -> rt_union cp t1 t2 = Ok t -> within t.
Proof.
  intros H1 (Hw2 & Ht2 & Hd2) E. unfold rt_union in E.
  destruct (rt_unite_sets (rt_clone cp t1) t2 Hw2) as (kvs & Eu & Hp & _). rewrite Eu in E.
  apply (within_sets kvs (rt_clone cp t1)); auto; [now apply within_clone|].
  intros k v Hin. apply Hd2. apply (Permutation_in _ Hp) in Hin. apply (ents_look _ _ _ Hw2) in Hin. congruence.
Qed.
End Within.

(** ** Objects *)
Definition breach (b : base) : Prop :=
  reach pval_copy (b_props b) /\ reach ostr_copy (b_names b) /\ reach ostr_copy (b_descs b).

Lemma set_pairs_sets t kvs : set_pairs t kvs = rt_sets t kvs.
Proof. revert t; induction kvs as [|[k v] r IH]; intros t; cbn; [reflexivity|]. destruct (rt_set t k (Some v)); cbn; auto. Qed.

Lemma rmap_id {A} (cp : A -> A) (r : res (option A)) : (forall x, cp x = x) -> rmap (option_map cp) r = r.
Proof. intros H. destruct r as [[x|]| |]; cbn; try reflexivity. now rewrite H. Qed.

Lemma union_obs_id {V} (cp : V -> V) (t1 t2 : rtree V) :
  (forall x, cp x = x) -> reach cp t1 -> reach cp t2 ->
  exists t, rt_union cp t1 t2 = Ok t /\ reach cp t /\
    forall k, rt_get t k = match rt_get t2 k with Ok (Some v) => Ok (Some v) | _ => rt_get t1 k end.
Proof.
  intros Hid H1 H2. destruct (union_obs cp t1 t2 H1 H2) as (t & E & Hg). exists t. split; [exact E|].
  split; [exact (R_union _ _ _ _ H1 H2 E)|]. intros k. rewrite Hg, (rmap_id cp _ Hid). reflexivity.
Qed.

Lemma base_union_spec a b : breach a -> breach b ->
  exists r, base_union a b = Ok r /\ breach r /\
    (forall k, rt_get (b_props r) k = match rt_get (b_props b) k with Ok (Some v) => Ok (Some v) | _ => rt_get (b_props a) k end) /\
    (forall k, rt_get (b_names r) k = match rt_get (b_names b) k with Ok (Some v) => Ok (Some v) | _ => rt_get (b_names a) k end) /\
    (forall k, rt_get (b_descs r) k = match rt_get (b_descs b) k with Ok (Some v) => Ok (Some v) | _ => rt_get (b_descs a) k end).
Proof.
  intros (Ap & An & Ad) (Bp & Bn & Bd). unfold base_union.
  destruct (union_obs_id pval_copy _ _ pval_copy_id Ap Bp) as (p & -> & Rp & Hp).
  destruct (union_obs_id ostr_copy _ _ ostr_copy_id An Bn) as (n & -> & Rn & Hn).
  destruct (union_obs_id ostr_copy _ _ ostr_copy_id Ad Bd) as (d & -> & Rd & Hd).
  cbn [bind]. eexists; split; [reflexivity|]. split; [split; [exact Rp|split; [exact Rn|exact Rd]]|].
  cbn [b_props b_names b_descs]. auto.
Qed.

Lemma base_intersect_spec a b : breach a -> breach b ->
  exists r, base_intersect a b = Ok r /\ breach r /\
    (forall k v, rt_get (b_props r) k = Ok (Some v) <->
                 rt_get (b_props a) k = Ok (Some v) /\ rt_get (b_props b) k = Ok (Some v)) /\
    (forall k, rt_get (b_names r) k = Ok None) /\ (forall k, rt_get (b_descs r) k = Ok None).
Proof.
  intros (Ap & _ & _) (Bp & _ & _). unfold base_intersect.
  pose proof (reach_wft _ _ Ap) as Wa. pose proof (reach_wft _ _ Bp) as Wb.
  rewrite !rt_pairs_ents. cbn [bind].
  destruct (set_add_all_nodup pval_cmp (ents (hitems (troot (b_props a)))) hs_empty good_empty (ents_nodup _ Wa)) as (s & -> & Hs).
  cbn [bind]. cbn [hs_empty hitems app] in Hs. rewrite set_pairs_sets.
  set (e := filter (set_in (paircmp pval_cmp) s) (ents (hitems (troot (b_props b))))).
  assert (Hin : forall k v, In (k, v) e <->
            rt_get (b_props a) k = Ok (Some v) /\ rt_get (b_props b) k = Ok (Some v)).
  { intros k v. unfold e. rewrite filter_In, (ents_look _ _ _ Wb), !rt_get_look.
    unfold set_in. rewrite Hs. rewrite existsb_exists. split.
    - intros [H2 ([k' v'] & Hx & Ex)]. unfold paircmp in Ex. cbn in Ex.
      destruct (streq_spec k' k) as [->|]; [|discriminate]. apply pval_cmp_iff in Ex. subst v'.
      apply (ents_look _ _ _ Wa) in Hx. split; congruence.
    - intros [H1 H2]. split; [congruence|]. exists (k, v). split; [apply (ents_look _ _ _ Wa); congruence|].
      unfold paircmp. cbn. rewrite streq_refl. now apply pval_cmp_iff. }
  assert (Hne : forall k v, In (k, v) e -> k <> []).
  { intros k v H ->. apply Hin in H. destruct H as [H _]. rewrite rt_get_look in H. discriminate. }
  assert (Hlf : late_free (fun _ => False) (fun _ => False) e).
  { apply sorted_late; auto. apply ss_filter. now apply ents_sorted. }
  assert (Hnd : NoDup (map fst e)).
  { unfold e. pose proof (ents_nodup _ Wb) as Hn. clear -Hn.
    induction (ents (hitems (troot (b_props b)))) as [|x l IH]; cbn; [constructor|].
    cbn in Hn. inversion Hn as [|? ? H1 H2]; subst. destruct (set_in _ s x); [|auto]. cbn. constructor; [|auto].
    intros H. apply H1. apply in_map_iff in H. destruct H as (y & Ey & Hy). apply filter_In in Hy.
    apply in_map_iff. exists y. split; [exact Ey|apply Hy]. }
  destruct (rt_sets_spec e rt_create (fun _ => False) (fun _ => False) wft_create (tn_empty _)
              (fun s (F : False) => match F with end) Hlf) as (t & Et & _ & _ & Hl).
  rewrite Et. cbn [bind]. eexists; split; [reflexivity|]. cbn [b_props b_names b_descs].
  split; [split; [exact (reach_sets _ _ _ Et)|split; constructor]|].
  split; [|split; intros k; rewrite rt_get_look; cbn [rt_create troot]; now rewrite look_empty].
  intros k v. rewrite <- Hin, rt_get_look, Hl. cbn [rt_create troot]. rewrite look_empty. split.
  - intros H. destruct (in_dec str_eq_dec k (map fst e)) as [Hk|Hk].
    + apply in_map_iff in Hk. destruct Hk as ([k' w] & <- & Hk). cbn [fst] in *.
      rewrite (last_set_in _ _ _ _ Hnd Hk) in H. inversion H; subst. exact Hk.
    + rewrite last_set_notin in H by exact Hk. discriminate.
  - intros H. now rewrite (last_set_in _ _ _ _ Hnd H).
Qed.

(** Comparison. *)
Definition same_dict {V} (t1 t2 : rtree V) : Prop := forall k, rt_get t1 k = rt_get t2 k.
Lemma cmp_same_dict {V} (cp : V -> V) (eqv : V -> V -> bool) t1 t2 :
  (forall x y, eqv x y = true <-> x = y) -> reach cp t1 -> reach cp t2 ->
  exists b, rt_cmp eqv t1 t2 = Ok b /\ (b = true <-> same_dict t1 t2).
Proof.
  intros He H1 H2. destruct (cmp_same_map cp eqv t1 t2 H1 H2) as (b & E & Hb). exists b. split; [exact E|].
  rewrite Hb. unfold same_map, same_dict. split; intros H k; specialize (H k); rewrite !rt_get_look in *.
  - destruct (look (troot t1) k), (look (troot t2) k); try contradiction; auto. apply He in H. congruence.
  - inversion H as [E']. rewrite E'. destruct (look (troot t2) k); [now apply He|exact I].
Qed.
Definition same_base (a b : base) : Prop :=
  same_dict (b_props a) (b_props b) /\ same_dict (b_names a) (b_names b) /\ same_dict (b_descs a) (b_descs b).
Lemma base_cmp_spec a b : breach a -> breach b ->
  exists c, base_cmp a b = Ok c /\ (c = true <-> same_base a b).
Proof.
  intros (Ap & An & Ad) (Bp & Bn & Bd). unfold base_cmp, same_base.
  destruct (cmp_same_dict _ _ _ _ pval_cmp_iff Ap Bp) as (c1 & -> & H1). cbn [bind].
  destruct c1; [|exists false; split; [reflexivity|]; rewrite <- H1; split; [discriminate|tauto]].
  destruct (cmp_same_dict _ _ _ _ ostr_cmp_iff An Bn) as (c2 & -> & H2). cbn [bind].
  destruct c2; [|exists false; split; [reflexivity|]; rewrite <- H2; split; [discriminate|tauto]].
  destruct (cmp_same_dict _ _ _ _ ostr_cmp_iff Ad Bd) as (c3 & -> & H3). exists c3. split; [reflexivity|].
  rewrite H3. tauto.
Qed.
Lemma base_copy_spec b : breach b -> breach (base_copy b) /\ same_base (base_copy b) b.
Proof.
  intros (Bp & Bn & Bd). split.
  - split; [exact (R_copy _ _ Bp)|]. split; [exact (R_copy _ _ Bn)|exact (R_copy _ _ Bd)].
  - split; [|split]; intros k; cbn [base_copy b_props b_names b_descs].
    + rewrite (proj1 (copy_obs _ _ Bp)). now apply rmap_id, pval_copy_id.
    + rewrite (proj1 (copy_obs _ _ Bn)). now apply rmap_id, ostr_copy_id.
    + rewrite (proj1 (copy_obs _ _ Bd)). now apply rmap_id, ostr_copy_id.
Qed.
Lemma same_base_refl a : same_base a a.
Proof. repeat split. Qed.
Lemma same_base_sym a b : same_base a b -> same_base b a.
Proof. intros (H1 & H2 & H3). split; [|split]; intros k; symmetry; auto. Qed.
Lemma same_base_trans a b c : same_base a b -> same_base b c -> same_base a c.
Proof. intros (H1 & H2 & H3) (G1 & G2 & G3). split; [|split]; intros k; etransitivity; eauto. Qed.
