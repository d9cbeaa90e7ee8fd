(** Histories, union and comparison of multi radix trees. *)
From Coq Require Import Permutation.
From Verif Require Import CStr CStrFacts HSListModel HSListFacts SetModel SetFacts RTreeModel RTreeFacts
  RTreeFacts2 RTreeFacts3 RTreeFacts4 MRTreeModel MRTreeFacts SpecA.

(** The comparison of sets only depends on the values of the equality. *)
Lemma find_at_ext {A} (f g : A -> A -> bool) : (forall x y, f x y = g x y) ->
  forall l x i, find_at f l x i = find_at g l x i.
Proof. intros H l x. induction l as [|y l IH]; intros i; cbn; [reflexivity|]. rewrite H. destruct (g y x); auto. Qed.
Lemma set_in_ext {A} (f g : A -> A -> bool) : (forall x y, f x y = g x y) ->
  forall s x, set_in f s x = set_in g s x.
Proof. intros H s x. unfold set_in. induction (hitems s) as [|y l IH]; cbn; [reflexivity|]. now rewrite H, IH. Qed.
Lemma set_add_all_ext {A} (f g : A -> A -> bool) : (forall x y, f x y = g x y) ->
  forall l s, set_add_all f s l = set_add_all g s l.
Proof.
  intros H l. induction l as [|x l IH]; intros s; cbn; [reflexivity|].
  unfold set_add. rewrite (set_in_ext f g H). destruct (set_in g s x); cbn; [apply IH|].
  destruct (hs_append s x); cbn; auto.
Qed.
Lemma cmp_loop_ext {A} (f g : A -> A -> bool) : (forall x y, f x y = g x y) ->
  forall s2 its i a b, cmp_loop f s2 its i a b = cmp_loop g s2 its i a b.
Proof.
  intros H s2 its. induction its as [|x its IH]; intros i [|? ?] [|? ?]; cbn; try reflexivity.
  unfold set_at. rewrite (find_at_ext f g H). destruct (find_at g (hitems s2) x 0); auto.
Qed.
Lemma set_cmp_ext {A} (f g : A -> A -> bool) : (forall x y, f x y = g x y) ->
  forall s1 s2, set_cmp f s1 s2 = set_cmp g s1 s2.
Proof. intros H s1 s2. unfold set_cmp. now rewrite (cmp_loop_ext f g H). Qed.

Section Facts.
Context {V : Type}.
Notation mlist := (list (mval V)).
Implicit Types (t : mtree V) (k : str).

(** The values stored under exactly [k], in order. *)
Definition values_of (kvs : list (str * V)) (k : str) : list V :=
  map snd (filter (fun kv => streq (fst kv) k) kvs).

Fixpoint mt_sets t (kvs : list (str * V)) : res (mtree V) :=
  match kvs with
  | [] => Ok t
  | (k, v) :: r => t' <- mt_set t k v ;; mt_sets t' r
  end.

Lemma mt_sets_spec kvs : forall t, minv t -> nonempty_keys kvs ->
  exists t', mt_sets t kvs = Ok t' /\ minv t' /\ mlen t' = (mlen t + Z.of_nat (length kvs))%Z /\
    forall k, oflat (mlook t' k) = oflat (mlook t k) ++ values_of kvs k.
Proof.
  induction kvs as [|[k v] kvs IH]; intros t Ht Hne; cbn [mt_sets].
  - exists t. split; [reflexivity|]. split; [exact Ht|]. split; [cbn; lia|]. intros k. cbn. now rewrite app_nil_r.
  - destruct (mt_put_spec t k (MV v) Ht) as (t1 & E & Ht1 & Hlen & Hl & _).
    { apply (Hne k v). now left. }
    unfold mt_set. rewrite E. cbn [bind].
    destruct (IH t1 Ht1) as (t2 & E2 & Ht2 & Hlen2 & Hl2); [intros k' v' Hin; apply (Hne k' v'); now right|].
    exists t2. split; [exact E2|]. split; [exact Ht2|]. split; [cbn [length]; lia|].
    intros k'. rewrite Hl2, Hl, <- app_assoc. f_equal. unfold values_of. cbn [filter fst].
    rewrite (streq_sym k' k). destruct (streq k k'); reflexivity.
Qed.

(** No two keys part at a point that is not itself an earlier key. *)
Definition no_branching (kvs : list (str * V)) : Prop :=
  forall l1 k v l2 s p a ra b rb, kvs = l1 ++ (k, v) :: l2 ->
    In s (map fst l1) -> s = p ++ a :: ra -> k = p ++ b :: rb -> a <> b -> p <> [] -> In p (map fst l1).

Definition wrap (vs : list V) : option mlist := match vs with [] => None | _ => Some (map MV vs) end.

Lemma values_of_app a b k : values_of (a ++ b) k = values_of a k ++ values_of b k.
Proof. unfold values_of. now rewrite filter_app, map_app. Qed.
Lemma values_of_in kvs k : values_of kvs k <> [] <-> In k (map fst kvs).
Proof.
  unfold values_of. induction kvs as [|[k' v] kvs IH]; cbn; [tauto|].
  destruct (streq_spec k' k) as [->|Hne]; cbn; [split; auto; discriminate|]. rewrite IH. intuition congruence.
Qed.

Lemma mt_sets_exact kvs2 : forall kvs1 t, minv t -> nonempty_keys (kvs1 ++ kvs2) -> no_branching (kvs1 ++ kvs2) ->
  (forall k, mlook t k = wrap (values_of kvs1 k)) ->
  exists t', mt_sets t kvs2 = Ok t' /\ forall k, mlook t' k = wrap (values_of (kvs1 ++ kvs2) k).
Proof.
  induction kvs2 as [|[k v] kvs2 IH]; intros kvs1 t Ht Hne Hnb Hl; cbn [mt_sets].
  - exists t. split; [reflexivity|]. intros k. now rewrite app_nil_r.
  - assert (Hk : k <> []) by (apply (Hne k v); apply in_or_app; right; now left).
    destruct (mt_put_spec t k (MV v) Ht Hk) as (t1 & E & Ht1 & _ & _ & Hex).
    unfold mt_set. rewrite E. cbn [bind].
    assert (Hin : forall s, mlook t s <> None <-> In s (map fst kvs1)).
    { intros s. rewrite Hl. rewrite <- values_of_in. unfold wrap. destruct (values_of kvs1 s); split; congruence. }
    specialize (Hex (msplit_none (length k) (mroot t) k (proj1 Ht) (proj2 (proj2 Ht)) (le_n _)
                  (fun s p a ra b rb Hs Es Ek Hab Hp =>
                     proj2 (Hin p) (Hnb kvs1 k v kvs2 s p a ra b rb eq_refl (proj1 (Hin s) Hs) Es Ek Hab Hp)))).
    assert (Happ : kvs1 ++ (k, v) :: kvs2 = (kvs1 ++ [(k, v)]) ++ kvs2) by now rewrite <- app_assoc.
    rewrite Happ in *. apply IH; auto.
    intros k'. rewrite Hex, !Hl. rewrite values_of_app. change (values_of [(k, v)] k') with (map snd (if streq k k' then [(k, v)] else [])).
    rewrite (streq_sym k' k). destruct (streq_spec k k') as [->|Hne'].
    + cbn [map snd]. unfold wrap, olist. destruct (values_of kvs1 k') as [|x l]; [reflexivity|].
      change ((x :: l) ++ [v]) with (x :: (l ++ [v])). cbn [map]. now rewrite map_app.
    + cbn. now rewrite app_nil_r.
Qed.

(** Unite. *)
Fixpoint put_kvs t (kvs : list (str * mlist)) : res (mtree V) :=
  match kvs with
  | [] => Ok t
  | (k, l) :: r => t' <- put_all t k l ;; put_kvs t' r
  end.
Lemma put_kvs_app t a b : put_kvs t (a ++ b) = (t' <- put_kvs t a ;; put_kvs t' b).
Proof.
  revert t; induction a as [|[k v] a IH]; intros t; cbn; [reflexivity|].
  destruct (put_all t k v); cbn; [apply IH|reflexivity|reflexivity].
Qed.
Lemma put_nodes_level t pre dp l : put_nodes t pre l = put_kvs t (strip_d (level pre dp l)).
Proof.
  revert t; induction l as [|n l IH]; intros t; cbn; [reflexivity|].
  unfold mdata. destruct (ndata n) as [d|]; cbn; [|apply IH].
  destruct (put_all t (pre ++ nkey n) d); cbn; [apply IH|reflexivity|reflexivity].
Qed.
Lemma munite_loop_bfs fuel : forall t (q : bq),
  bq_size q <= fuel -> munite_loop fuel t (map fst q) = put_kvs t (strip_d (bfs fuel q)).
Proof.
  induction fuel as [|fuel IH]; intros t q Hq.
  - destruct q as [|[[h pre] dp] q]; [reflexivity|cbn in Hq; lia].
  - destruct q as [|[[h pre] dp] q]; [reflexivity|].
    change (S (fsize (hitems h)) + bq_size q <= S fuel) in Hq.
    cbn [map fst munite_loop bfs]. unfold strip_d. rewrite map_app, put_kvs_app.
    rewrite (put_nodes_level t pre dp). unfold strip_d.
    destruct (put_kvs t (map fst (level pre dp (hitems h)))) as [t1| |]; cbn [bind]; [|reflexivity|reflexivity].
    fold (strip_d (bfs fuel (q ++ map (fun n => (nsubs n, pre ++ nkey n, S dp)) (filter nonleaf (hitems h))))).
    rewrite <- IH.
    + f_equal. rewrite map_app, map_map. reflexivity.
    + rewrite bq_size_app. pose proof (bq_size_children pre dp (hitems h)). lia.
Qed.

Lemma put_all_spec l : forall t k, minv t -> k <> [] ->
  exists t', put_all t k l = Ok t' /\ minv t' /\
    forall k', oflat (mlook t' k') = oflat (mlook t k') ++ (if streq k' k then mflat l else []).
Proof.
  induction l as [|v l IH]; intros t k Ht Hk; cbn [put_all].
  - exists t. split; [reflexivity|]. split; [exact Ht|]. intros k'. destruct (streq k' k); now rewrite app_nil_r.
  - destruct (mt_put_spec t k v Ht Hk) as (t1 & -> & Ht1 & _ & Hl & _). cbn [bind].
    destruct (IH t1 k Ht1 Hk) as (t2 & E & Ht2 & Hl2). exists t2. split; [exact E|]. split; [exact Ht2|].
    intros k'. rewrite Hl2, Hl, <- app_assoc. f_equal. now destruct (streq k' k).
Qed.
Definition kv_flat (kvs : list (str * mlist)) k : list V :=
  flat_map (fun kv => if streq (fst kv) k then mflat (snd kv) else []) kvs.
Lemma put_kvs_spec kvs : forall t, minv t -> (forall k l, In (k, l) kvs -> k <> []) ->
  exists t', put_kvs t kvs = Ok t' /\ minv t' /\
    forall k, oflat (mlook t' k) = oflat (mlook t k) ++ kv_flat kvs k.
Proof.
  induction kvs as [|[k l] kvs IH]; intros t Ht Hne; cbn [put_kvs].
  - exists t. split; [reflexivity|]. split; [exact Ht|]. intros k. cbn. now rewrite app_nil_r.
  - destruct (put_all_spec l t k Ht) as (t1 & -> & Ht1 & Hl); [apply (Hne k l); now left|]. cbn [bind].
    destruct (IH t1 Ht1) as (t2 & E & Ht2 & Hl2); [intros k' l' H; apply (Hne k' l'); now right|].
    exists t2. split; [exact E|]. split; [exact Ht2|]. intros k'. rewrite Hl2, Hl, <- app_assoc. f_equal.
    cbn. now rewrite (streq_sym k' k).
Qed.
Lemma kv_flat_notin kvs k : ~ In k (map fst kvs) -> kv_flat kvs k = [].
Proof.
  induction kvs as [|[k' l] kvs IH]; cbn; [reflexivity|]. intros H.
  rewrite streq_neq by (intros ->; apply H; now left). apply IH. tauto.
Qed.
Lemma kv_flat_in kvs k l : NoDup (map fst kvs) -> In (k, l) kvs -> kv_flat kvs k = mflat l.
Proof.
  induction kvs as [|[k' l'] kvs IH]; cbn; [contradiction|]. intros Hd [E|Hin]; inversion Hd; subst.
  - inversion E; subst. rewrite streq_refl. fold (kv_flat kvs k). rewrite kv_flat_notin by assumption. apply app_nil_r.
  - rewrite streq_neq; [cbn; now apply IH|]. intros ->. apply H1. now apply (in_map fst) in Hin.
Qed.

Lemma mt_unite_spec t1 t2 : minv t1 -> minv t2 ->
  exists t, mt_unite t1 t2 = Ok t /\ minv t /\
    forall k, oflat (mlook t k) = oflat (mlook t1 k) ++ oflat (mlook t2 k).
Proof.
  intros H1 H2. set (q := [(mroot t2, [] : str, 0)] : bq).
  set (fuel := S (fsize (hitems (mroot t2)))).
  assert (Hsz : bq_size q <= fuel) by (unfold q, fuel, bq_size; cbn [fold_right fst]; lia).
  unfold mt_unite. change [(mroot t2, [])] with (map fst q). fold fuel. rewrite munite_loop_bfs by exact Hsz.
  set (kvs := strip_d (bfs fuel q)).
  assert (Hperm : Permutation kvs (ents (hitems (mroot t2)))).
  { eapply Permutation_trans; [apply bfs_ents, Hsz|]. unfold q, bq_ents. cbn [flat_map fst snd].
    rewrite eprefix_nil, app_nil_r. apply Permutation_refl. }
  assert (Hin : forall k l, In (k, l) kvs <-> mlook t2 k = Some l).
  { intros k l. unfold mlook. rewrite <- (ents_look _ _ _ (proj1 H2)).
    split; apply Permutation_in; [exact Hperm|now apply Permutation_sym]. }
  assert (Hnd : NoDup (map fst kvs)).
  { eapply Permutation_NoDup; [apply Permutation_map, Permutation_sym, Hperm|]. apply ents_nodup, (proj1 H2). }
  destruct (put_kvs_spec kvs t1 H1) as (t & E & Ht & Hl).
  { intros k l Hkl. apply Hin in Hkl. intros ->. discriminate. }
  exists t. split; [exact E|]. split; [exact Ht|]. intros k. rewrite Hl. f_equal.
  destruct (mlook t2 k) as [l|] eqn:El.
  - cbn [oflat]. apply kv_flat_in; [exact Hnd|]. now apply Hin.
  - cbn [oflat]. apply kv_flat_notin. intros H. apply in_map_iff in H. destruct H as ([k' l] & Ek & H). cbn in Ek. subst.
    apply Hin in H. congruence.
Qed.

(** Comparison only sees the keys. *)
Lemma mt_cmp_spec (eqv : mlist -> mlist -> bool) t1 t2 :
  (forall l, eqv l l = true) -> minv t1 -> minv t2 ->
  exists b, mt_cmp eqv t1 t2 = Ok b /\
    (b = true <-> forall k, mlook t1 k = None <-> mlook t2 k = None).
Proof.
  intros Hr H1 H2.
  assert (Hext : forall p q, mpaircmp eqv p q = paircmp (fun _ _ => true) p q).
  { intros p q. unfold mpaircmp, paircmp. destruct (streq (fst p) (fst q)); [apply Hr|reflexivity]. }
  assert (E : mt_cmp eqv t1 t2 = rt_cmp (fun _ _ => true) (mkT (mroot t1) 0) (mkT (mroot t2) 0)).
  { unfold mt_cmp, rt_cmp, mt_pairs.
    destruct (rt_pairs (mkT (mroot t1) 0)); cbn [bind]; try reflexivity.
    destruct (rt_pairs (mkT (mroot t2) 0)); cbn [bind]; try reflexivity.
    rewrite !(set_add_all_ext _ _ Hext). destruct (set_add_all _ hs_empty a); cbn [bind]; try reflexivity.
    destruct (set_add_all _ hs_empty a0); cbn [bind]; try reflexivity. now rewrite (set_cmp_ext _ _ Hext). }
  rewrite E. destruct (rt_cmp_spec (fun _ _ => true) (mkT (mroot t1) 0) (mkT (mroot t2) 0)) as (b & Eb & Hb).
  { exact (proj1 H1). } { exact (proj1 H2). }
  exists b. split; [exact Eb|]. rewrite Hb. cbn [troot]. fold (mlook t1) (mlook t2).
  split; intros H k; specialize (H k); unfold mlook in *;
    destruct (look (mroot t1) k), (look (mroot t2) k); try tauto; try (split; congruence).
  - destruct H as [_ H]. now specialize (H eq_refl).
  - destruct H as [H _]. now specialize (H eq_refl).
Qed.

(** Enumeration. *)
Lemma mt_pairs_spec t : minv t ->
  exists ps, mt_pairs t = Ok ps /\ NoDup (map fst ps) /\
    (forall k l, In (k, l) ps <-> mt_get t k = Ok (Some l)) /\
    mt_keys t = Ok (map fst ps) /\ mt_values t = Ok (map snd ps).
Proof.
  intros (Hw & _). unfold mt_keys, mt_values, mt_pairs. rewrite rt_pairs_ents. cbn [troot rmap].
  eexists. split; [reflexivity|]. split; [now apply ents_nodup|]. split; [|split; reflexivity].
  intros k l. rewrite mt_get_mlook. unfold mlook. rewrite (ents_look _ _ _ Hw). split; congruence.
Qed.

(** Reachable multi-dictionaries. *)
Inductive mreach : mtree V -> Prop :=
| MR_create : mreach mt_create
| MR_set t k v t' : mreach t -> k <> [] -> mt_set t k v = Ok t' -> mreach t'
| MR_unset t k t' : mreach t -> k <> [] -> mt_unset t k = Ok t' -> mreach t'
| MR_unite t1 t2 t : mreach t1 -> mreach t2 -> mt_unite t1 t2 = Ok t -> mreach t.
Lemma mreach_minv t : mreach t -> minv t.
Proof.
  induction 1 as [|t k v t' Ht IH Hk E|t k t' Ht IH Hk E|t1 t2 t H1 IH1 H2 IH2 E].
  - apply minv_create.
  - destruct (mt_put_spec t k (MV v) IH Hk) as (t1 & E1 & Ht1 & _). unfold mt_set in E. congruence.
  - pose proof (mt_unset_spec t k IH Hk) as H. rewrite E in H. apply H.
  - destruct (mt_unite_spec t1 t2 IH1 IH2) as (t' & E' & Ht' & _). congruence.
Qed.
Lemma mreach_sets kvs t : forall t0, mreach t0 -> nonempty_keys kvs -> mt_sets t0 kvs = Ok t -> mreach t.
Proof.
  induction kvs as [|[k v] kvs IH]; intros t0 H0 Hne E; cbn in E; [congruence|].
  apply bind_ok in E. destruct E as (t1 & E1 & E). apply (IH t1); auto.
  - eapply MR_set; eauto. apply (Hne k v). now left.
  - intros k' v' H. apply (Hne k' v'). now right.
Qed.
End Facts.
