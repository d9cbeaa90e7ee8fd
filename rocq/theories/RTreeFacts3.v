(** Tree-level results: histories of [set], element count, union, comparison. *)
From Coq Require Import Permutation Sorted.
From Verif Require Import CStr CStrFacts HSListModel HSListFacts SetModel SetFacts RTreeModel RTreeFacts RTreeFacts2.

Section Facts.
Context {V : Type}.
Notation node := (node V).
Notation rtree := (rtree V).
Implicit Types (n m : node) (l : list node) (h : hsl node) (k : str) (d : option V) (t : rtree).

Definition wft t : Prop := wff (troot t).

Lemma wft_create : wft rt_create.
Proof. apply wff_empty. Qed.

Lemma rt_get_look t k : rt_get t k = Ok (look (troot t) k).
Proof. unfold rt_get. now apply get_sub_look. Qed.

Lemma rt_set_ok t k d : wft t -> exists t', rt_set t k d = Ok t' /\ wft t'.
Proof.
  intros Hw. destruct (set_sub_spec (length k) (troot t) k d Hw (le_n _)) as (h' & b & E & Hw' & _).
  unfold rt_set. rewrite E. cbn. eexists; split; [reflexivity|exact Hw'].
Qed.

(** Sequences of sets. *)
Fixpoint rt_sets t (kvs : list (str * V)) : res rtree :=
  match kvs with
  | [] => Ok t
  | (k, v) :: r => t' <- rt_set t k (Some v) ;; rt_sets t' r
  end.
(** The most recent value given to [k], starting from [o]. *)
Fixpoint last_set (o : option V) (kvs : list (str * V)) k : option V :=
  match kvs with
  | [] => o
  | (k', v) :: r => last_set (if streq k k' then Some v else o) r k
  end.

(** Every key of [kvs] is in [D] or bound earlier, or is no proper prefix of a
    key in [S] or of an earlier one. *)
Fixpoint late_free (D S : str -> Prop) (kvs : list (str * V)) : Prop :=
  match kvs with
  | [] => True
  | (k, _) :: r => k <> [] /\ (D k \/ forall s, S s -> ~ proper_prefix k s) /\ late_free (addS D k) (addS S k) r
  end.

(** One step, with everything we know about it. *)
Lemma rt_set_step t k v (S : str -> Prop) :
  wft t -> tn S (troot t) -> k <> [] -> (look (troot t) k <> None \/ forall s, S s -> ~ proper_prefix k s) ->
  exists t', rt_set t k (Some v) = Ok t' /\ wft t' /\ tn (addS S k) (troot t') /\
    forall k', look (troot t') k' = if streq k' k then Some v else look (troot t) k'.
Proof.
  intros Hw Ht Hk HS.
  destruct (set_sub_spec (length k) (troot t) k (Some v) Hw (le_n _)) as (h' & b & E & Hw' & Hl).
  destruct (set_sub_tn (length k) (troot t) k (Some v) h' b S Hw (le_n _) Hk Ht) as [Hc Ht']; auto.
  { destruct HS as [HS|HS]; [left|now right]. destruct (look (troot t) k) as [w|] eqn:El; [|congruence].
    destruct (look_at_path _ _ _ Hw El) as (m & Hm & _). eauto. }
  unfold rt_set. rewrite E. cbn [bind]. eexists; split; [reflexivity|]. cbn [troot fst].
  split; [exact Hw'|]. split; [exact Ht'|]. intros k'. now apply Hl.
Qed.

Lemma dom_step t t' k v (D : str -> Prop) :
  (forall s, D s -> look (troot t) s <> None) ->
  (forall k', look (troot t') k' = if streq k' k then Some v else look (troot t) k') ->
  forall s, addS D k s -> look (troot t') s <> None.
Proof.
  intros HD Hl s Hs. rewrite Hl. destruct (streq_spec s k) as [->|Hne]; [discriminate|].
  destruct Hs as [Hs| ->]; [auto|congruence].
Qed.

Lemma rt_sets_spec kvs : forall t (D S : str -> Prop),
  wft t -> tn S (troot t) -> (forall s, D s -> look (troot t) s <> None) -> late_free D S kvs ->
  exists t', rt_sets t kvs = Ok t' /\ wft t' /\
    (exists S', tn S' (troot t') /\ forall s, S' s <-> S s \/ In s (map fst kvs)) /\
    forall k, look (troot t') k = last_set (look (troot t) k) kvs k.
Proof.
  induction kvs as [|[k v] kvs IH]; intros t D S Hw Ht HD Hl; cbn [rt_sets last_set].
  - exists t. split; [reflexivity|]. split; [exact Hw|]. split; [|reflexivity].
    exists S. split; [exact Ht|]. cbn. tauto.
  - destruct Hl as (Hk & HS & Hl).
    destruct (rt_set_step t k v S Hw Ht Hk) as (t1 & -> & Hw1 & Ht1 & Hlook).
    { destruct HS; [left; auto|now right]. } cbn [bind].
    destruct (IH t1 (addS D k) (addS S k) Hw1 Ht1) as (t2 & -> & Hw2 & (S' & Ht2 & HS') & Hlook2); auto.
    { eapply dom_step; eauto. }
    exists t2. split; [reflexivity|]. split; [exact Hw2|]. split.
    + exists S'. split; [exact Ht2|]. intros s. rewrite HS'. unfold addS. cbn. intuition congruence.
    + intros k0. rewrite Hlook2, Hlook. reflexivity.
Qed.

(** ** Element count *)
(** Nodes without data only sit at proper prefixes of keys in [S]. *)
Definition dl (S : str -> Prop) t : Prop :=
  forall q m, at_path (hitems (troot t)) q m -> ndata m = None -> exists s, S s /\ proper_prefix q s.
Definition count t : nat := length (ents (hitems (troot t))).

Lemma count_set t t' k v :
  wft t -> wft t' ->
  (forall k', look (troot t') k' = if streq k' k then Some v else look (troot t) k') ->
  count t' = match look (troot t) k with Some _ => count t | None => S (count t) end.
Proof.
  intros Hw Hw' Hl. unfold count.
  set (e := ents (hitems (troot t))). set (e' := ents (hitems (troot t'))).
  assert (Hin : forall x, In x (map fst e) <-> look (troot t) x <> None).
  { intros x. unfold e. split.
    - intros H. apply in_map_iff in H. destruct H as ([x' w] & <- & H). apply (ents_look _ _ _ Hw) in H.
      cbn. congruence.
    - intros H. destruct (look (troot t) x) as [w|] eqn:E; [|congruence].
      apply (ents_look _ _ _ Hw) in E. now apply (in_map fst) in E. }
  assert (Hin' : forall x, In x (map fst e') <-> look (troot t') x <> None).
  { intros x. unfold e'. split.
    - intros H. apply in_map_iff in H. destruct H as ([x' w] & <- & H). apply (ents_look _ _ _ Hw') in H.
      cbn. congruence.
    - intros H. destruct (look (troot t') x) as [w|] eqn:E; [|congruence].
      apply (ents_look _ _ _ Hw') in E. now apply (in_map fst) in E. }
  pose proof (ents_nodup _ Hw) as Hd. pose proof (ents_nodup _ Hw') as Hd'. fold e in Hd. fold e' in Hd'.
  rewrite <- (map_length fst e), <- (map_length fst e').
  destruct (look (troot t) k) as [w|] eqn:E.
  - apply Permutation_length, NoDup_Permutation; auto. intros x. rewrite Hin, Hin', Hl.
    destruct (streq_spec x k) as [->|]; [|tauto]. split; congruence.
  - change (S (length (map fst e))) with (length (k :: map fst e)).
    apply Permutation_length, NoDup_Permutation; auto.
    + constructor; [|exact Hd]. rewrite Hin. congruence.
    + intros x. cbn. rewrite Hin, Hin', Hl. destruct (streq_spec x k) as [->|Hne].
      * split; [auto|congruence].
      * split; [auto|]. intros [->|]; congruence.
Qed.

Lemma rt_set_len_step t k v (S : str -> Prop) :
  wft t -> tn S (troot t) -> dl S t -> tlen t = count t ->
  k <> [] -> (look (troot t) k <> None \/ forall s, S s -> ~ proper_prefix k s) ->
  exists t', rt_set t k (Some v) = Ok t' /\ wft t' /\ tn (addS S k) (troot t') /\
    dl (addS S k) t' /\ tlen t' = count t' /\
    forall k', look (troot t') k' = if streq k' k then Some v else look (troot t) k'.
Proof.
  intros Hw Ht Hdl Hlen Hk HS.
  destruct (rt_set_step t k v S Hw Ht Hk HS) as (t' & E & Hw' & Ht' & Hl).
  exists t'. split; [exact E|]. split; [exact Hw'|]. split; [exact Ht'|].
  unfold rt_set in E. apply bind_ok in E. destruct E as ([h' b] & Es & E). inversion E; subst t'; clear E.
  cbn [fst snd] in *. split; [|split; [|exact Hl]].
  - intros q m Hq Hd. destruct (set_sub_paths _ _ _ _ _ _ q m Hw (le_n _) Es Hq) as [(m0 & Hm0 & E)|[[-> E]|Hp]].
    + destruct (Hdl q m0 Hm0) as (s & Hs & Hp); [congruence|]. exists s. unfold addS. auto.
    + congruence.
    + exists k. unfold addS. auto.
  - rewrite (count_set t _ k v Hw Hw' Hl). pose proof (set_sub_flag _ _ _ _ _ _ Hw (le_n _) Hk Es) as Hf.
    cbn [tlen]. destruct b.
    + destruct (look (troot t) k) as [w|] eqn:E; [|congruence]. exfalso.
      destruct (look_at_path _ _ _ Hw E) as (m & Hm & _). now apply (Hf m).
    + destruct Hf as (m & Hm). pose proof (at_path_look _ _ _ Hw Hm) as El. rewrite El.
      destruct (ndata m) eqn:Ed; [exact Hlen|]. exfalso.
      destruct HS as [HS|HS]; [congruence|].
      destruct (Hdl k m Hm Ed) as (s & Hs & Hp). now apply (HS s Hs).
Qed.

Lemma rt_sets_len kvs : forall t (D S : str -> Prop),
  wft t -> tn S (troot t) -> (forall s, D s -> look (troot t) s <> None) ->
  dl S t -> tlen t = count t -> late_free D S kvs ->
  exists t', rt_sets t kvs = Ok t' /\ tlen t' = count t'.
Proof.
  induction kvs as [|[k v] kvs IH]; intros t D S Hw Ht HD Hdl Hlen Hl; cbn [rt_sets].
  - exists t. auto.
  - destruct Hl as (Hk & HS & Hl).
    destruct (rt_set_len_step t k v S Hw Ht Hdl Hlen Hk) as (t1 & -> & Hw1 & Ht1 & Hdl1 & Hlen1 & Hlook).
    { destruct HS; [left; auto|now right]. }
    cbn [bind]. eapply IH; eauto. eapply dom_step; eauto.
Qed.

(** ** Union *)
Inductive pd : list node -> str -> nat -> Prop :=
| PD_here l n : In n l -> pd l (nkey n) 0
| PD_below l n q dp : In n l -> pd (hitems (nsubs n)) q dp -> pd l (nkey n ++ q) (S dp).

Lemma pd_depth h p q a b :
  wff h -> pd (hitems h) p a -> pd (hitems h) q b -> proper_prefix p q -> a < b.
Proof.
  intros Hw. revert p q a b. induction Hw as [h Hs Hnd Hk Hsub IH]. intros p q a b Hp Hq Hpre.
  assert (Hsame : forall x y s r, In x (hitems h) -> In y (hitems h) ->
            prefix (nkey x ++ s) (nkey y ++ r) -> x = y).
  { intros x y s r Hx Hy (u & E). pose proof (Hk x Hx). pose proof (Hk y Hy).
    assert (Eh : head0 x = head0 y).
    { unfold head0. destruct (nkey x), (nkey y); try congruence. cbn in E. inversion E; reflexivity. }
    pose proof (pick_in (head0 y) _ _ Hnd Hx Eh) as P1.
    pose proof (pick_in (head0 y) _ _ Hnd Hy eq_refl) as P2. congruence. }
  inversion Hp as [l1 x Hx E1 E2|l1 x p' a' Hx Hp' E1 E2]; subst;
  inversion Hq as [l2 y Hy E3 E4|l2 y q' b' Hy Hq' E3 E4]; subst.
  - exfalso. assert (x = y) as ->.
    { apply (Hsame x y [] []); auto. rewrite !app_nil_r. now apply proper_prefix_prefix. }
    apply proper_prefix_length in Hpre. lia.
  - lia.
  - exfalso. assert (x = y) as ->.
    { apply (Hsame x y p' []); auto. rewrite !app_nil_r. now apply proper_prefix_prefix. }
    apply proper_prefix_length in Hpre. rewrite app_length in Hpre. lia.
  - assert (x = y) as ->.
    { apply (Hsame x y p' q'); auto. now apply proper_prefix_prefix. }
    apply proper_prefix_app_inv in Hpre. specialize (IH y Hy p' q' a' b' Hp' Hq' Hpre). lia.
Qed.

(** Breadth-first list of (key, value, depth). *)
Definition bq := list (hsl node * str * nat).
Definition level (pre : str) (dp : nat) l : list (str * V * nat) :=
  flat_map (fun n => match ndata n with Some v => [(pre ++ nkey n, v, dp)] | None => [] end) l.
Fixpoint bfs (fuel : nat) (q : bq) : list (str * V * nat) :=
  match q, fuel with
  | (subs, pre, dp) :: q', S fuel' =>
      level pre dp (hitems subs) ++
      bfs fuel' (q' ++ map (fun n => (nsubs n, pre ++ nkey n, S dp)) (filter nonleaf (hitems subs)))
  | _, _ => []
  end.
Definition bq_size (q : bq) : nat := fold_right (fun x a => S (fsize (hitems (fst (fst x)))) + a) 0 q.
Definition strip_d (e : list (str * V * nat)) : list (str * V) := map fst e.

Lemma rt_sets_app t a b : rt_sets t (a ++ b) = (t' <- rt_sets t a ;; rt_sets t' b).
Proof.
  revert t; induction a as [|[k v] a IH]; intros t; cbn; [reflexivity|].
  destruct (rt_set t k (Some v)); cbn; [apply IH|reflexivity|reflexivity].
Qed.

Lemma set_nodes_level t pre dp l : set_nodes t pre l = rt_sets t (strip_d (level pre dp l)).
Proof.
  revert t; induction l as [|n l IH]; intros t; cbn; [reflexivity|].
  destruct (ndata n); cbn; [|apply IH].
  destruct (rt_set t (pre ++ nkey n) (Some v)); cbn; [apply IH|reflexivity|reflexivity].
Qed.

Lemma bq_size_app q1 q2 : bq_size (q1 ++ q2) = bq_size q1 + bq_size q2.
Proof. induction q1 as [|a l1 IH]; [reflexivity|]. unfold bq_size in *. cbn [app fold_right]. rewrite IH. lia. Qed.
Lemma bq_size_children pre dp l :
  bq_size (map (fun n => (nsubs n, pre ++ nkey n, S dp)) (filter nonleaf l)) <= fsize l.
Proof.
  induction l as [|n l IH]; [cbn; lia|]. cbn [filter].
  change (fsize (n :: l)) with (nsize n + fsize l). rewrite nsize_eq.
  destruct (nonleaf n); [|lia]. unfold bq_size in *. cbn [map fold_right fst]. lia.
Qed.

Lemma unite_loop_bfs fuel : forall t q,
  bq_size q <= fuel ->
  unite_loop fuel t (map fst q) = rt_sets t (strip_d (bfs fuel q)).
Proof.
  induction fuel as [|fuel IH]; intros t q Hq.
  - destruct q as [|[[h pre] dp] q]; [reflexivity|cbn in Hq; lia].
  - destruct q as [|[[h pre] dp] q]; [reflexivity|].
    change (S (fsize (hitems h)) + bq_size q <= S fuel) in Hq.
    cbn [map fst unite_loop bfs]. unfold strip_d. rewrite map_app, rt_sets_app.
    rewrite (set_nodes_level t pre dp). unfold strip_d.
    destruct (rt_sets t (map fst (level pre dp (hitems h)))) as [t1| |]; cbn [bind]; [|reflexivity|reflexivity].
    fold (strip_d (bfs fuel (q ++ map (fun n => (nsubs n, pre ++ nkey n, S dp)) (filter nonleaf (hitems h))))).
    rewrite <- IH.
    + f_equal. rewrite map_app, map_map. reflexivity.
    + rewrite bq_size_app. pose proof (bq_size_children pre dp (hitems h)). lia.
Qed.

(** Everything found, exactly once. *)
Definition bq_ents (q : bq) : list (str * V) :=
  flat_map (fun x => eprefix (snd (fst x)) (ents (hitems (fst (fst x))))) q.
Lemma level_ents pre dp l :
  Permutation (eprefix pre (ents l))
    (strip_d (level pre dp l) ++ bq_ents (map (fun n => (nsubs n, pre ++ nkey n, S dp)) (filter nonleaf l))).
Proof.
  induction l as [|n l IH]; [constructor|].
  change (ents (n :: l)) with (nents n ++ ents l).
  change (level pre dp (n :: l)) with
    ((match ndata n with Some v => [(pre ++ nkey n, v, dp)] | None => [] end) ++ level pre dp l).
  rewrite eprefix_app, nents_eq, eprefix_app, eprefix_eprefix.
  unfold strip_d in *. rewrite map_app, <- !app_assoc.
  replace (eprefix pre (own n)) with
    (map fst (match ndata n with Some v => [(pre ++ nkey n, v, dp)] | None => [] end)).
  2:{ unfold own. destruct (ndata n); reflexivity. }
  apply Permutation_app_head. cbn [filter].
  destruct (nonleaf n) eqn:E.
  - cbn [map]. match goal with |- context [bq_ents (?x :: ?r)] =>
      change (bq_ents (x :: r)) with (eprefix (pre ++ nkey n) (ents (hitems (nsubs n))) ++ bq_ents r) end.
    eapply Permutation_trans; [apply Permutation_app_head, IH|].
    rewrite !app_assoc. apply Permutation_app_tail, Permutation_app_comm.
  - rewrite (ents_leaf _ E). exact IH.
Qed.
Lemma bfs_ents fuel : forall q, bq_size q <= fuel -> Permutation (strip_d (bfs fuel q)) (bq_ents q).
Proof.
  induction fuel as [|fuel IH]; intros q Hq.
  - destruct q as [|[[h pre] dp] q]; [constructor|cbn in Hq; lia].
  - destruct q as [|[[h pre] dp] q]; [constructor|].
    change (S (fsize (hitems h)) + bq_size q <= S fuel) in Hq.
    cbn [bfs bq_ents flat_map fst snd]. unfold strip_d. rewrite map_app.
    eapply Permutation_trans; [apply Permutation_app_head; apply IH|].
    { rewrite bq_size_app. pose proof (bq_size_children pre dp (hitems h)). lia. }
    unfold bq_ents at 1. rewrite flat_map_app.
    eapply Permutation_trans; [|apply Permutation_app_tail, Permutation_sym, (level_ents pre dp)].
    rewrite <- app_assoc. apply Permutation_app_head, Permutation_app_comm.
Qed.

(** Depths never decrease, and are the real depths. *)
Inductive qshape (m : nat) : bq -> Prop :=
| qshape_intro qa qb : (forall x, In x qa -> snd x = m) -> (forall x, In x qb -> snd x = S m) ->
    qshape m (qa ++ qb).
Lemma qshape_min (m : nat) q : qshape m q -> forall x, In x q -> m <= snd x.
Proof.
  destruct 1 as [qa qb Ha Hb]. intros x Hx. apply in_app_or in Hx. destruct Hx as [Hx|Hx].
  - rewrite (Ha _ Hx). lia.
  - rewrite (Hb _ Hx). lia.
Qed.
Lemma level_depth pre dp l e : In e (level pre dp l) -> snd e = dp.
Proof.
  unfold level. rewrite in_flat_map. intros (n & _ & H). destruct (ndata n); [|contradiction].
  destruct H as [<-|[]]. reflexivity.
Qed.
Lemma bfs_sorted fuel : forall (m : nat) q, qshape m q ->
  StronglySorted (fun a b => snd a <= snd b) (bfs fuel q) /\ (forall e, In e (bfs fuel q) -> m <= snd e).
Proof.
  induction fuel as [|fuel IH]; intros m q Hq.
  { destruct q as [|[[h pre] dp] q]; cbn; split; try constructor; intros ? []. }
  destruct q as [|[[h pre] dp] q]; [cbn; split; [constructor|intros ? []]|]. cbn [bfs].
  assert (Hdp : dp = m \/ dp = S m).
  { inversion Hq as [qa qb Ha Hb E]. destruct qa as [|x qa]; cbn in E.
    - subst qb. right. apply (Hb (h, pre, dp)). now left.
    - inversion E; subst x. left. apply (Ha (h, pre, dp)). now left. }
  assert (Hq' : qshape dp (q ++ map (fun n => (nsubs n, pre ++ nkey n, S dp)) (filter nonleaf (hitems h)))).
  { assert (Hch : forall x : hsl node * str * nat,
        In x (map (fun n => (nsubs n, pre ++ nkey n, S dp)) (filter nonleaf (hitems h))) -> snd x = S dp).
    { intros x Hx. apply in_map_iff in Hx. destruct Hx as (n & <- & _). reflexivity. }
    inversion Hq as [qa qb Ha Hb E]. destruct qa as [|x qa]; cbn in E.
    - subst qb. assert (dp = S m) as -> by (apply (Hb (h, pre, dp)); now left).
      constructor; [|exact Hch]. intros x Hx. apply Hb. now right.
    - inversion E; subst x q. assert (dp = m) as -> by (apply (Ha (h, pre, dp)); now left).
      rewrite <- app_assoc. constructor.
      + intros x Hx. apply Ha. now right.
      + intros x Hx. apply in_app_or in Hx. destruct Hx; auto. }
  destruct (IH dp _ Hq') as [Hs Hm]. set (rest := bfs fuel _) in *. split.
  - assert (Hl : forall e, In e (level pre dp (hitems h)) -> snd e = dp) by (intros; eapply level_depth; eauto).
    revert Hl. generalize (level pre dp (hitems h)) as lv. induction lv as [|e lv IHl]; intros Hl; cbn; [exact Hs|].
    constructor; [apply IHl; intros; apply Hl; now right|].
    apply Forall_forall. intros x Hx. rewrite (Hl e) by now left.
    apply in_app_or in Hx. destruct Hx as [Hx|Hx]; [|auto].
    rewrite (Hl x) by now right. lia.
  - intros e He. apply in_app_or in He. destruct He as [He|He].
    + rewrite (level_depth _ _ _ _ He). lia.
    + specialize (Hm e He). lia.
Qed.

Lemma bfs_pd fuel root : forall q,
  (forall h pre dp, In (h, pre, dp) q -> forall p (d' : nat), pd (hitems h) p d' -> pd root (pre ++ p) (dp + d')) ->
  forall k v dp, In (k, v, dp) (bfs fuel q) -> pd root k dp.
Proof.
  induction fuel as [|fuel IH]; intros q Hq k v dp Hin.
  { destruct q as [|[[h pre] dp0] q]; contradiction. }
  destruct q as [|[[h pre] dp0] q]; [contradiction|]. cbn [bfs] in Hin.
  apply in_app_or in Hin. destruct Hin as [Hin|Hin].
  - unfold level in Hin. apply in_flat_map in Hin. destruct Hin as (n & Hn & Hin).
    destruct (ndata n); [|contradiction]. destruct Hin as [E|[]]. inversion E; subst.
    replace dp with (dp + 0) by lia. apply (Hq h pre dp (or_introl eq_refl)). now constructor.
  - apply (IH _) in Hin; auto. intros h' pre' dp' Hx p d' Hp.
    apply in_app_or in Hx. destruct Hx as [Hx|Hx].
    + apply (Hq h' pre' dp'); [now right|exact Hp].
    + apply in_map_iff in Hx. destruct Hx as (n & E & Hn). inversion E; subst.
      apply filter_In in Hn. destruct Hn as [Hn _].
      rewrite <- app_assoc. replace (S dp0 + d') with (dp0 + S d') by lia.
      apply (Hq h pre dp0 (or_introl eq_refl)). now apply PD_below.
Qed.

(** The set sequence performed by unite never sets a prefix late. *)
Lemma sorted_late_free root (e : list (str * V * nat)) : forall D S : str -> Prop,
  wff root ->
  StronglySorted (fun a b => snd a <= snd b) e ->
  (forall k v dp, In (k, v, dp) e -> pd (hitems root) k dp) ->
  (forall k v dp, In (k, v, dp) e -> k <> []) ->
  (forall s, S s -> exists ds, pd (hitems root) s ds /\ forall k v dp, In (k, v, dp) e -> ds <= dp) ->
  late_free D S (strip_d e).
Proof.
  induction e as [|[[k v] dp] e IH]; intros D S Hw Hs Hpd Hne HS; cbn; [exact I|].
  inversion Hs as [|x y Hs' Hall]; subst. split; [apply (Hne k v dp); now left|]. split.
  - right. intros s Hss Hp. destruct (HS s Hss) as (ds & Hds & Hle).
    specialize (Hle k v dp (or_introl eq_refl)).
    pose proof (pd_depth root k s dp ds Hw (Hpd k v dp (or_introl eq_refl)) Hds Hp). lia.
  - apply IH; auto.
    + intros; eapply Hpd; right; eauto.
    + intros; eapply Hne; right; eauto.
    + intros s [Hss| ->].
      * destruct (HS s Hss) as (ds & Hds & Hle). exists ds. split; [exact Hds|].
        intros; eapply Hle; right; eauto.
      * exists dp. split; [apply (Hpd k v dp); now left|]. intros k' v' dp' Hin.
        rewrite Forall_forall in Hall. apply (Hall (k', v', dp') Hin).
Qed.

Lemma last_set_notin kvs : forall o k, ~ In k (map fst kvs) -> last_set o kvs k = o.
Proof.
  induction kvs as [|[k' v] kvs IH]; intros o k H; cbn; [reflexivity|].
  cbn in H. rewrite IH by tauto. rewrite streq_neq; [reflexivity|]. intros ->. tauto.
Qed.
Lemma last_set_in kvs : forall o k v, NoDup (map fst kvs) -> In (k, v) kvs -> last_set o kvs k = Some v.
Proof.
  induction kvs as [|[k' v'] kvs IH]; intros o k v Hd Hin; [contradiction|].
  cbn in *. inversion Hd as [|? ? Hn Hd']; subst. destruct Hin as [E|Hin].
  - inversion E; subst. rewrite streq_refl. now apply last_set_notin.
  - now apply IH.
Qed.

(** What unite sets, in which order. *)
Lemma rt_unite_sets t1 t2 :
  wft t2 ->
  exists kvs, rt_unite t1 t2 = rt_sets t1 kvs /\
    Permutation kvs (ents (hitems (troot t2))) /\
    forall D S : str -> Prop, (forall s, ~ S s) -> late_free D S kvs.
Proof.
  intros Hw. set (q := [(troot t2, [] : str, 0)] : bq).
  set (fuel := S (fsize (hitems (troot t2)))).
  assert (Hsz : bq_size q <= fuel) by (unfold q, fuel, bq_size; cbn [fold_right fst]; lia).
  exists (strip_d (bfs fuel q)). split; [|split].
  - unfold rt_unite. rewrite <- unite_loop_bfs by exact Hsz. reflexivity.
  - eapply Permutation_trans; [apply bfs_ents, Hsz|]. unfold q, bq_ents. cbn [flat_map fst snd].
    rewrite eprefix_nil, app_nil_r. apply Permutation_refl.
  - intros D S HS. apply sorted_late_free with (root := troot t2); auto.
    + apply (bfs_sorted fuel 0 q). unfold q. apply (qshape_intro 0 [(troot t2, [], 0)] []).
      * intros x [<-|[]]; reflexivity.
      * intros x [].
    + intros k v dp. apply bfs_pd. intros h pre dp0 [E|[]] p d' Hp. inversion E; subst. exact Hp.
    + intros k v dp Hin ->.
      assert (Hin' : In ([], v) (ents (hitems (troot t2)))).
      { apply (in_map fst) in Hin. cbn [fst] in Hin. change (map fst (bfs fuel q)) with (strip_d (bfs fuel q)) in Hin.
        apply (Permutation_in _ (bfs_ents fuel q Hsz)) in Hin.
        unfold q, bq_ents in Hin. cbn [flat_map fst snd] in Hin. rewrite eprefix_nil, app_nil_r in Hin. exact Hin. }
      apply (ents_look _ _ _ Hw) in Hin'. discriminate.
    + intros s Hs. now apply HS in Hs.
Qed.

Lemma ents_unique t k v w : wft t -> In (k, v) (ents (hitems (troot t))) -> look (troot t) k = Some w -> v = w.
Proof. intros Hw H E. apply (ents_look _ _ _ Hw) in H. congruence. Qed.

Lemma rt_unite_spec t1 t2 :
  wft t1 -> wft t2 -> tn (fun _ => False) (troot t1) ->
  exists t, rt_unite t1 t2 = Ok t /\ wft t /\
    forall k, look (troot t) k =
      match look (troot t2) k with Some v => Some v | None => look (troot t1) k end.
Proof.
  intros Hw1 Hw2 Ht. destruct (rt_unite_sets t1 t2 Hw2) as (kvs & E & Hp & Hlf). rewrite E.
  destruct (rt_sets_spec kvs t1 (fun _ => False) (fun _ => False) Hw1 Ht) as (t & Et & Hwt & _ & Hl); [contradiction|apply Hlf; auto|].
  exists t. split; [exact Et|]. split; [exact Hwt|]. intros k. rewrite Hl.
  assert (Hd : NoDup (map fst kvs)).
  { eapply Permutation_NoDup; [apply Permutation_map, Permutation_sym, Hp|]. now apply ents_nodup. }
  destruct (look (troot t2) k) as [v|] eqn:Ek.
  - apply last_set_in; auto. apply (Permutation_in _ (Permutation_sym Hp)). now apply ents_look.
  - apply last_set_notin. intros Hin. apply in_map_iff in Hin. destruct Hin as ([k' v] & <- & Hin).
    apply (Permutation_in _ Hp) in Hin. apply (ents_look _ _ _ Hw2) in Hin. cbn in Ek. congruence.
Qed.

Lemma rt_union_spec (cp : V -> V) t1 t2 :
  wft t1 -> wft t2 ->
  exists t, rt_union cp t1 t2 = Ok t /\ wft t /\
    forall k, look (troot t) k =
      match look (troot t2) k with Some v => Some v | None => option_map cp (look (troot t1) k) end.
Proof.
  intros Hw1 Hw2. unfold rt_union.
  destruct (rt_unite_spec (rt_clone cp t1) t2) as (t & E & Hwt & Hl); auto.
  - now apply clone_wff.
  - now apply clone_tn.
  - exists t. split; [exact E|]. split; [exact Hwt|]. intros k. rewrite Hl. cbn [rt_clone troot].
    now rewrite clone_look.
Qed.

(** ** Comparison *)
Section Cmp.
Context (eqv : V -> V -> bool).

Lemma set_add_all_nodup (kvs : list (str * V)) : forall s,
  good s -> NoDup (map fst (hitems s ++ kvs)) ->
  exists s', set_add_all (paircmp eqv) s kvs = Ok s' /\ hitems s' = hitems s ++ kvs.
Proof.
  induction kvs as [|[k v] kvs IH]; intros s Hg Hd; cbn [set_add_all].
  - exists s. now rewrite app_nil_r.
  - unfold set_add.
    assert (Hin : set_in (paircmp eqv) s (k, v) = false).
    { unfold set_in. destruct (existsb _ _) eqn:E; [|reflexivity]. exfalso.
      apply existsb_exists in E. destruct E as ([k' v'] & Hin & E). unfold paircmp in E. cbn in E.
      destruct (streq_spec k' k) as [->|]; [|discriminate].
      rewrite map_app in Hd. cbn in Hd. apply NoDup_remove_2 in Hd. apply Hd, in_or_app. left.
      now apply (in_map fst) in Hin. }
    rewrite Hin. destruct (good_append s (k, v) Hg) as (s1 & -> & Hi & Hg1). cbn [bind fst].
    destruct (IH s1 Hg1) as (s2 & -> & Hi2).
    + rewrite Hi, <- app_assoc. exact Hd.
    + exists s2. split; [reflexivity|]. rewrite Hi2, Hi, <- app_assoc. reflexivity.
Qed.

Lemma rt_cmp_spec t1 t2 :
  wft t1 -> wft t2 ->
  exists b, rt_cmp eqv t1 t2 = Ok b /\
    (b = true <-> forall k, match look (troot t1) k, look (troot t2) k with
                            | Some v1, Some v2 => eqv v2 v1 = true
                            | None, None => True
                            | _, _ => False
                            end).
Proof.
  intros Hw1 Hw2. unfold rt_cmp. rewrite !rt_pairs_ents. cbn [bind].
  pose proof (ents_nodup _ Hw1) as Hd1. pose proof (ents_nodup _ Hw2) as Hd2.
  destruct (set_add_all_nodup _ hs_empty good_empty Hd1) as (s1 & -> & Hi1).
  destruct (set_add_all_nodup _ hs_empty good_empty Hd2) as (s2 & -> & Hi2). cbn [bind].
  cbn [hs_empty hitems app] in Hi1, Hi2.
  eexists; split; [reflexivity|]. rewrite Z.eqb_eq.
  assert (Hinj : inj_at (paircmp eqv) s2 (hitems s1)).
  { intros l1 [k v] l2 [k' v'] l3 j E Hx Hy. unfold set_at in *.
    apply find_at_nth in Hx. apply find_at_nth in Hy.
    destruct Hx as ([u u'] & Hu & Eu). destruct Hy as (w & Hw & Ew). assert (w = (u, u')) as -> by congruence.
    unfold paircmp in *. cbn in *. destruct (streq_spec u k) as [->|]; [|discriminate].
    destruct (streq_spec k k') as [->|]; [|discriminate].
    rewrite Hi1 in E. rewrite E in Hd1. rewrite map_app in Hd1. cbn in Hd1. apply NoDup_remove_2 in Hd1.
    apply Hd1. apply in_or_app. right. rewrite map_app. apply in_or_app. right. now left. }
  rewrite (set_cmp_0 (paircmp eqv) s1 s2 Hinj). rewrite Hi1, Hi2.
  set (e1 := ents (hitems (troot t1))) in *. set (e2 := ents (hitems (troot t2))) in *.
  assert (Hall : all_hit (paircmp eqv) s2 e1 <->
             forall k v1, look (troot t1) k = Some v1 -> exists v2, look (troot t2) k = Some v2 /\ eqv v2 v1 = true).
  { unfold all_hit. rewrite Hi2. split.
    - intros H k v1 Hk. apply (ents_look _ _ _ Hw1) in Hk. destruct (H _ Hk) as ([k' v2] & Hin & E).
      unfold paircmp in E. cbn in E. destruct (streq_spec k' k) as [->|]; [|discriminate].
      exists v2. split; [|exact E]. now apply ents_look.
    - intros H [k v1] Hin. apply (ents_look _ _ _ Hw1) in Hin. destruct (H k v1 Hin) as (v2 & H2 & E).
      exists (k, v2). split; [now apply ents_look|]. unfold paircmp. cbn. now rewrite streq_refl. }
  rewrite Hall.
  assert (Hm1 : forall k, In k (map fst e1) <-> look (troot t1) k <> None).
  { intros k. split.
    - intros H. apply in_map_iff in H. destruct H as ([k' v] & <- & H). apply (ents_look _ _ _ Hw1) in H. cbn; congruence.
    - intros H. destruct (look (troot t1) k) eqn:E; [|congruence]. apply (ents_look _ _ _ Hw1) in E. now apply (in_map fst) in E. }
  assert (Hm2 : forall k, In k (map fst e2) <-> look (troot t2) k <> None).
  { intros k. split.
    - intros H. apply in_map_iff in H. destruct H as ([k' v] & <- & H). apply (ents_look _ _ _ Hw2) in H. cbn; congruence.
    - intros H. destruct (look (troot t2) k) eqn:E; [|congruence]. apply (ents_look _ _ _ Hw2) in E. now apply (in_map fst) in E. }
  split.
  - intros [H Hlen] k. destruct (look (troot t1) k) as [v1|] eqn:E1.
    + destruct (H k v1 E1) as (v2 & -> & Hv). exact Hv.
    + destruct (look (troot t2) k) as [v2|] eqn:E2; [|exact I].
      assert (Hincl : incl (map fst e1) (map fst e2)).
      { intros x Hx. apply Hm2. apply Hm1 in Hx. destruct (look (troot t1) x) as [w|] eqn:Ex; [|congruence].
        destruct (H x w Ex) as (w2 & -> & _). discriminate. }
      apply (NoDup_length_incl Hd1) in Hincl; [|rewrite !map_length; lia].
      assert (In k (map fst e1)); [apply Hincl, Hm2; congruence|]. apply Hm1 in H0. congruence.
  - intros H. split.
    + intros k v1 E1. specialize (H k). rewrite E1 in H. destruct (look (troot t2) k) as [v2|]; [|contradiction]. eauto.
    + rewrite <- (map_length fst e1), <- (map_length fst e2).
      apply Permutation_length, NoDup_Permutation; auto. intros x. rewrite Hm1, Hm2. specialize (H x).
      destruct (look (troot t1) x), (look (troot t2) x); try contradiction; split; congruence.
Qed.
End Cmp.

End Facts.
