(** Specifications, independent of the models' helpers, for the container
    properties, and the lemmas connecting them to the facts files. *)
From Coq Require Import Permutation.
From Verif Require Import CStr CStrFacts HSListModel HSListFacts SetModel SetFacts
  RTreeModel RTreeFacts RTreeFacts2 RTreeFacts3 RTreeFacts4 ObjListModel ObjListFacts.

(** The value most recently bound to [k] in a history of bindings. *)
Definition latest {V} (kvs : list (str * V)) (k : str) : option V :=
  option_map snd (find (fun p => streq k (fst p)) (rev kvs)).

(** No key is bound for the first time after a key of which it is a proper
    prefix. *)
Definition no_late_prefix {V} (kvs : list (str * V)) : Prop :=
  forall l1 k v l2 k', kvs = l1 ++ (k, v) :: l2 ->
    In k' (map fst l1) -> proper_prefix k k' -> In k (map fst l1).
Definition nonempty_keys {V} (kvs : list (str * V)) : Prop := forall k v, In (k, v) kvs -> k <> [].

Lemma find_app {A} (f : A -> bool) l1 l2 :
  find f (l1 ++ l2) = match find f l1 with Some x => Some x | None => find f l2 end.
Proof. induction l1 as [|x l1 IH]; cbn; [reflexivity|]. destruct (f x); auto. Qed.

Lemma last_set_latest {V} (kvs : list (str * V)) : forall o k,
  last_set o kvs k = match latest kvs k with Some v => Some v | None => o end.
Proof.
  unfold latest. induction kvs as [|[k' v] kvs IH]; intros o k; cbn [last_set rev find option_map]; [reflexivity|].
  rewrite IH, find_app. destruct (find (fun p => streq k (fst p)) (rev kvs)) as [p|]; [reflexivity|].
  cbn. destruct (streq k k'); reflexivity.
Qed.

Lemma late_free_of {V} (kvs : list (str * V)) : forall D S : str -> Prop,
  nonempty_keys kvs ->
  (forall l1 k v l2, kvs = l1 ++ (k, v) :: l2 ->
     (D k \/ In k (map fst l1)) \/ forall s, S s \/ In s (map fst l1) -> ~ proper_prefix k s) ->
  late_free D S kvs.
Proof.
  induction kvs as [|[k v] kvs IH]; intros D S Hne H; cbn; [exact I|]. split; [|split].
  - apply (Hne k v). now left.
  - destruct (H [] k v kvs eq_refl) as [[Hd|[]]|Hs]; [now left|right; auto].
  - apply IH.
    + intros k' v' Hin. apply (Hne k' v'). now right.
    + intros l1 k' v' l2 ->.
      destruct (H ((k, v) :: l1) k' v' l2 eq_refl) as [[Hd|[Hd|Hd]]|Hs].
      * left. left. now left.
      * left. left. right. now symmetry.
      * left. now right.
      * right. intros s Hs'. apply Hs. cbn. unfold addS in Hs'. intuition congruence.
Qed.
Lemma late_free_nil {V} (kvs : list (str * V)) :
  nonempty_keys kvs -> no_late_prefix kvs -> late_free (fun _ => False) (fun _ => False) kvs.
Proof.
  intros Hne H. apply late_free_of; [exact Hne|]. intros l1 k v l2 E.
  destruct (in_dec str_eq_dec k (map fst l1)) as [Hin|Hin]; [left; now right|right].
  intros s [[]|Hs] Hp. apply Hin. eapply H; eauto.
Qed.

Lemma sets_get {V} (kvs : list (str * V)) :
  nonempty_keys kvs -> no_late_prefix kvs ->
  exists t, rt_sets rt_create kvs = Ok t /\ forall k, rt_get t k = Ok (latest kvs k).
Proof.
  intros Hne H.
  destruct (rt_sets_spec kvs rt_create (fun _ => False) (fun _ => False) wft_create (tn_empty _)
              (fun s (F : False) => match F with end) (late_free_nil kvs Hne H))
    as (t & E & _ & _ & Hl).
  exists t. split; [exact E|]. intros k. rewrite rt_get_look, Hl, last_set_latest. cbn [rt_create troot].
  rewrite look_empty. now destruct (latest kvs k).
Qed.
Lemma clone_sets_get {V} (cp : V -> V) t0 (kvs : list (str * V)) :
  reach cp t0 -> nonempty_keys kvs -> no_late_prefix kvs ->
  exists t, rt_sets (rt_clone cp t0) kvs = Ok t /\
    forall k, rt_get t k = match latest kvs k with Some v => Ok (Some v) | None => rmap (option_map cp) (rt_get t0 k) end.
Proof.
  intros Hr Hne H. pose proof (reach_wft cp t0 Hr) as Hw.
  destruct (rt_sets_spec kvs (rt_clone cp t0) (fun _ => False) (fun _ => False) (clone_wff cp _ Hw) (clone_tn cp _ _ Hw)
              (fun s (F : False) => match F with end)
              (late_free_nil kvs Hne H)) as (t & E & _ & _ & Hl).
  exists t. split; [exact E|]. intros k. rewrite rt_get_look, Hl, last_set_latest. cbn [rt_clone troot].
  rewrite clone_look by exact Hw. rewrite rt_get_look. destruct (latest kvs k); reflexivity.
Qed.

(** The number of different keys bound. *)
Definition key_count {V} (t : rtree V) (n : nat) : Prop :=
  exists ks, NoDup ks /\ length ks = n /\ forall k, In k ks <-> exists v, rt_get t k = Ok (Some v).

Lemma key_count_ents {V} (t : rtree V) : wft t -> key_count t (count t).
Proof.
  intros Hw. exists (map fst (ents (hitems (troot t)))). split; [now apply ents_nodup|]. split; [apply map_length|].
  intros k. rewrite in_map_iff. split.
  - intros ([k' v] & <- & H). apply (ents_look _ _ _ Hw) in H. exists v. rewrite rt_get_look. cbn. congruence.
  - intros (v & H). rewrite rt_get_look in H. inversion H as [E]. exists (k, v). split; [reflexivity|].
    now apply ents_look.
Qed.

Lemma sets_len {V} (kvs : list (str * V)) :
  nonempty_keys kvs -> no_late_prefix kvs ->
  exists t, rt_sets rt_create kvs = Ok t /\ key_count t (tlen t).
Proof.
  intros Hne H. pose proof (late_free_nil kvs Hne H) as Hlf.
  destruct (rt_sets_len kvs rt_create (fun _ => False) (fun _ => False) wft_create (tn_empty _)) as (t & E & Hlen); auto; try contradiction.
  { intros q m Hq. apply at_path_inv in Hq. destruct Hq as (n & [] & _). }
  exists t. split; [exact E|]. rewrite Hlen. apply key_count_ents. eapply rt_sets_wft; [apply wft_create|exact E].
Qed.

(** Enumeration. *)
Lemma reach_enum {V} (cp : V -> V) (t : rtree V) :
  reach cp t ->
  exists ps, rt_pairs t = Ok ps /\ NoDup (map fst ps) /\
    (forall k v, In (k, v) ps <-> rt_get t k = Ok (Some v)) /\
    rt_keys t = Ok (map fst ps) /\ rt_values t = Ok (map snd ps) /\
    exists vs, rt_values_walk t = Ok vs /\ Permutation vs (map snd ps).
Proof.
  intros Hr. pose proof (reach_wft cp t Hr) as Hw. exists (ents (hitems (troot t))).
  split; [apply rt_pairs_ents|]. split; [now apply ents_nodup|]. split.
  { intros k v. rewrite rt_get_look. rewrite (ents_look _ _ _ Hw). split; congruence. }
  unfold rt_keys, rt_values. rewrite rt_pairs_ents. split; [reflexivity|]. split; [reflexivity|].
  unfold rt_values_walk.
  destruct (walk_loop_spec (S (fsize (hitems (troot t)))) [troot t]) as (vs & E & Hp).
  { unfold q_size. cbn [fold_right]. lia. }
  exists vs. split; [exact E|]. unfold q_vals in Hp. cbn [flat_map] in Hp. now rewrite app_nil_r in Hp.
Qed.

(** Copies. *)
Lemma clone_obs {V} (cp : V -> V) (t : rtree V) :
  reach cp t ->
  (forall k, rt_get (rt_clone cp t) k = rmap (option_map cp) (rt_get t k)) /\
  rt_pairs (rt_clone cp t) = rmap (map (fun kv => (fst kv, cp (snd kv)))) (rt_pairs t) /\
  tlen (rt_clone cp t) = tlen t.
Proof.
  intros Hr. pose proof (reach_wft cp t Hr) as Hw. split; [|split; [|reflexivity]].
  - intros k. rewrite !rt_get_look. cbn. now rewrite clone_look.
  - rewrite !rt_pairs_ents. cbn [rmap bind rt_clone troot]. now rewrite clone_ents.
Qed.
Lemma copy_obs {V} (cp : V -> V) (t : rtree V) :
  reach cp t ->
  (forall k, rt_get (rt_copy cp t) k = rmap (option_map cp) (rt_get t k)) /\
  rt_pairs (rt_copy cp t) = rmap (map (fun kv => (fst kv, cp (snd kv)))) (rt_pairs t).
Proof.
  intros Hr. pose proof (reach_wft cp t Hr) as Hw. split.
  - intros k. rewrite !rt_get_look. cbn. now rewrite clone_look.
  - rewrite !rt_pairs_ents. cbn [rmap bind rt_copy troot]. now rewrite clone_ents.
Qed.

(** Comparison. *)
Definition same_map {V} (eqv : V -> V -> bool) (t1 t2 : rtree V) : Prop :=
  forall k, match rt_get t1 k, rt_get t2 k with
            | Ok (Some v1), Ok (Some v2) => eqv v2 v1 = true
            | Ok None, Ok None => True
            | _, _ => False
            end.
Lemma cmp_same_map {V} (cp : V -> V) (eqv : V -> V -> bool) (t1 t2 : rtree V) :
  reach cp t1 -> reach cp t2 ->
  exists b, rt_cmp eqv t1 t2 = Ok b /\ (b = true <-> same_map eqv t1 t2).
Proof.
  intros H1 H2. destruct (rt_cmp_spec eqv t1 t2 (reach_wft _ _ H1) (reach_wft _ _ H2)) as (b & E & H).
  exists b. split; [exact E|]. rewrite H. unfold same_map. split; intros Hk k; specialize (Hk k);
    rewrite !rt_get_look in *; exact Hk.
Qed.
Lemma clone_cmp {V} (cp : V -> V) (eqv : V -> V -> bool) (t : rtree V) :
  (forall v, eqv (cp v) v = true) -> reach cp t ->
  rt_cmp eqv t (rt_clone cp t) = Ok true /\ rt_cmp eqv t (rt_copy cp t) = Ok true.
Proof.
  intros Heq Hr. pose proof (clone_obs cp t Hr) as (Hg & _). pose proof (copy_obs cp t Hr) as (Hg' & _).
  destruct (cmp_same_map cp eqv t (rt_clone cp t) Hr (R_clone cp t Hr)) as (b & -> & Hb).
  destruct (cmp_same_map cp eqv t (rt_copy cp t) Hr (R_copy cp t Hr)) as (b' & -> & Hb').
  assert (same_map eqv t (rt_clone cp t)) as H1.
  { intros k. rewrite Hg. rewrite rt_get_look. cbn. destruct (look (troot t) k); cbn; auto. }
  assert (same_map eqv t (rt_copy cp t)) as H2.
  { intros k. rewrite Hg'. rewrite rt_get_look. cbn. destruct (look (troot t) k); cbn; auto. }
  apply Hb in H1. apply Hb' in H2. now subst.
Qed.

(** Union. *)
Lemma union_obs {V} (cp : V -> V) (t1 t2 : rtree V) :
  reach cp t1 -> reach cp t2 ->
  exists t, rt_union cp t1 t2 = Ok t /\
    forall k, rt_get t k = match rt_get t2 k with
                           | Ok (Some v) => Ok (Some v)
                           | _ => rmap (option_map cp) (rt_get t1 k)
                           end.
Proof.
  intros H1 H2. destruct (rt_union_spec cp t1 t2 (reach_wft _ _ H1) (reach_wft _ _ H2)) as (t & E & _ & Hl).
  exists t. split; [exact E|]. intros k. rewrite !rt_get_look, Hl. destruct (look (troot t2) k); reflexivity.
Qed.

(** Removal. *)
Lemma unset_obs {V} (cp : V -> V) (t t' : rtree V) k :
  reach cp t -> k <> [] -> rt_unset t k = Ok t' ->
  rt_get t' k = Ok None /\
  (forall k', ~ prefix k k' -> rt_get t' k' = rt_get t k') /\
  (forall k', rt_get t' k' = Ok None \/ rt_get t' k' = rt_get t k').
Proof.
  intros Hr Hk E. pose proof (rt_unset_spec t k (reach_wft _ _ Hr)) as H. rewrite E in H.
  destruct H as (_ & H1 & H2 & H3 & _). rewrite rt_get_look. split; [|split].
  - now rewrite H1.
  - intros k' Hp. rewrite !rt_get_look. now rewrite H2.
  - intros k'. rewrite !rt_get_look. destruct (H3 k') as [->| ->]; auto.
Qed.
Lemma unset_clone_obs {V} (cp : V -> V) (t t' : rtree V) k :
  reach cp t -> k <> [] -> rt_unset (rt_clone cp t) k = Ok t' ->
  forall k', rt_get t' k' = if streq k' k then Ok None else rmap (option_map cp) (rt_get t k').
Proof.
  intros Hr Hk E. pose proof (reach_wft _ _ Hr) as Hw.
  pose proof (rt_unset_spec (rt_clone cp t) k (clone_wff cp _ Hw)) as H. rewrite E in H.
  destruct H as (_ & H1 & _ & _ & H4). intros k'. rewrite !rt_get_look.
  destruct (streq_spec k' k) as [->|Hne]; [now rewrite H1|].
  rewrite (H4 (clone_tight cp _ Hw) k' Hne). cbn. now rewrite clone_look.
Qed.
Lemma flat_obs {V} (ks : list str) (os : list (@dop V)) :
  distinct_heads ks -> ~ In [] ks -> (forall o, In o os -> In (dkey o) ks) ->
  exists t, drun rt_create os = Ok t /\ forall k, rt_get t k = Ok (mrun (fun _ => None) os k).
Proof.
  intros Hd Hne Hos.
  destruct (flat_run ks os rt_create) as (t & E & _ & _ & _ & Hl); auto.
  - apply wft_create.
  - intros n [].
  - intros n [].
  - exists t. split; [exact E|]. intros k. rewrite rt_get_look. f_equal. apply Hl. intros k'. cbn. now rewrite look_empty.
Qed.

(** Object lists. *)
Lemma objlist_history {A} (same : A -> A -> bool) (cs : list (lop A)) :
  lops_ok same [] cs ->
  exists o outs, ol_run same ol_create cs = Ok (o, outs) /\
    lspecs same [] cs (oitems o) outs /\
    (forall p, ol_get o p = nth_error (oitems o) p) /\ olen o = length (oitems o).
Proof.
  intros H. destruct (ol_run_spec same cs ol_create ogood_create H) as (o & outs & E & Hg & Hs).
  exists o, outs. split; [exact E|]. split; [exact Hs|]. split; [apply ol_get_nth|apply Hg].
Qed.
Lemma objlist_derived {A} (same : A -> A -> bool) (cs : list (lop A)) o outs :
  lops_ok same [] cs -> ol_run same ol_create cs = Ok (o, outs) ->
  (forall f, exists o', ol_filter f o = Ok o' /\ oitems o' = filter f (oitems o) /\ olen o' = length (oitems o')) /\
  (forall o2, exists o', ol_concat o o2 = Ok o' /\ oitems o' = oitems o ++ oitems o2 /\ olen o' = length (oitems o')) /\
  (forall x i, ol_index same o x = Some i <-> first_at same (oitems o) x i) /\
  (forall x, ol_index same o x = None <-> absent same (oitems o) x) /\
  (forall i j, i <= j -> j < length (oitems o) ->
     exists o', ol_sublist_it o i (Some j) = Ok o' /\ oitems o' = firstn (j - i) (skipn i (oitems o))).
Proof.
  intros H E. destruct (ol_run_spec same cs ol_create ogood_create H) as (o1 & outs1 & E1 & Hg & Hs).
  assert (o1 = o) as -> by congruence.
  assert (Hix : forall x, match ol_index same o x with
                          | Some j => first_at same (oitems o) x j | None => absent same (oitems o) x end).
  { intros x. unfold ol_index. pose proof (index_loop_spec same (oitems o) x 0) as Hi.
    destruct (index_loop same (oitems o) x 0); [|exact Hi]. now rewrite Nat.sub_0_r in Hi. }
  assert (Hex : forall x i, first_at same (oitems o) x i -> absent same (oitems o) x -> False).
  { intros x i (l1 & y & l2 & E2 & _ & Hy & _) Ha. rewrite (Ha y) in Hy; [discriminate|]. rewrite E2. apply in_or_app. right. now left. }
  assert (Hfu : forall x i j, first_at same (oitems o) x i -> first_at same (oitems o) x j -> i <= j).
  { intros x i j (l1 & y & l2 & E2 & <- & Hy & H1) (l1' & y' & l2' & E2' & <- & Hy' & H1').
    destruct (Nat.le_gt_cases (length l1) (length l1')) as [|Hlt]; [assumption|]. exfalso.
    assert (Hin : In y' l1).
    { assert (Hn : nth_error (oitems o) (length l1') = Some y').
      { rewrite E2'. rewrite nth_error_app2, Nat.sub_diag by lia. reflexivity. }
      rewrite E2 in Hn. rewrite nth_error_app1 in Hn by lia. eapply nth_error_In; eauto. }
    rewrite (H1 _ Hin) in Hy'. discriminate. }
  split; [|split; [|split; [|split]]].
  - intros f. destruct (ol_filter_spec f o Hg) as (o' & E2 & Hi & Hg'). exists o'. split; [exact E2|]. split; [exact Hi|apply Hg'].
  - intros o2. destruct (ol_concat_spec o o2) as (o' & E2 & Hi & Hg'). exists o'. split; [exact E2|]. split; [exact Hi|apply Hg'].
  - intros x i. specialize (Hix x). split; [intros E2; now rewrite E2 in Hix|].
    intros Hf. destruct (ol_index same o x) as [j|]; [|exfalso; eauto].
    f_equal. apply Nat.le_antisymm; eauto.
  - intros x. specialize (Hix x). split; [intros E2; now rewrite E2 in Hix|].
    intros Ha. destruct (ol_index same o x) as [j|]; [exfalso; eauto|reflexivity].
  - intros i j Hi Hj. destruct (ol_sublist_it_spec o i j Hi Hj) as (o' & E2 & H2 & _). eauto.
Qed.
Lemma ol_cmp_equiv {A} (eqv : A -> A -> bool) :
  (forall o1 o2, ol_cmp eqv o1 o2 = true <-> Forall2 (fun x y => eqv x y = true) (oitems o1) (oitems o2)) /\
  ((forall x, eqv x x = true) -> forall o, ol_cmp eqv o o = true) /\
  ((forall x y, eqv x y = eqv y x) -> forall o1 o2, ol_cmp eqv o1 o2 = ol_cmp eqv o2 o1) /\
  ((forall x y z, eqv x y = true -> eqv y z = true -> eqv x z = true) ->
    forall o1 o2 o3, ol_cmp eqv o1 o2 = true -> ol_cmp eqv o2 o3 = true -> ol_cmp eqv o1 o3 = true).
Proof.
  unfold ol_cmp. split; [|split; [|split]].
  - intros. apply cmp_lists_Forall2.
  - intros H o. apply cmp_lists_refl. auto.
  - intros H o1 o2. apply cmp_lists_sym. auto.
  - intros H o1 o2 o3. apply cmp_lists_trans. intros x y z _ _ _. apply H.
Qed.

(** Sets. *)
Lemma set_histories {A} (eqf : A -> A -> bool) :
  (forall x, eqf x x = true) -> (forall x y, eqf x y = eqf y x) ->
  (forall x y z, eqf x y = true -> eqf y z = true -> eqf x z = true) ->
  forall ops, exists s outs,
    set_run eqf hs_empty ops = Ok (s, outs) /\ outs_ok eqf [] ops outs /\
    (forall l1 x l2 y l3, hitems s = l1 ++ x :: l2 ++ y :: l3 -> eqf x y = false) /\
    (forall x, set_in eqf s x = spec_mem eqf (rev ops) x).
Proof.
  intros Hr Hs Ht ops.
  destruct (set_run_ok eqf Hs Ht ops [] hs_empty good_empty) as (s & outs & E & Ho & _ & Hd & Hm).
  - intros l1 x l2 y l3 E. destruct l1; discriminate.
  - reflexivity.
  - exists s, outs. split; [exact E|]. split; [exact Ho|]. split; [exact Hd|]. intros x. rewrite Hm. now rewrite app_nil_r.
Qed.
Lemma set_histories_cmp {A} (eqf : A -> A -> bool) :
  (forall x, eqf x x = true) -> (forall x y, eqf x y = eqf y x) ->
  (forall x y z, eqf x y = true -> eqf y z = true -> eqf x z = true) ->
  forall ops1 ops2 s1 s2 o1 o2,
    set_run eqf hs_empty ops1 = Ok (s1, o1) -> set_run eqf hs_empty ops2 = Ok (s2, o2) ->
    (set_cmp eqf s1 s2 = 0%Z <-> forall x, spec_mem eqf (rev ops1) x = spec_mem eqf (rev ops2) x).
Proof.
  intros Hr Hs Ht ops1 ops2 s1 s2 o1 o2 E1 E2.
  destruct (set_histories eqf Hr Hs Ht ops1) as (s1' & o1' & E1' & _ & Hd1 & Hm1).
  destruct (set_histories eqf Hr Hs Ht ops2) as (s2' & o2' & E2' & _ & Hd2 & Hm2).
  assert (s1' = s1) as -> by congruence. assert (s2' = s2) as -> by congruence.
  rewrite (set_cmp_same eqf Hr Hs Ht s1 s2 Hd1 Hd2).
  split; intros H x; specialize (H x); rewrite ?Hm1, ?Hm2 in *; congruence.
Qed.

(** Linked list from the empty list. *)
Lemma hs_run_empty {A} (ops : list (hop A)) :
  hops_safe [] ops ->
  exists h, hs_run hs_empty ops = Ok (h, snd (seq_run [] ops)) /\ hitems h = fst (seq_run [] ops).
Proof.
  intros H. destruct (hs_run_refines ops hs_empty good_empty H) as (h & E & Hi & _). exists h. auto.
Qed.

(** Deciding the side conditions, for concrete cases. *)
Fixpoint pprefixb (p s : str) : bool :=
  match p, s with
  | [], _ :: _ => true
  | a :: p', b :: s' => Ascii.eqb a b && pprefixb p' s'
  | _, [] => false
  end.
Lemma pprefixb_iff p : forall s, pprefixb p s = true <-> proper_prefix p s.
Proof.
  induction p as [|a p IH]; intros [|b s]; cbn.
  - split; [discriminate|]. intros (c & r & E). discriminate.
  - split; [intros _; exists b, s; reflexivity|reflexivity].
  - split; [discriminate|]. intros (c & r & E). discriminate.
  - rewrite andb_true_iff, Ascii.eqb_eq, IH. split.
    + intros [-> (c & r & ->)]. exists c, r. reflexivity.
    + intros (c & r & E). inversion E; subst. split; [reflexivity|]. exists c, r. reflexivity.
Qed.
Fixpoint nlp_b {V} (past : list str) (kvs : list (str * V)) : bool :=
  match kvs with
  | [] => true
  | (k, _) :: r => (existsb (streq k) past || forallb (fun s => negb (pprefixb k s)) past) && nlp_b (past ++ [k]) r
  end.
Lemma nlp_b_spec {V} (kvs : list (str * V)) : forall past, nlp_b past kvs = true ->
  forall l1 k v l2 k', kvs = l1 ++ (k, v) :: l2 -> In k' (past ++ map fst l1) -> proper_prefix k k' ->
    In k (past ++ map fst l1).
Proof.
  induction kvs as [|[k0 v0] kvs IH]; intros past Hb l1 k v l2 k' E Hin Hp; [destruct l1; discriminate|].
  cbn in Hb. apply andb_true_iff in Hb. destruct Hb as [Hb1 Hb2].
  destruct l1 as [|[k1 v1] l1]; inversion E; subst.
  - cbn in Hin |- *. rewrite app_nil_r in *. apply orb_true_iff in Hb1. destruct Hb1 as [Hb1|Hb1].
    + apply existsb_exists in Hb1. destruct Hb1 as (x & Hx & Ex). apply streq_iff in Ex. now subst.
    + rewrite forallb_forall in Hb1. specialize (Hb1 k' Hin). apply pprefixb_iff in Hp. rewrite Hp in Hb1. discriminate.
  - cbn [map fst]. change (k1 :: map fst l1) with ([k1] ++ map fst l1). rewrite app_assoc.
    apply (IH _ Hb2 l1 k v l2 k' eq_refl); [|exact Hp]. rewrite <- app_assoc. exact Hin.
Qed.
Lemma no_late_prefix_b {V} (kvs : list (str * V)) : nlp_b [] kvs = true -> no_late_prefix kvs.
Proof. intros H l1 k v l2 k' E Hin Hp. apply (nlp_b_spec kvs [] H l1 k v l2 k' E Hin Hp). Qed.
Lemma nonempty_keys_b {V} (kvs : list (str * V)) :
  forallb (fun p => match fst p with [] => false | _ => true end) kvs = true -> nonempty_keys kvs.
Proof. rewrite forallb_forall. intros H k v Hin ->. specialize (H _ Hin). discriminate. Qed.
Lemma reach_sets_from {V} (cp : V -> V) (kvs : list (str * V)) : forall t0 t,
  reach cp t0 -> rt_sets t0 kvs = Ok t -> reach cp t.
Proof.
  induction kvs as [|[k v] kvs IH]; intros t0 t Hr E; cbn in E; [congruence|].
  apply bind_ok in E. destruct E as (t1 & E1 & E). eapply IH; [|exact E]. eapply R_set; eauto.
Qed.
Lemma reach_sets {V} (cp : V -> V) (kvs : list (str * V)) t : rt_sets rt_create kvs = Ok t -> reach cp t.
Proof. apply reach_sets_from. constructor. Qed.
