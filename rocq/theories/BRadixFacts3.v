(** comps_bradix.c: histories with unset, listings, clones. *)
From Coq Require Import Permutation.
From Verif Require Import CStr CStrFacts HSListModel HSListFacts RTreeModel RTreeFacts RTreeFacts2 RTreeFacts3 RTreeFacts4
  OwnModel OwnFacts OwnFacts2 OwnFacts3 BRadixModel BRadixFacts BRadixFacts2.

Section Facts.
Context {V : Type}.
Notation node := (node V).
Implicit Types (n m : node) (l : list node) (h : hsl node) (k : str) (d : option V) (s : odict V).

(** ** Programs that also unset *)
Definition apart (keys : list str) : Prop := forall k k', In k keys -> In k' keys -> ~ proper_prefix k k'.
Definition no_clear (os : list (bop V)) : Prop :=
  Forall (fun o => match o with BSet k _ => k <> [] | BClear => False | _ => True end) os.

Lemma step_unset ctor S s k s' e : binv S s -> b_step true ctor s (BUnset k) = Ok (s', e) ->
  binv S s' /\ unset_done S (o_root s) k (o_root s') (e_destroyed e) /\ e_result e = None.
Proof.
  intros (Hw & Ht & Hc & Hd) E. cbn [b_step] in E. rewrite (live_ok s k Hd) in E.
  destruct (b_unset true (length k) true (o_root s) k 0) as [[h' ev]| |] eqn:Eu; cbn [bind fst snd] in E; try discriminate.
  injection E as <- <-. cbn [o_root e_destroyed e_result].
  pose proof (b_unset_spec (length k) true (o_root s) [] k S h' ev Hw Ht Hc Eu) as Hdone.
  split; [|split; [exact Hdone|reflexivity]]. destruct Hdone as (H1 & H2 & H3 & _). split; [|split; [|split]]; auto.
Qed.

Lemma unset_held S h k h' ev : wff h -> unset_done S h k h' ev ->
  Permutation (vals (hitems h') ++ somes ev) (vals (hitems h)).
Proof.
  intros Hw (Hw' & _ & _ & [[-> ->]|(k0 & _ & _ & Hl & Hev)]); [now rewrite app_nil_r|].
  rewrite Hev. pose proof (change_held h h' k0 None Hw Hw' Hl) as H. exact H.
Qed.

Lemma run_apart ctor : forall os (keys : list str) s s' effs,
  apart keys -> incl (bset_keys os) keys -> no_clear os ->
  binv (fun k => In k keys) s -> b_run true ctor s os = Ok (s', effs) ->
  binv (fun k => In k keys) s' /\
  Permutation (vals (hitems (o_root s')) ++ destroyed effs) (bgiven ctor os ++ vals (hitems (o_root s))).
Proof.
  induction os as [|o os IH]; intros keys s s' effs Ha Hk Hn Hi E.
  { cbn [b_run] in E. injection E as <- <-. split; [exact Hi|]. cbn. now rewrite app_nil_r. }
  inversion Hn as [|? ? Hno Hn']; subst.
  assert (Hk' : incl (bset_keys os) keys).
  { intros x Hx. apply Hk. unfold bset_keys. cbn [flat_map]. apply in_or_app. right. exact Hx. }
  cbn [b_run] in E. destruct (b_step true ctor s o) as [[s1 e]| |] eqn:Es; cbn [bind fst snd] in E; try discriminate.
  destruct (b_run true ctor s1 os) as [[s2 effs']| |] eqn:Er; cbn [bind fst snd] in E; try discriminate.
  injection E as <- <-. rewrite destroyed_cons.
  destruct o as [k d|k|k|]; [| | |destruct Hno].
  - assert (Hin : In k keys) by (apply Hk; now left).
    destruct (step_set ctor _ s k d Hi Hno) as (s1' & ev & Es' & Hd & Hdone).
    { right. intros k' Hk0. now apply Ha. }
    rewrite Es' in Es. injection Es as <- <-. destruct Hdone as (Hw1 & Ht1 & Hc1 & _ & _ & Hl & Hev).
    assert (Hi1 : binv (fun k0 => In k0 keys) s1').
    { split; [exact Hw1|]. split; [exact Ht1|]. split; [|exact Hd].
      apply (covered_mono (fun s0 : str => In s0 keys \/ s0 = k)); [|exact Hc1]. intros x [Hx| ->]; auto. }
    destruct (IH keys s1' s2 effs' Ha Hk' Hn' Hi1 Er) as (Hi2 & Hp). split; [exact Hi2|].
    cbn [e_destroyed]. rewrite Hev. cbn [bgiven flat_map]. fold (bgiven ctor os).
    pose proof (change_held (o_root s) (o_root s1') k (ctor d) (proj1 Hi) Hw1 Hl) as Hch.
    rewrite (Permutation_app_comm (olist (look (o_root s) k))), app_assoc, Hp.
    rewrite <- app_assoc, Hch. rewrite !app_assoc. apply Permutation_app_tail, Permutation_app_comm.
  - cbn [b_step] in Es. rewrite (live_ok s k) in Es by apply Hi. rewrite (bget_look s k (binv_top _ _ Hi)) in Es.
    cbn [bind] in Es. injection Es as <- <-. exact (IH keys s s2 effs' Ha Hk' Hn' Hi Er).
  - destruct (step_unset ctor _ s k s1 e Hi Es) as (Hi1 & Hdone & _).
    destruct (IH keys s1 s2 effs' Ha Hk' Hn' Hi1 Er) as (Hi2 & Hp). split; [exact Hi2|].
    cbn [bgiven flat_map app]. fold (bgiven ctor os).
    rewrite (Permutation_app_comm (somes (e_destroyed e))), app_assoc, Hp, <- app_assoc.
    apply Permutation_app_head. apply (unset_held _ _ _ _ _ (proj1 Hi) Hdone).
Qed.

(** ** Listings *)
Lemma b_all_bfs : forall fuel (q : bq) (q2 : list (hsl node * option str)),
  Forall2 (fun x y => fst (fst x) = fst y /\ snd (fst x) = match snd y with Some p => p | None => [] end) q q2 ->
  bq_size q <= fuel -> b_all fuel q2 = Ok (strip_d (bfs fuel q)).
Proof.
  induction fuel as [|fuel IH]; intros q q2 H Hs.
  - destruct H as [|[[h p] dp] y q q2 Hxy H]; [reflexivity|]. cbn in Hs. lia.
  - destruct H as [|[[h p] dp] [h2 p2] q q2 [E1 E2] H]; [reflexivity|]. cbn [fst snd] in E1, E2. subst h2.
    change (S (fsize (hitems h)) + bq_size q <= S fuel) in Hs. cbn [b_all bfs].
    assert (Hname : forall n, match p2 with Some p0 => p0 ++ nkey n | None => nkey n end = p ++ nkey n).
    { intros n. rewrite E2. now destruct p2. }
    erewrite (IH (q ++ map (fun n => (nsubs n, p ++ nkey n, S dp)) (filter nonleaf (hitems h)))).
    + cbn [bind]. unfold strip_d. rewrite map_app. f_equal. f_equal. unfold level.
      rewrite flat_map_concat_map, flat_map_concat_map, concat_map, map_map. f_equal. apply map_ext. intros n. rewrite Hname.
      now destruct (ndata n).
    + apply Forall2_app; [exact H|]. change (filter nonleaf (hitems h)) with
        (filter (fun n : node => match hitems (nsubs n) with [] => false | _ :: _ => true end) (hitems h)).
      induction (filter (fun n : node => match hitems (nsubs n) with [] => false | _ :: _ => true end) (hitems h)) as [|n l IHl];
        cbn [map]; constructor; [|exact IHl]. cbn [fst snd]. split; [reflexivity|]. symmetry. apply Hname.
    + rewrite bq_size_app. pose proof (bq_size_children p dp (hitems h)). lia.
Qed.

Lemma b_pairs_spec S s : binv S s -> exists ps, b_pairs s = Ok ps /\ Permutation ps (ents (hitems (o_root s))).
Proof.
  intros (Hw & _ & _ & Hd). unfold b_pairs. rewrite Hd.
  rewrite (b_all_bfs _ [(o_root s, [], 0)] [(o_root s, None)]).
  - eexists. split; [reflexivity|]. rewrite bfs_ents by (cbn; lia). cbn [bq_ents flat_map fst snd].
    now rewrite app_nil_r, eprefix_nil.
  - constructor; [split; reflexivity|constructor].
  - cbn. lia.
Qed.
Lemma b_lists S s : binv S s -> exists ps vs, b_pairs s = Ok ps /\ b_keys s = Ok (map fst ps) /\ b_values s = Ok vs /\
  (forall k v, In (k, v) ps <-> bshows s k = Some v) /\ NoDup (map fst ps) /\ Permutation vs (map snd ps).
Proof.
  intros Hi. destruct (b_pairs_spec S s Hi) as (ps & E & Hp). pose proof (proj1 Hi) as Hw.
  destruct (walk_loop_spec (Datatypes.S (fsize (hitems (o_root s)))) [o_root s]) as (vs & Ev & Hv); [cbn; lia|].
  exists ps, vs. split; [exact E|]. split; [unfold b_keys, rmap; now rewrite E|]. split.
  { unfold b_values. destruct Hi as (_ & _ & _ & ->). exact Ev. }
  split; [|split].
  - intros k v. rewrite (bshows_look S s k Hi), <- (ents_look _ k v Hw). split; apply Permutation_in; [exact Hp|now symmetry].
  - apply (Permutation_NoDup (l := map fst (ents (hitems (o_root s))))); [|now apply ents_nodup].
    apply Permutation_map. now symmetry.
  - rewrite Hv. cbn [q_vals flat_map]. rewrite app_nil_r. apply Permutation_map. now symmetry.
Qed.

(** ** Clones *)
Definition mkl (l : list node) : hsl node := mkH l (match length l with O => TNull | S j => TAt j end).
Lemma b_clone_node_false cl (f : V -> V) : (forall v, cl (Some v) = Ok (Some (f v))) -> forall n,
  b_clone_node cl false n = Ok (clone_node f n).
Proof.
  intros Hc n. induction n as [k d l t IH] using node_ind'. cbn [b_clone_node clone_node].
  replace (match d with None => Ok None | Some v => cl (Some v) end) with (Ok (option_map f d)) by (destruct d; [now rewrite Hc|reflexivity]).
  cbn [bind].
  assert (E : (fix go (l : list node) : res (list node) :=
               match l with
               | [] => Ok []
               | m :: r => m' <- b_clone_node cl false m ;; r' <- go r ;; Ok (m' :: r')
               end) l = Ok (map (clone_node f) l)).
  { induction IH as [|m l Hm _ IHl]; [reflexivity|]. rewrite Hm. cbn [bind]. rewrite IHl. reflexivity. }
  rewrite E. reflexivity.
Qed.
Lemma b_clone_node_top cl (f : V -> V) n : (forall v, cl (Some v) = Ok (Some (f v))) ->
  b_clone_node cl true n = (d' <- cl (ndata n) ;; Ok (Node (nkey n) d' (clone_sub f (nsubs n)))).
Proof.
  intros Hc. destruct n as [k d [l t]]. cbn [b_clone_node ndata nkey nsubs].
  replace (match d with None => cl None | Some v => cl (Some v) end) with (cl d) by now destruct d.
  destruct (cl d); cbn [bind]; auto.
  assert (E : (fix go (l : list node) : res (list node) :=
               match l with
               | [] => Ok []
               | m :: r => m' <- b_clone_node cl false m ;; r' <- go r ;; Ok (m' :: r')
               end) l = Ok (map (clone_node f) l)).
  { induction l as [|m l IHl]; [reflexivity|]. rewrite (b_clone_node_false cl f Hc). cbn [bind]. rewrite IHl. reflexivity. }
  rewrite E. reflexivity.
Qed.
Lemma b_clone_ok cl (f : V -> V) s : (forall v, cl (Some v) = Ok (Some (f v))) -> cl None = Ok None -> o_dead s = false ->
  b_clone cl s = Ok (mkO (clone_sub f (o_root s)) false).
Proof.
  intros Hc H0 Hd. unfold b_clone. rewrite Hd.
  assert (E : b_clone_list cl true (hitems (o_root s)) = Ok (map (clone_node f) (hitems (o_root s)))).
  { induction (hitems (o_root s)) as [|n l IH]; [reflexivity|]. cbn [b_clone_list map]. rewrite (b_clone_node_top cl f n Hc).
    replace (cl (ndata n)) with (Ok (option_map f (ndata n))) by (destruct (ndata n); [now rewrite Hc|now rewrite H0]).
    cbn [bind]. rewrite IH. cbn [bind]. rewrite (clone_node_eq f n). reflexivity. }
  rewrite E. reflexivity.
Qed.
Lemma b_clone_crash cl (f : V -> V) s : (forall v, cl (Some v) = Ok (Some (f v))) -> cl None = UB -> o_dead s = false ->
  b_clone cl s = if existsb (fun n => match ndata n with None => true | Some _ => false end) (hitems (o_root s))
                 then UB else Ok (mkO (clone_sub f (o_root s)) false).
Proof.
  intros Hc H0 Hd. unfold b_clone. rewrite Hd.
  assert (E : b_clone_list cl true (hitems (o_root s)) =
    if existsb (fun n => match ndata n with None => true | Some _ => false end) (hitems (o_root s)) then UB
    else Ok (map (clone_node f) (hitems (o_root s)))).
  { induction (hitems (o_root s)) as [|n l IH]; [reflexivity|]. cbn [b_clone_list map existsb]. rewrite (b_clone_node_top cl f n Hc).
    destruct (ndata n) as [v|] eqn:En; [|now rewrite H0].
    rewrite Hc. cbn [bind orb]. rewrite IH.
    destruct (existsb (fun n0 => match ndata n0 with None => true | Some _ => false end) l); [reflexivity|]. cbn [bind].
    rewrite (clone_node_eq f n), En. reflexivity. }
  rewrite E. destruct (existsb _ _); reflexivity.
Qed.
Lemma clone_binv S s (f : V -> V) : binv S s -> binv S (mkO (clone_sub f (o_root s)) false) /\
  forall k, bshows (mkO (clone_sub f (o_root s)) false) k = option_map f (bshows s k).
Proof.
  intros Hi. pose proof (proj1 Hi) as Hw.
  assert (Hi' : binv S (mkO (clone_sub f (o_root s)) false)).
  { split; [now apply clone_wff|]. split; [now apply clone_tight|]. split; [|reflexivity]. destruct Hi as (_ & _ & Hc & _).
    cbn [o_root]. intros q m H.
    assert (Hex : exists m0, at_path (hitems (o_root s)) q m0).
    { clear Hc. remember (hitems (clone_sub f (o_root s))) as l0. assert (Hl0 : l0 = map (clone_node f) (hitems (o_root s))) by (rewrite Heql0; apply clone_items).
      clear Heql0. generalize dependent (hitems (o_root s)). induction H as [l n Hn|l n q m Hn Hq IH]; intros l1 ->.
      - apply in_map_iff in Hn. destruct Hn as (n0 & <- & Hn0). exists n0. rewrite clone_node_eq. cbn [nkey]. now constructor.
      - apply in_map_iff in Hn. destruct Hn as (n0 & <- & Hn0).
        destruct (IH (hitems (nsubs n0))) as (m0 & Hm0); [rewrite clone_node_eq; cbn [nsubs]; apply clone_items|].
        exists m0. rewrite clone_node_eq. cbn [nkey]. now constructor. }
    destruct Hex as (m0 & Hm0). exact (Hc q m0 Hm0). }
  split; [exact Hi'|]. intros k. rewrite (bshows_look S _ k Hi'), (bshows_look S s k Hi). cbn [o_root]. now apply clone_look.
Qed.
End Facts.

(** ** Without a destructor; after clear *)
Section More.
Context {V : Type}.
Implicit Types (s : odict V).
Lemma b_set_null : forall fuel (h : hsl (node V)) key off d v,
  b_get fuel h key off = Ok (Some v) -> b_set false fuel h key off d = UB.
Proof.
  induction fuel as [|fuel IH]; intros h key off d v E; cbn [b_get b_set] in *.
  { destruct (off <? length key); discriminate. }
  destruct (off <? length key); [|discriminate].
  destruct (b_find (skipn off key) (hitems h) 0) as [[i n]|]; [|discriminate].
  destruct (snd (kcmp (length key) 0 (skipn 1 (nkey n)) (skipn (off + 1) key))) as [|[|[|[|?]]]]; try discriminate.
  - rewrite (IH _ _ _ d v E). reflexivity.
  - reflexivity.
Qed.
Lemma null_replace ctor s k d v : bshows s k = Some v -> b_step false ctor s (BSet k d) = UB.
Proof.
  unfold bshows. destruct (o_dead s) eqn:Ed; [discriminate|]. intros E. cbn [b_step]. rewrite (live_ok s k Ed).
  destruct (b_get (length k) (o_root s) k 0) as [o| |] eqn:Eg; try discriminate. subst o.
  now rewrite (b_set_null _ _ _ _ (ctor d) v Eg).
Qed.
Lemma clear_dead dtor ctor s s' e k0 v0 : bshows s k0 = Some v0 -> b_step dtor ctor s BClear = Ok (s', e) ->
  (forall k d, k <> [] -> b_step dtor ctor s' (BSet k d) = UB /\ b_step dtor ctor s' (BGet k) = UB /\ b_step dtor ctor s' (BUnset k) = UB) /\
  b_step dtor ctor s' BClear = UB /\ o_destroy (Plain dtor) s' = UB.
Proof.
  intros Hs E. cbn [b_step] in *. unfold o_clear in E.
  assert (Hne : hitems (o_root s) <> []).
  { intros E0. unfold bshows in Hs. destruct (o_dead s); [discriminate|].
    destruct (length k0) as [|f]; cbn [b_get] in Hs; destruct (0 <? length k0); try discriminate.
    rewrite E0 in Hs. cbn in Hs. discriminate. }
  destruct (o_dead s); [discriminate|]. destruct (hitems (o_root s)) as [|n l] eqn:El; [congruence|].
  injection E as <- <-. split; [|split; reflexivity].
  intros k d Hk. unfold live. cbn [o_dead]. destruct k; [congruence|]. cbn. auto.
Qed.
Lemma ordered_width (os : list (bop V)) w : (forall k, In k (bset_keys os) -> length k = w) -> ordered os.
Proof.
  intros Hw l1 k d l2 E. right. intros k' Hk' (c & r & Ep).
  assert (H1 : length k = w) by (apply Hw; rewrite E, bset_keys_app; apply in_or_app; right; now left).
  assert (H2 : length k' = w) by (apply Hw; rewrite E, bset_keys_app; apply in_or_app; now left).
  rewrite Ep, app_length in H2. cbn in H2. lia.
Qed.
Lemma set_get_run ctor (os : list (bop V)) : ordered os -> only_set_get os ->
  exists s effs, b_run true ctor o_create os = Ok (s, effs) /\
    binv (fun k => In k (bset_keys os)) s /\
    (forall k, bshows s k = fst (fst (map_run ctor (fun _ => None) os)) k) /\
    results effs = snd (fst (map_run ctor (fun _ => None) os)) /\ destroyed effs = snd (map_run ctor (fun _ => None) os) /\
    (forall ev, o_destroy (Plain true) s = Ok ev -> Permutation (destroyed effs ++ flat_map olist ev) (bgiven ctor os)) /\
    (exists ev, o_destroy (Plain true) s = Ok ev).
Proof.
  intros Ho Hs. destruct (run_ordered ctor os [] o_create (fun _ => None) binv_create) as (s & effs & E & Hi & Hl & Hr & Hd & Hp); auto.
  { intros k []. }
  { intros k. apply look_empty. }
  exists s, effs. split; [exact E|]. cbn [app] in Hi. split; [exact Hi|]. split; [intros k; rewrite (bshows_look _ s k Hi); apply Hl|].
  split; [exact Hr|]. split; [exact Hd|]. split.
  - intros ev Ed. fold (somes ev). rewrite (destroy_all s _ ev Hi Ed). cbn [o_create o_root hs_empty hitems] in Hp.
    change (vals []) with (@nil V) in Hp. rewrite app_nil_r in Hp. rewrite <- Hp. apply Permutation_app_comm.
  - unfold o_destroy. destruct Hi as (_ & _ & _ & ->). eauto.
Qed.
Lemma apart_run ctor (os : list (bop V)) s effs : apart (bset_keys os) -> no_clear os ->
  b_run true ctor o_create os = Ok (s, effs) ->
  binv (fun k => In k (bset_keys os)) s /\
  exists ev, o_destroy (Plain true) s = Ok ev /\ Permutation (destroyed effs ++ flat_map olist ev) (bgiven ctor os).
Proof.
  intros Ha Hn E. destruct (run_apart ctor os (bset_keys os) o_create s effs Ha (fun x H => H) Hn) as (Hi & Hp); auto.
  { destruct (@binv_create V) as (H1 & H2 & H3 & H4). split; [|split; [|split]]; auto. eapply covered_mono; [|exact H3]. intros k []. }
  split; [exact Hi|]. cbn [o_create o_root hs_empty hitems] in Hp. change (vals []) with (@nil V) in Hp. rewrite app_nil_r in Hp.
  assert (Ed : exists ev, o_destroy (Plain true) s = Ok ev) by (unfold o_destroy; destruct Hi as (_ & _ & _ & ->); eauto).
  destruct Ed as (ev & Ed). exists ev. split; [exact Ed|]. fold (somes ev). rewrite (destroy_all s _ ev Hi Ed). rewrite <- Hp. apply Permutation_app_comm.
Qed.
Lemma unset_step ctor S s k s' e : binv S s -> b_step true ctor s (BUnset k) = Ok (s', e) ->
  ((forall k', bshows s' k' = bshows s k') /\ flat_map olist (e_destroyed e) = []) \/
  exists k0, length k0 = length k /\ (forall k', bshows s' k' = if streq k' k0 then None else bshows s k') /\
    flat_map olist (e_destroyed e) = olist (bshows s k0).
Proof.
  intros Hi E. destruct (step_unset ctor S s k s' e Hi E) as (Hi' & (_ & _ & _ & Hd) & _).
  destruct Hd as [[E1 ->]|(k0 & H1 & _ & H2 & H3)].
  - left. split; [|reflexivity]. intros k'. now rewrite (bshows_look _ _ k' Hi'), (bshows_look _ _ k' Hi), E1.
  - right. exists k0. split; [exact H1|]. split; [|now rewrite (bshows_look _ _ k0 Hi)].
    intros k'. now rewrite (bshows_look _ _ k' Hi'), (bshows_look _ _ k' Hi).
Qed.
End More.
