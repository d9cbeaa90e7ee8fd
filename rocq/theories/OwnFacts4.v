(** The two dictionaries compared; unions of plain dictionaries. *)
From Coq Require Import Permutation.
From Verif Require Import ParseModel CStr CStrFacts HSListModel HSListFacts RTreeModel RTreeFacts RTreeFacts2 RTreeFacts3 RTreeFacts4
  OwnModel OwnFacts OwnFacts2 OwnFacts3.

Section Facts.
Context {V : Type}.
Notation node := (node V).
Implicit Types (h : hsl node) (k : str) (d : option V) (kd : kind) (s : odict V).

(** ** Same behaviour of both files *)
Definition seen (r : hsl node * list (option V)) : hsl node * list V := (fst r, somes (snd r)).
Lemma own_set_seen : forall fuel h k d,
  rmap seen (own_set (Plain true) fuel h k (length k) d) = rmap seen (own_set Objects fuel h k (length k) d).
Proof.
  induction fuel as [|fuel IH]; intros h k d; destruct k as [|c k]; try reflexivity.
  cbn [own_set length]. rewrite firstn_all.
  destruct (find_child c (hitems h) 0 None) as [i n|lz].
  2:{ cbn [firstn]. rewrite firstn_all. reflexivity. }
  destruct (scan 1 k (tl (nkey n))) as [| |x|x]; try reflexivity.
  - cbn. unfold seen. cbn. destruct (ndata n); reflexivity.
  - specialize (IH (nsubs n) (skipn x (c :: k)) d). rewrite skipn_length in IH. cbn [length] in IH.
    destruct (own_set (Plain true) fuel (nsubs n) (skipn x (c :: k)) (S (length k) - x) d) as [[]| |],
             (own_set Objects fuel (nsubs n) (skipn x (c :: k)) (S (length k) - x) d) as [[]| |];
      cbn in *; unfold seen in *; cbn in *; congruence.
Qed.
Lemma own_unset_seen : forall fuel isroot h k,
  rmap seen (own_unset (Plain true) fuel isroot h k) = rmap seen (own_unset Objects fuel isroot h k).
Proof.
  assert (Hn : forall n : node, somes (node_destroy (Plain true) n) = somes (node_destroy Objects n)).
  { intros n. rewrite !node_destroy_somes by discriminate. reflexivity. }
  induction fuel as [|fuel IH]; intros isroot h k; destruct k as [|c k]; try reflexivity.
  cbn [own_unset].
  destruct (find_child c (hitems h) 0 None) as [i n|lz]; [|reflexivity].
  destruct (scan 1 k (tl (nkey n))) as [| |x|x]; try reflexivity.
  - assert (Hr : forall t, rmap seen (match t with
                   | TNull => Ok (hs_remove h i, node_destroy (Plain true) n)
                   | _ => ev <- release (Plain true) (ndata n) ;; Ok (hs_update h i (Node (nkey n) None (nsubs n)), ev)
                   end) = rmap seen (match t with
                   | TNull => Ok (hs_remove h i, node_destroy Objects n)
                   | _ => ev <- release Objects (ndata n) ;; Ok (hs_update h i (Node (nkey n) None (nsubs n)), ev)
                   end)).
    { intros t. destruct t; cbn [bind release]; unfold rmap, seen; cbn [bind fst snd]; rewrite ?Hn; try reflexivity;
        destruct (ndata n); reflexivity. }
    specialize (Hr (htail (nsubs n))).
    destruct (match htail (nsubs n) with
                   | TNull => Ok (hs_remove h i, node_destroy (Plain true) n)
                   | _ => ev <- release (Plain true) (ndata n) ;; Ok (hs_update h i (Node (nkey n) None (nsubs n)), ev)
                   end) as [[h1 e1]| |],
             (match htail (nsubs n) with
                   | TNull => Ok (hs_remove h i, node_destroy Objects n)
                   | _ => ev <- release Objects (ndata n) ;; Ok (hs_update h i (Node (nkey n) None (nsubs n)), ev)
                   end) as [[h2 e2]| |]; cbn [rmap] in Hr; try discriminate; try reflexivity.
    unfold seen in Hr. cbn [fst snd] in Hr. injection Hr as -> He. cbn [bind fst].
    destruct isroot; [|destruct (htail h2)]; unfold rmap, seen; cbn [bind fst snd]; rewrite ?He; reflexivity.
  - specialize (IH false (nsubs n) (skipn x (c :: k))).
    destruct (own_unset (Plain true) fuel false (nsubs n) (skipn x (c :: k))) as [[]| |],
             (own_unset Objects fuel false (nsubs n) (skipn x (c :: k))) as [[]| |];
      cbn in *; unfold seen in *; cbn in *; congruence.
Qed.

Definition plain_op (o : oop V) : Prop := match o with OSetN _ _ _ _ | OClear => False | _ => True end.
Definition view (r : odict V * effect V) : odict V * list V * option V :=
  (fst r, somes (e_destroyed (snd r)), e_result (snd r)).
Lemma step_view ctor2 s o : plain_op o ->
  rmap view (o_step (Plain true) (fun d => d) s o) = rmap view (o_step Objects ctor2 s o).
Proof.
  destruct o as [own k d|own k m d|own k|k|]; cbn [plain_op o_step]; intros Hp; try contradiction.
  - unfold o_set. rewrite Nat.leb_refl, firstn_all. cbn [andb]. destruct (live s k); [|reflexivity].
    pose proof (own_set_seen (length k) (o_root s) k d) as H.
    destruct (own_set (Plain true) (length k) (o_root s) k (length k) d) as [[]| |],
             (own_set Objects (length k) (o_root s) k (length k) d) as [[]| |]; cbn in *; unfold seen, view in *; cbn in *; congruence.
  - destruct (live s k); [|reflexivity]. destruct (get_sub (length k) (o_root s) k); reflexivity.
  - destruct (live s k); [|reflexivity].
    pose proof (own_unset_seen (length k) true (o_root s) k) as H.
    destruct (own_unset (Plain true) (length k) true (o_root s) k) as [[]| |],
             (own_unset Objects (length k) true (o_root s) k) as [[]| |]; cbn in *; unfold seen, view in *; cbn in *; congruence.
Qed.
Definition run_view (r : odict V * list (effect V)) : odict V * list V * list (option V) :=
  (fst r, destroyed (snd r), results (snd r)).
Lemma run_same ctor2 os : forall s, Forall plain_op os ->
  rmap run_view (o_run (Plain true) (fun d => d) s os) = rmap run_view (o_run Objects ctor2 s os).
Proof.
  induction os as [|o os IH]; intros s H; [reflexivity|]. inversion H as [|? ? Ho Hos]; subst. cbn [o_run].
  pose proof (step_view ctor2 s o Ho) as Hs.
  destruct (o_step (Plain true) (fun d => d) s o) as [[s1 e1]| |], (o_step Objects ctor2 s o) as [[s2 e2]| |];
    cbn in Hs; try congruence; try reflexivity.
  assert (E : s1 = s2 /\ somes (e_destroyed e1) = somes (e_destroyed e2) /\ e_result e1 = e_result e2).
  { unfold view in Hs. cbn [fst snd] in Hs. inversion Hs. auto. }
  destruct E as (-> & Ee & Er). cbn [bind fst snd]. specialize (IH s2 Hos).
  destruct (o_run (Plain true) (fun d => d) s2 os) as [[s3 x3]| |], (o_run Objects ctor2 s2 os) as [[s4 x4]| |];
    cbn in IH; try congruence; try reflexivity.
  cbn [bind fst snd rmap] in *. unfold run_view in *. cbn [fst snd] in *. rewrite !destroyed_cons, Ee.
  unfold results in *. cbn [map]. rewrite Er. congruence.
Qed.
Lemma run_same_cases os : Forall plain_op os ->
  match o_run (Plain true) (fun d => d) o_create os, o_run Objects (fun d => d) o_create os with
  | Ok (s1, e1), Ok (s2, e2) =>
      (forall k, shows s1 k = shows s2 k) /\ results e1 = results e2 /\ destroyed e1 = destroyed e2
  | UB, UB => True
  | _, _ => False
  end.
Proof.
  intros H. pose proof (run_same (fun d => d) os o_create H) as E.
  assert (Hnf : o_run Objects (fun d => d) o_create os <> NoFuel).
  { clear E. assert (Hgen : forall s, wfo s -> o_run Objects (fun d => d) s os <> NoFuel); [|apply Hgen, wff_empty].
    induction os as [|o os IH]; intros s Hw; [discriminate|]. inversion H as [|? ? Ho Hos]; subst. cbn [o_run].
    destruct (o_step Objects (fun d => d) s o) as [[s1 e1]| |] eqn:Es; [| |exfalso].
    - cbn [bind fst snd]. assert (Hw1 : wfo s1) by (refine (proj1 (step_held Objects (fun d => d) s o s1 e1 _ Hw Es)); discriminate).
      specialize (IH Hos s1 Hw1). destruct (o_run Objects (fun d => d) s1 os) as [[]| |]; cbn; congruence.
    - discriminate.
    - destruct o as [own k d|own k m d|own k|k|]; cbn [plain_op o_step] in *; try contradiction.
      + unfold o_set in Es. rewrite Nat.leb_refl, firstn_all in Es. cbn [andb] in Es. destruct (live s k); [|discriminate].
        destruct (set_sub_spec (length k) (o_root s) k d Hw (le_n _)) as (h2 & b & E2 & _).
        pose proof (own_set_tree Objects (ltac:(discriminate)) (length k) (o_root s) k d) as T. rewrite E2 in T.
        destruct (own_set Objects (length k) (o_root s) k (length k) d); cbn in *; congruence.
      + destruct (live s k); [|discriminate]. destruct (get_sub_total (length k) (o_root s) k (le_n _)) as (v & Ev).
        rewrite Ev in Es. discriminate.
      + destruct (live s k); [|discriminate].
        pose proof (own_unset_tree Objects (ltac:(discriminate)) (length k) true (o_root s) k) as T.
        pose proof (unset_sub_spec (length k) (o_root s) k true Hw (le_n _)) as Hu.
        destruct (own_unset Objects (length k) true (o_root s) k); cbn in *; try congruence.
        rewrite <- T in Hu. exact Hu. }
  destruct (o_run (Plain true) (fun d => d) o_create os) as [[s1 e1]| |],
           (o_run Objects (fun d => d) o_create os) as [[s2 e2]| |]; cbn in E; try congruence; auto.
  unfold run_view in E. cbn in E. inversion E. subst. auto.
Qed.

(** ** unset *)
Lemma unset_exact kd ctor s k s' e : owning kd -> wfo s -> o_dead s = false -> o_step kd ctor s (OUnset k) = Ok (s', e) ->
  exists gone, map snd gone = flat_map olist (e_destroyed e) /\ NoDup (map fst gone) /\
    (forall k' v, In (k', v) gone -> shows s k' = Some v /\ prefix k k') /\
    shows s' k = None /\
    (forall k', shows s' k' = if in_dec str_eq_dec k' (map fst gone) then None else shows s k').
Proof.
  intros Ho Hw Hd E. cbn [o_step] in E.
  assert (Hlive : live s k = true) by (unfold live; rewrite Hd; now destruct k).
  rewrite Hlive in E. apply bind_ok in E. destruct E as ([h' ev] & Er & E). inversion E; subst s' e; clear E.
  cbn [fst snd e_destroyed] in *. destruct (own_unset_full kd _ k h' ev true Ho Hw Er) as (Hw' & _).
  destruct (own_unset_spec kd Ho _ _ _ _ _ _ Hw Er) as (dk & Hp & Hv & Hpre).
  assert (Hnd : NoDup (map fst (ents (hitems h') ++ dk))).
  { apply (Permutation_NoDup (Permutation_sym (Permutation_map fst Hp))). now apply ents_nodup. }
  rewrite map_app in Hnd.
  assert (Hndk : NoDup (map fst dk)).
  { clear -Hnd. induction (map fst (ents (hitems h'))) as [|a q IH]; [exact Hnd|]. inversion Hnd; auto. }
  assert (Hin : forall k' v, In (k', v) (ents (hitems h') ++ dk) <-> look (o_root s) k' = Some v).
  { intros k' v. rewrite <- (ents_look _ _ _ Hw). split; apply Permutation_in; [exact Hp|now apply Permutation_sym]. }
  exists dk. split; [exact Hv|]. split; [exact Hndk|]. unfold shows. rewrite Hd. cbn [o_dead o_root]. split.
  - intros k' v H. rewrite get_sub_look by auto. split; [|exact (Hpre _ _ H)].
    apply Hin. apply in_or_app. now right.
  - split.
    { rewrite get_sub_look by auto. destruct k as [|c k]; [reflexivity|].
      pose proof (own_unset_tree kd Ho (length (c :: k)) true (o_root s) (c :: k)) as T. rewrite Er in T. cbn [rmap bind fst] in T.
      pose proof (unset_sub_spec (length (c :: k)) (o_root s) (c :: k) true Hw (le_n _)) as Hu. rewrite <- T in Hu.
      destruct Hu as (_ & Hu & _). apply Hu. discriminate. }
    intros k'. rewrite !get_sub_look by auto. destruct (in_dec str_eq_dec k' (map fst dk)) as [Hi|Hi].
    + destruct (look h' k') as [v|] eqn:El; [|reflexivity]. exfalso.
      apply (ents_look _ _ _ Hw') in El. apply (in_map fst) in El. cbn in El.
      clear -Hnd El Hi. induction (map fst (ents (hitems h'))) as [|a q IH]; [easy|].
      inversion Hnd as [|? ? H1 H2]; subst. destruct El as [->|El]; [|auto]. apply H1. apply in_or_app. now right.
    + destruct (look h' k') as [v|] eqn:El.
      * symmetry. apply Hin. apply in_or_app. left. now apply ents_look.
      * destruct (look (o_root s) k') as [v|] eqn:El2; [|reflexivity]. exfalso. apply Hin in El2.
        apply in_app_or in El2. destruct El2 as [H|H].
        -- apply (ents_look _ _ _ Hw') in H. congruence.
        -- apply Hi. apply (in_map fst) in H. exact H.
Qed.

(** ** Unions of plain dictionaries *)
Fixpoint own_sets kd h (kvs : list (str * V)) : res (hsl node * list (option V)) :=
  match kvs with
  | [] => Ok (h, [])
  | (k, v) :: r =>
      p <- own_set kd (length k) h k (length k) (Some v) ;;
      q <- own_sets kd (fst p) r ;;
      Ok (fst q, snd p ++ snd q)
  end.
Lemma own_sets_app kd a b : forall h,
  own_sets kd h (a ++ b) = (p <- own_sets kd h a ;; q <- own_sets kd (fst p) b ;; Ok (fst q, snd p ++ snd q)).
Proof.
  induction a as [|[k v] a IH]; intros h; cbn [app own_sets].
  - cbn [bind fst snd app]. destruct (own_sets kd h b) as [[]| |]; reflexivity.
  - destruct (own_set kd (length k) h k (length k) (Some v)) as [p| |]; cbn [bind]; try reflexivity.
    rewrite IH. destruct (own_sets kd (fst p) a) as [q| |]; cbn [bind fst snd]; try reflexivity.
    destruct (own_sets kd (fst q) b) as [w| |]; cbn [bind fst snd]; try reflexivity. now rewrite app_assoc.
Qed.
Definition onv (g : V -> V) (e : list (str * V)) : list (str * V) := map (fun kv => (fst kv, g (snd kv))) e.

Lemma p_set_nodes_level kd ctor c f pre dp : (forall v, ctor (Some v) = Some (c v)) -> forall l h,
  p_set_nodes kd ctor (Some f) h pre l = own_sets kd h (onv (fun v => c (f v)) (strip_d (level pre dp l))).
Proof.
  intros Hc. induction l as [|n l IH]; intros h; [reflexivity|].
  cbn [p_set_nodes]. change (level pre dp (n :: l)) with
    ((match ndata n with Some v => [(pre ++ nkey n, v, dp)] | None => [] end) ++ level pre dp l).
  destruct (ndata n) as [v|]; cbn [app].
  - rewrite Hc. change (strip_d ((pre ++ nkey n, v, dp) :: level pre dp l)) with ((pre ++ nkey n, v) :: strip_d (level pre dp l)).
    cbn [onv map own_sets fst snd].
    destruct (own_set kd _ h (pre ++ nkey n) _ (Some (c (f v)))) as [p| |]; cbn [bind]; try reflexivity.
    now rewrite IH.
  - cbn [bind fst snd app]. rewrite IH.
    fold (onv (fun v => c (f v)) (strip_d (level pre dp l))).
    destruct (own_sets kd h (onv (fun v => c (f v)) (strip_d (level pre dp l)))) as [[]| |]; reflexivity.
Qed.
Lemma p_unite_loop_bfs kd ctor c f : (forall v, ctor (Some v) = Some (c v)) -> forall fuel h q,
  bq_size q <= fuel ->
  p_unite_loop kd ctor (Some f) fuel h (map fst q) = own_sets kd h (onv (fun v => c (f v)) (strip_d (bfs fuel q))).
Proof.
  intros Hc. induction fuel as [|fuel IH]; intros h q Hq.
  - destruct q as [|[[hh pre] dp] q]; [reflexivity|cbn in Hq; lia].
  - destruct q as [|[[hh pre] dp] q]; [reflexivity|].
    change (S (fsize (hitems hh)) + bq_size q <= S fuel) in Hq.
    cbn [map fst p_unite_loop bfs]. unfold strip_d. rewrite map_app. unfold onv. rewrite map_app, own_sets_app.
    fold (strip_d (level pre dp (hitems hh))). fold (onv (fun v => c (f v)) (strip_d (level pre dp (hitems hh)))).
    rewrite <- (p_set_nodes_level kd ctor c f pre dp Hc).
    destruct (p_set_nodes kd ctor (Some f) h pre (hitems hh)) as [p| |]; cbn [bind]; try reflexivity.
    fold (strip_d (bfs fuel (q ++ map (fun n => (nsubs n, pre ++ nkey n, S dp)) (filter nonleaf (hitems hh))))).
    fold (onv (fun v => c (f v)) (strip_d (bfs fuel (q ++ map (fun n => (nsubs n, pre ++ nkey n, S dp)) (filter nonleaf (hitems hh)))))).
    rewrite <- IH.
    + f_equal. f_equal. rewrite map_app, map_map. reflexivity.
    + rewrite bq_size_app. pose proof (bq_size_children pre dp (hitems hh)). lia.
Qed.

Lemma late_free_onv g kvs : forall D S : str -> Prop, late_free D S kvs -> late_free D S (onv g kvs).
Proof. induction kvs as [|[k v] kvs IH]; intros D S; cbn; [auto|]. intros (H1 & H2 & H3). auto. Qed.

Lemma own_sets_spec kd : owning kd -> forall kvs h (D S : str -> Prop),
  wff h -> tn S h -> (forall x : str, D x -> look h x <> None) -> late_free D S kvs ->
  exists h' ev, own_sets kd h kvs = Ok (h', ev) /\ wff h' /\
    (forall k, look h' k = last_set (look h k) kvs k) /\
    Permutation (vals (hitems h') ++ somes ev) (map snd kvs ++ vals (hitems h)).
Proof.
  intros Ho. induction kvs as [|[k v] kvs IH]; intros h D S Hw Ht HD Hl; cbn [own_sets last_set].
  - exists h, []. split; [reflexivity|]. split; [exact Hw|]. split; [reflexivity|]. cbn. now rewrite app_nil_r.
  - destruct Hl as (Hk & HS & Hl).
    destruct (set_sub_spec (length k) h k (Some v) Hw (le_n _)) as (h1 & b & E1 & Hw1 & Hlook).
    destruct (set_sub_tn (length k) h k (Some v) h1 b S Hw (le_n _) Hk Ht) as [Hc Ht1]; auto.
    { destruct HS as [HS|HS]; [left|now right]. apply HD in HS. destruct (look h k) as [w|] eqn:Ew; [|congruence].
      destruct (look_at_path _ _ _ Hw Ew) as (m & Hm & _). eauto. }
    specialize (Hlook Hc).
    pose proof (own_set_tree kd Ho (length k) h k (Some v)) as T. rewrite E1 in T.
    destruct (own_set kd (length k) h k (length k) (Some v)) as [[h1' ev1]| |] eqn:Er; cbn in T; try discriminate.
    injection T as ->. cbn [bind fst snd].
    destruct (own_set_spec kd Ho _ _ _ _ _ _ Hw Er) as (lost & Hp & Hlost). rewrite (Hlost Hk Hc), app_nil_r in Hp.
    destruct (IH h1 (addS D k) (addS S k) Hw1 Ht1) as (h2 & ev2 & -> & Hw2 & Hl2 & Hp2); auto.
    { intros s Hs. rewrite Hlook by exact Hk. destruct (streq_spec s k) as [->|Hne]; [discriminate|].
      destruct Hs as [Hs| ->]; [auto|congruence]. }
    exists h2, (ev1 ++ ev2). split; [reflexivity|]. split; [exact Hw2|]. split.
    + intros k0. rewrite Hl2, Hlook by exact Hk. reflexivity.
    + cbn [map snd]. rewrite somes_app. cbn [olist app] in Hp.
      change ((v :: map snd kvs) ++ vals (hitems h)) with (v :: (map snd kvs ++ vals (hitems h))).
      transitivity (map snd kvs ++ (vals (hitems h1) ++ somes ev1)).
      2:{ rewrite Hp. symmetry. apply Permutation_middle. }
      rewrite !app_assoc, <- Hp2, <- !app_assoc. apply Permutation_app_head, Permutation_app_comm.
Qed.

Lemma map_snd_onv g (kvs : list (str * V)) : map snd (onv g kvs) = map g (map snd kvs).
Proof. unfold onv. rewrite !map_map. reflexivity. Qed.
Lemma map_fst_onv g (kvs : list (str * V)) : map fst (onv g kvs) = map fst kvs.
Proof. unfold onv. rewrite !map_map. reflexivity. Qed.

Lemma union_spec ctor c f g s1 s2 :
  (forall v, ctor (Some v) = Some (c v)) ->
  wfo s1 -> wfo s2 -> o_dead s1 = false -> o_dead s2 = false ->
  exists s ev ps ps1 ps2, p_union true ctor (Some f) (Some g) s1 s2 = Ok (s, ev) /\
    (forall k, shows s k = match shows s1 k with Some v => Some (c (f v)) | None => option_map g (shows s2 k) end) /\
    (forall k v, In (k, v) ps <-> shows s k = Some v) /\ NoDup (map fst ps) /\
    (forall k v, In (k, v) ps1 <-> shows s1 k = Some v) /\ NoDup (map fst ps1) /\
    (forall k v, In (k, v) ps2 <-> shows s2 k = Some v) /\ NoDup (map fst ps2) /\
    Permutation (map snd ps ++ flat_map olist ev) (map (fun v => c (f v)) (map snd ps1) ++ map g (map snd ps2)).
Proof.
  intros Hc Hw1 Hw2 Hd1 Hd2. unfold p_union, p_clone, p_unite. rewrite Hd2. cbn [bind o_dead orb]. rewrite Hd1.
  cbn [o_root].
  set (q := [(o_root s1, [] : str, 0)] : bq). set (fuel := S (fsize (hitems (o_root s1)))).
  assert (Hsz : bq_size q <= fuel) by (unfold q, fuel, bq_size; cbn [fold_right fst]; lia).
  change [(o_root s1, @nil ascii)] with (map fst q).
  rewrite (p_unite_loop_bfs (Plain true) ctor c f Hc fuel _ q Hsz).
  (* the list of what is set, through the existing lemma about unions *)
  destruct (rt_unite_sets (mkT (clone_sub g (o_root s2)) 0) (mkT (o_root s1) 0) Hw1) as (kvs0 & _ & Hp0 & Hlf0).
  assert (Hkvs : Permutation (strip_d (bfs fuel q)) (ents (hitems (o_root s1))) /\
                 forall D S : str -> Prop, (forall x : str, ~ S x) -> late_free D S (strip_d (bfs fuel q))).
  { clear kvs0 Hp0 Hlf0. split.
    - eapply Permutation_trans; [apply bfs_ents, Hsz|]. unfold q, bq_ents. cbn [flat_map fst snd].
      rewrite eprefix_nil, app_nil_r. apply Permutation_refl.
    - intros D S HS. apply sorted_late_free with (root := o_root s1); auto.
      + apply (bfs_sorted fuel 0 q). unfold q. apply (qshape_intro 0 [(o_root s1, [], 0)] []).
        * intros x [<-|[]]; reflexivity.
        * intros x [].
      + intros k v dp. apply bfs_pd. intros h pre dp0 [E|[]] p d' Hp. inversion E; subst. exact Hp.
      + intros k v dp Hin ->.
        assert (Hin' : In ([], v) (ents (hitems (o_root s1)))).
        { apply (in_map fst) in Hin. cbn [fst] in Hin. change (map fst (bfs fuel q)) with (strip_d (bfs fuel q)) in Hin.
          apply (Permutation_in _ (bfs_ents fuel q Hsz)) in Hin.
          unfold q, bq_ents in Hin. cbn [flat_map fst snd] in Hin. rewrite eprefix_nil, app_nil_r in Hin. exact Hin. }
        apply (ents_look _ _ _ Hw1) in Hin'. discriminate.
      + intros s Hs. now apply HS in Hs. }
  clear kvs0 Hp0 Hlf0. destruct Hkvs as [Hp0 Hlf0]. set (kvs := strip_d (bfs fuel q)) in *.
  destruct (own_sets_spec (Plain true) (ltac:(discriminate)) (onv (fun v => c (f v)) kvs) (clone_sub g (o_root s2))
              (fun _ => False) (fun _ => False) (clone_wff g _ Hw2) (clone_tn g _ _ Hw2))
    as (h' & ev & E & Hw' & Hl & Hp).
  { contradiction. } { apply late_free_onv, Hlf0. auto. }
  rewrite E. cbn [bind fst snd].
  assert (Hnd : NoDup (map fst kvs)).
  { eapply Permutation_NoDup; [apply Permutation_map, Permutation_sym, Hp0|]. now apply ents_nodup. }
  exists (mkO h' false), ev, (ents (hitems h')), (ents (hitems (o_root s1))), (ents (hitems (o_root s2))).
  unfold shows. cbn [o_dead o_root]. rewrite Hd1, Hd2.
  split; [reflexivity|]. split.
  { intros k. rewrite !get_sub_look by auto. rewrite Hl, clone_look by exact Hw2.
    destruct (look (o_root s1) k) as [v|] eqn:Ek.
    - apply last_set_in; [now rewrite map_fst_onv|]. unfold onv. apply in_map_iff. exists (k, v). split; [reflexivity|].
      apply (Permutation_in _ (Permutation_sym Hp0)). now apply ents_look.
    - apply last_set_notin. rewrite map_fst_onv. intros Hin. apply in_map_iff in Hin. destruct Hin as ([k' v] & <- & Hin).
      apply (Permutation_in _ Hp0) in Hin. apply (ents_look _ _ _ Hw1) in Hin. cbn in Ek. congruence. }
  assert (He : forall h, wff h -> (forall k v, In (k, v) (ents (hitems h)) <->
       match get_sub (length k) h k with Ok v0 => v0 | _ => None end = Some v) /\ NoDup (map fst (ents (hitems h)))).
  { intros h Hw. split; [|now apply ents_nodup]. intros k v. rewrite get_sub_look by auto. now apply ents_look. }
  destruct (He h' Hw') as [Ha Hb]. destruct (He _ Hw1) as [Ha1 Hb1]. destruct (He _ Hw2) as [Ha2 Hb2].
  do 6 (split; [assumption|]).
  rewrite map_snd_onv in Hp. fold (vals (hitems h')). fold (somes ev). rewrite Hp. apply Permutation_app.
  - now apply Permutation_map, Permutation_map.
  - unfold vals. rewrite clone_ents. rewrite !map_map. reflexivity.
Qed.
End Facts.

(** ** The attributes of an XML element *)
Lemma attrs_refine (attrs : list (str * str)) : forall t s,
  o_root s = troot t -> o_dead s = false ->
  match attrs_dict t attrs, o_run (Plain true) (fun d => d) s (map (fun kv => OSet true (fst kv) (Some (snd kv))) attrs) with
  | Ok t', Ok (s', _) => o_root s' = troot t' /\ o_dead s' = false
  | UB, UB | NoFuel, NoFuel => True
  | _, _ => False
  end.
Proof.
  induction attrs as [|[k v] attrs IH]; intros t s Er Ed; cbn [attrs_dict map o_run fst snd].
  - auto.
  - cbn [o_step]. unfold o_set. rewrite Nat.leb_refl, firstn_all. cbn [andb].
    assert (Hlive : live s k = true) by (unfold live; rewrite Ed; now destruct k). rewrite Hlive.
    pose proof (own_set_tree (Plain true) (ltac:(discriminate)) (length k) (o_root s) k (Some v)) as T.
    unfold rt_set. rewrite Er in *.
    destruct (set_sub (length k) (troot t) k (Some v)) as [[h1 b]| |],
             (own_set (Plain true) (length k) (troot t) k (length k) (Some v)) as [[h2 ev]| |];
      cbn [rmap] in T; try discriminate; cbn [bind fst snd]; auto.
    injection T as ->. cbn [fst] in *.
    specialize (IH (mkT h1 (if b then S (tlen t) else tlen t)) (mkO h1 (o_dead s)) eq_refl Ed).
    destruct (attrs_dict _ attrs) as [t'| |],
      (o_run (Plain true) (fun d => d) {| o_root := h1; o_dead := o_dead s |}
             (map (fun kv : str * str => OSet true (fst kv) (Some (snd kv))) attrs)) as [[s' e']| |]; cbn [bind fst snd] in *; auto.
Qed.
Definition attr_ops (attrs : list (str * str)) : list (oop str) := map (fun kv => OSet true (fst kv) (Some (snd kv))) attrs.
Lemma attrs_total (attrs : list (str * str)) : forall t, wff (troot t) -> exists t', attrs_dict t attrs = Ok t'.
Proof.
  induction attrs as [|[k v] attrs IH]; intros t Hw; cbn [attrs_dict]; [eauto|].
  unfold rt_set. destruct (set_sub_spec (length k) (troot t) k (Some v) Hw (le_n _)) as (h1 & b & -> & Hw1 & _).
  cbn [bind fst snd]. apply IH. exact Hw1.
Qed.
Lemma attr_ops_app a : forall l1 own k d l2, attr_ops a = l1 ++ OSet own k d :: l2 ->
  exists a1 v a2, a = a1 ++ (k, v) :: a2 /\ l1 = attr_ops a1.
Proof.
  induction a as [|[k0 v0] a IH]; intros l1 own k d l2 E; [now destruct l1|].
  destruct l1 as [|o l1]; cbn in E.
  - inversion E; subst. now exists [], v0, a.
  - inversion E; subst. destruct (IH _ _ _ _ _ H1) as (a1 & v & a2 & -> & ->). now exists ((k0, v0) :: a1), v, a2.
Qed.
Lemma set_keys_attrs a : set_keys (attr_ops a) = map fst a.
Proof. induction a as [|[k v] a IH]; [reflexivity|]. cbn in *. now f_equal. Qed.
Lemma given_attrs a : given (Plain true) (fun d => d) (attr_ops a) = map snd a.
Proof. induction a as [|[k v] a IH]; [reflexivity|]. cbn in *. now f_equal. Qed.

Lemma attrs_freed (attrs : list (str * str)) :
  (forall k v, In (k, v) attrs -> k <> []) ->
  (forall a1 k v a2, attrs = a1 ++ (k, v) :: a2 -> forall k', In k' (map fst a1) -> ~ proper_prefix k k') ->
  exists t s effs ev,
    attrs_dict rt_create attrs = Ok t /\ o_run (Plain true) (fun d => d) o_create (attr_ops attrs) = Ok (s, effs) /\
    o_root s = troot t /\ o_destroy (Plain true) s = Ok ev /\
    Permutation (destroyed effs ++ flat_map olist ev) (map snd attrs).
Proof.
  intros Hne Hpp. destruct (attrs_total attrs rt_create wff_empty) as (t & Et).
  pose proof (attrs_refine attrs rt_create o_create eq_refl eq_refl) as R. rewrite Et in R. fold (attr_ops attrs) in R.
  destruct (o_run (Plain true) (fun d => d) o_create (attr_ops attrs)) as [[s effs]| |] eqn:Er; try contradiction.
  destruct R as [R1 R2]. exists t, s, effs, (list_destroy (Plain true) (o_root s)).
  assert (Ed : o_destroy (Plain true) s = Ok (list_destroy (Plain true) (o_root s))) by (unfold o_destroy; now rewrite R2).
  split; [exact Et|]. split; [reflexivity|]. split; [exact R1|]. split; [exact Ed|].
  rewrite <- given_attrs. eapply history_complete; eauto; [discriminate|]. split; [|split].
  - intros own k m d H. unfold attr_ops in H. apply in_map_iff in H. destruct H as (x & Hx & _). discriminate.
  - intros own k d H. unfold attr_ops in H. apply in_map_iff in H. destruct H as ([k0 v0] & Hx & Hin). inversion Hx; subst.
    split; [eapply Hne, Hin|discriminate].
  - intros l1 own k d l2 E. right. intros k' Hk'. destruct (attr_ops_app _ _ _ _ _ _ E) as (a1 & v & a2 & Ea & ->).
    rewrite set_keys_attrs in Hk'. eapply Hpp; eauto.
Qed.
