(** More facts about the radix tree: enumeration, copies, union, histories. *)
From Coq Require Import Permutation Sorted.
From Verif Require Import CStr CStrFacts HSListModel HSListFacts RTreeModel RTreeFacts.

Section Facts.
Context {V : Type}.
Notation node := (node V).
Notation rtree := (rtree V).
Implicit Types (n m : node) (l : list node) (h : hsl node) (k : str) (d : option V).

(** ** Nodes and their full keys *)
Inductive at_path : list node -> str -> node -> Prop :=
| AP_here l n : In n l -> at_path l (nkey n) n
| AP_below l n q m : In n l -> at_path (hitems (nsubs n)) q m -> at_path l (nkey n ++ q) m.

Lemma at_path_inv l q m :
  at_path l q m -> exists n, In n l /\
    ((q = nkey n /\ m = n) \/ exists q', q = nkey n ++ q' /\ at_path (hitems (nsubs n)) q' m).
Proof.
  destruct 1 as [l n Hin|l n q m Hin Hap]; exists n; split; auto. right. eauto.
Qed.
Lemma at_path_incl l l' q m : (forall n, In n l -> In n l') -> at_path l q m -> at_path l' q m.
Proof. intros Hi. destruct 1; [constructor|eapply AP_below]; eauto. Qed.

Lemma at_path_look h q m : wff h -> at_path (hitems h) q m -> look h q = ndata m.
Proof.
  intros Hw. revert q m. induction Hw as [h Hs Hnd Hk Hsub IH]. intros q m H.
  assert (Hw : wff h) by (constructor; auto).
  apply at_path_inv in H. destruct H as (n & Hin & [[-> ->]|(q' & -> & Hq')]).
  - rewrite (look_in h n); auto using nlook_self.
  - pose proof (Hk _ Hin). rewrite (look_in h n); auto.
    + rewrite nlook_app. rewrite (IH _ Hin _ _ Hq'). destruct q' as [|]; [|reflexivity].
      rewrite <- (IH _ Hin _ _ Hq').
      apply at_path_inv in Hq'. destruct Hq' as (n' & Hin' & [[E _]|(q'' & E & _)]).
      * exfalso. apply (wff_key (nsubs n) n'); auto.
      * exfalso. symmetry in E. apply app_eq_nil in E. destruct E. apply (wff_key (nsubs n) n'); auto.
    + intros E. apply app_eq_nil in E. tauto.
    + unfold head0. destruct (nkey n); [congruence|reflexivity].
Qed.
Lemma look_at_path h q v : wff h -> look h q = Some v -> exists m, at_path (hitems h) q m /\ ndata m = Some v.
Proof.
  intros Hw. revert q v. induction Hw as [h Hs Hnd Hk Hsub IH]. intros q v H.
  assert (Hw : wff h) by (constructor; auto).
  destruct q as [|c q]; [discriminate|]. rewrite look_cons in H by assumption.
  destruct (pick c (hitems h)) as [n|] eqn:Ep; [|discriminate].
  apply pick_some in Ep. destruct Ep as [Hin Hc].
  unfold nlook in H. destruct (strip (nkey n) (c :: q)) as [[|a r]|] eqn:Es; [| |discriminate].
  - apply strip_some in Es. rewrite app_nil_r in Es. rewrite Es. exists n. split; [now constructor|exact H].
  - apply strip_some in Es. rewrite Es. destruct (IH _ Hin _ _ H) as (m & Hm & Hd).
    exists m. split; [now apply AP_below|exact Hd].
Qed.

(** ** Entries in depth-first order *)
Definition eprefix (p : str) (l : list (str * V)) : list (str * V) :=
  map (fun kv => (p ++ fst kv, snd kv)) l.
Definition own n : list (str * V) := match ndata n with Some v => [(nkey n, v)] | None => [] end.
Fixpoint nents (n : node) : list (str * V) :=
  match n with
  | Node k d (mkH l _) =>
      (match d with Some v => [(k, v)] | None => [] end) ++ eprefix k (flat_map nents l)
  end.
Definition ents l : list (str * V) := flat_map nents l.
Lemma nents_eq n : nents n = own n ++ eprefix (nkey n) (ents (hitems (nsubs n))).
Proof. destruct n as [k d [l t]]. reflexivity. Qed.

Lemma in_eprefix p e k v : In (k, v) (eprefix p e) <-> exists r, k = p ++ r /\ In (r, v) e.
Proof.
  unfold eprefix. rewrite in_map_iff. split.
  - intros ([r w] & E & Hin). cbn in E. inversion E; subst. eauto.
  - intros (r & -> & Hin). now exists (r, v).
Qed.
Lemma eprefix_nil e : eprefix [] e = e.
Proof. unfold eprefix. rewrite <- (map_id e) at 2. apply map_ext. intros [? ?]; reflexivity. Qed.
Lemma eprefix_app p e1 e2 : eprefix p (e1 ++ e2) = eprefix p e1 ++ eprefix p e2.
Proof. apply map_app. Qed.
Lemma eprefix_eprefix p q e : eprefix p (eprefix q e) = eprefix (p ++ q) e.
Proof. unfold eprefix. rewrite map_map. apply map_ext. intros [? ?]; cbn. now rewrite app_assoc. Qed.
Lemma eprefix_flat_map {A} p (f : A -> list (str * V)) (l : list A) :
  eprefix p (flat_map f l) = flat_map (fun x => eprefix p (f x)) l.
Proof. induction l as [|x l IH]; cbn [flat_map]; [reflexivity|]. rewrite eprefix_app. now f_equal. Qed.

Lemma ents_look h k v : wff h -> (In (k, v) (ents (hitems h)) <-> look h k = Some v).
Proof.
  intros Hw. revert k v. induction Hw as [h Hs Hnd Hk Hsub IH]. intros k v.
  assert (Hw : wff h) by (constructor; auto).
  unfold ents. rewrite in_flat_map. split.
  - intros (n & Hin & He). rewrite nents_eq in He. apply in_app_or in He. destruct He as [He|He].
    + unfold own in He. destruct (ndata n) as [w|] eqn:Ed; [|contradiction].
      destruct He as [He|[]]. inversion He; subst.
      rewrite (look_in h n); auto. now rewrite nlook_self.
    + apply in_eprefix in He. destruct He as (r & -> & Hr).
      apply (IH _ Hin) in Hr. pose proof (Hk _ Hin).
      destruct r as [|c r]; [discriminate|].
      rewrite (look_in h n); auto.
      * now rewrite nlook_below.
      * destruct (nkey n); [congruence|discriminate].
      * unfold head0. destruct (nkey n); [congruence|reflexivity].
  - intros H. apply look_at_path in H; [|exact Hw]. destruct H as (m & Hap & Hd).
    apply at_path_inv in Hap. destruct Hap as (n & Hin & [[-> ->]|(q' & -> & Hq')]); exists n; split; auto; rewrite nents_eq; apply in_or_app.
    + left. unfold own. rewrite Hd. now left.
    + right. apply in_eprefix. exists q'. split; [reflexivity|]. apply (IH _ Hin).
      rewrite (at_path_look _ _ _ (Hsub _ Hin) Hq'). exact Hd.
Qed.

Lemma nents_head n k v : nkey n <> [] -> In (k, v) (nents n) -> char0 k = head0 n /\ k <> [].
Proof.
  intros Hk. rewrite nents_eq. intros H. apply in_app_or in H. destruct H as [H|H].
  - unfold own in H. destruct (ndata n); [|contradiction]. destruct H as [H|[]]. inversion H; subst. auto.
  - apply in_eprefix in H. destruct H as (r & -> & _). unfold head0. destruct (nkey n); [congruence|].
    split; [reflexivity|discriminate].
Qed.

Lemma NoDup_app_intro {A} (l1 l2 : list A) :
  NoDup l1 -> NoDup l2 -> (forall x, In x l1 -> In x l2 -> False) -> NoDup (l1 ++ l2).
Proof.
  induction 1 as [|x l1 Hx Hd IH]; intros H2 Hdis; cbn; [exact H2|].
  constructor.
  - intros Hin. apply in_app_or in Hin. destruct Hin; [contradiction|]. apply (Hdis x); [now left|assumption].
  - apply IH; auto. intros y Hy. apply Hdis. now right.
Qed.

Lemma ents_nodup h : wff h -> NoDup (map fst (ents (hitems h))).
Proof.
  induction 1 as [h Hs Hnd Hk Hsub IH]. revert Hnd Hk Hsub IH.
  generalize (hitems h) as l. induction l as [|n l IHl]; intros Hnd Hk Hsub IH; cbn; [constructor|].
  rewrite map_app. inversion Hnd as [|? ? Hn Hnd']; subst.
  apply NoDup_app_intro.
  - rewrite nents_eq, map_app. apply NoDup_app_intro.
    + unfold own. destruct (ndata n); cbn; repeat constructor; auto.
    + unfold eprefix. rewrite map_map. cbn.
      specialize (IH n (or_introl eq_refl)).
      rewrite <- (map_map fst (fun r => nkey n ++ r)).
      apply FinFun.Injective_map_NoDup; [|exact IH].
      intros x y E. now apply app_inv_head in E.
    + intros x H1 H2. unfold own in H1. destruct (ndata n); [|contradiction].
      destruct H1 as [<-|[]]. apply in_map_iff in H2. destruct H2 as ([k v'] & E & H2).
      cbn in E. subst k. apply in_eprefix in H2. destruct H2 as (r & E & Hr).
      rewrite <- (app_nil_r (nkey n)) in E at 1. apply app_inv_head in E. subst r.
      apply ents_look in Hr; [discriminate|]. apply Hsub. now left.
  - apply IHl; auto; intros; [apply Hk|apply Hsub|apply IH]; now right.
  - intros x H1 H2. apply in_map_iff in H1. destruct H1 as ([k v] & E & H1). cbn in E. subst x.
    apply in_map_iff in H2. destruct H2 as ([k' v'] & E & H2). cbn in E. subst k'.
    apply in_flat_map in H2. destruct H2 as (m & Hm & H2).
    apply nents_head in H1; [|apply Hk; now left]. apply nents_head in H2; [|apply Hk; now right].
    apply Hn. apply in_map_iff. exists m. split; [|exact Hm]. destruct H1, H2. congruence.
Qed.

(** ** keys / values / pairs *)
Definition item_ents (w : @wl_item V) : list (str * V) :=
  let '(k, d, subs) := w in
  (match d with Some v => [(k, v)] | None => [] end) ++ eprefix k (ents (hitems subs)).
Definition item_size (w : @wl_item V) : nat := let '(_, _, subs) := w in S (fsize (hitems subs)).
Definition wl_size (l : list (@wl_item V)) : nat := fold_right (fun w a => item_size w + a) 0 l.

Lemma nsize_eq n : nsize n = S (fsize (hitems (nsubs n))).
Proof. destruct n as [k d [l t]]. reflexivity. Qed.

Lemma wl_insert_items (l : list (@wl_item V)) : forall x w, x <= length (hitems w) ->
  hitems (wl_insert l x w) = firstn x (hitems w) ++ l ++ skipn x (hitems w).
Proof.
  induction l as [|p l IH]; intros x w Hx; cbn [wl_insert].
  - cbn. now rewrite firstn_skipn.
  - assert (E : hitems (hs_insert_at w (Z.of_nat x) p) = firstn x (hitems w) ++ p :: skipn x (hitems w)).
    { unfold hs_insert_at. destruct (Z.eqb_spec (Z.of_nat x) 0) as [E0|E0].
      - assert (x = 0) as -> by lia. reflexivity.
      - destruct (Z.ltb_spec 0 (Z.of_nat x)); [|lia].
        destruct (Z.leb_spec (Z.of_nat x) (Z.of_nat (length (hitems w)))); [|lia].
        cbn [andb hitems]. rewrite Nat2Z.id. reflexivity. }
    rewrite IH.
    2:{ rewrite E, app_length, firstn_length. cbn. lia. }
    rewrite E. cbn [app].
    assert (Hl : length (firstn x (hitems w) ++ [p]) = S x) by (rewrite app_length, firstn_length; cbn; lia).
    replace (firstn x (hitems w) ++ p :: skipn x (hitems w))
      with ((firstn x (hitems w) ++ [p]) ++ skipn x (hitems w)) by (rewrite <- app_assoc; reflexivity).
    rewrite <- Hl, firstn_app_exact, skipn_app_exact, <- app_assoc. reflexivity.
Qed.

Lemma hs_remove_0 {A} (h : hsl A) x r : hitems h = x :: r -> hitems (hs_remove h 0) = r.
Proof. intros E. apply (hs_remove_items h [] x r E). Qed.

Lemma wl_children_ents k l :
  flat_map item_ents (map (wl_child k) l) = eprefix k (ents l).
Proof.
  unfold ents. rewrite eprefix_flat_map. rewrite flat_map_concat_map, map_map, <- flat_map_concat_map.
  apply flat_map_ext. intros n. rewrite nents_eq, eprefix_app, eprefix_eprefix. cbn.
  f_equal. unfold own. destruct (ndata n); reflexivity.
Qed.
Lemma wl_children_size k l : wl_size (map (wl_child k) l) = fsize l.
Proof.
  induction l as [|n l IH]; [reflexivity|].
  change (item_size (wl_child k n) + wl_size (map (wl_child k) l) = nsize n + fsize l).
  rewrite IH, nsize_eq. reflexivity.
Qed.
Lemma wl_size_app (l1 l2 : list (@wl_item V)) : wl_size (l1 ++ l2) = wl_size l1 + wl_size l2.
Proof. induction l1 as [|a l1 IH]; [reflexivity|]. unfold wl_size in *. cbn [app fold_right]. rewrite IH. lia. Qed.

Lemma all_loop_spec fuel : forall w,
  wl_size (hitems w) <= fuel -> all_loop fuel w = Ok (flat_map item_ents (hitems w)).
Proof.
  induction fuel as [|fuel IH]; intros w Hsz.
  - destruct (hitems w) as [|[[k d] s] r] eqn:E; [cbn; now rewrite E|cbn in Hsz; lia].
  - cbn [all_loop]. destruct (hitems w) as [|[[k d] s] r] eqn:E; [reflexivity|].
    change (S (fsize (hitems s)) + wl_size r <= S fuel) in Hsz.
    assert (Ei : hitems (wl_insert (map (wl_child k) (hitems s)) 0 (hs_remove w 0))
                 = map (wl_child k) (hitems s) ++ r).
    { rewrite wl_insert_items by lia. cbn [firstn app skipn]. now rewrite (hs_remove_0 w _ r E). }
    rewrite IH.
    2:{ rewrite Ei, wl_size_app, wl_children_size. lia. }
    cbn [bind]. rewrite Ei, flat_map_app, wl_children_ents. cbn [flat_map item_ents].
    destruct d; cbn; now rewrite ?app_assoc.
Qed.

Lemma rt_pairs_ents (t : rtree) : rt_pairs t = Ok (ents (hitems (troot t))).
Proof.
  unfold rt_pairs.
  destruct (good_append_all (map (wl_child []) (hitems (troot t))) hs_empty good_empty) as (w & -> & Hi & _).
  cbn [bind]. cbn [hs_empty hitems app] in Hi. rewrite all_loop_spec.
  - rewrite Hi, wl_children_ents, eprefix_nil. reflexivity.
  - rewrite Hi, wl_children_size. lia.
Qed.

(** values_walk visits the same values, breadth first. *)
Definition nonleaf n : bool := match hitems (nsubs n) with [] => false | _ => true end.
Definition q_vals (q : list (hsl node)) : list V := flat_map (fun h => map snd (ents (hitems h))) q.
Definition q_size (q : list (hsl node)) : nat := fold_right (fun h a => S (fsize (hitems h)) + a) 0 q.
Lemma q_size_app q1 q2 : q_size (q1 ++ q2) = q_size q1 + q_size q2.
Proof. induction q1 as [|a l1 IH]; [reflexivity|]. unfold q_size in *. cbn [app fold_right]. rewrite IH. lia. Qed.
Lemma q_size_children l : q_size (map nsubs (filter nonleaf l)) <= fsize l.
Proof.
  induction l as [|n l IH]; [cbn; lia|]. cbn [filter].
  change (fsize (n :: l)) with (nsize n + fsize l). rewrite nsize_eq.
  destruct (nonleaf n); [|lia]. cbn [map].
  change (q_size (nsubs n :: map nsubs (filter nonleaf l)))
    with (S (fsize (hitems (nsubs n))) + q_size (map nsubs (filter nonleaf l))). lia.
Qed.
Lemma ents_leaf n : nonleaf n = false -> ents (hitems (nsubs n)) = [].
Proof. unfold nonleaf. destruct (hitems (nsubs n)); [reflexivity|discriminate]. Qed.

Lemma vals_level l :
  Permutation (map snd (ents l))
    (flat_map (fun n => match ndata n with Some v => [v] | None => [] end) l
     ++ q_vals (map nsubs (filter nonleaf l))).
Proof.
  induction l as [|n l IH]; cbn; [constructor|].
  rewrite map_app, nents_eq, map_app. unfold eprefix. rewrite map_map. cbn.
  replace (map snd (own n)) with (match ndata n with Some v => [v] | None => [] end)
    by (unfold own; destruct (ndata n); reflexivity).
  rewrite <- !app_assoc. apply Permutation_app_head.
  destruct (nonleaf n) eqn:E.
  - cbn. eapply Permutation_trans; [apply Permutation_app_head, IH|].
    rewrite !app_assoc. apply Permutation_app_tail.
    unfold q_vals. rewrite (map_ext (fun x : str * V => snd x) snd) by reflexivity.
    apply Permutation_app_comm.
  - rewrite (ents_leaf _ E). cbn. exact IH.
Qed.

Lemma walk_loop_spec fuel : forall q, q_size q <= fuel ->
  exists vs, walk_loop fuel q = Ok vs /\ Permutation vs (q_vals q).
Proof.
  induction fuel as [|fuel IH]; intros q Hq.
  - destruct q as [|h q]; [|cbn in Hq; lia]. exists []. cbn. auto.
  - destruct q as [|h q]; [exists []; cbn; auto|]. cbn [walk_loop].
    destruct (IH (q ++ map nsubs (filter nonleaf (hitems h)))) as (vs & E & Hp).
    { rewrite q_size_app. pose proof (q_size_children (hitems h)).
      change (S (fsize (hitems h)) + q_size q <= S fuel) in Hq. lia. }
    unfold nonleaf in E. rewrite E. cbn [bind]. eexists; split; [reflexivity|].
    cbn [q_vals flat_map]. eapply Permutation_trans; [apply Permutation_app_head, Hp|].
    unfold q_vals at 1. rewrite flat_map_app. fold (q_vals q). fold (q_vals (map nsubs (filter nonleaf (hitems h)))).
    eapply Permutation_trans; [|apply Permutation_app_tail, Permutation_sym, vals_level].
    rewrite <- app_assoc. apply Permutation_app_head, Permutation_app_comm.
Qed.

(** ** Copies *)
Lemma clone_node_eq (cp : V -> V) n :
  clone_node cp n = Node (nkey n) (option_map cp (ndata n)) (clone_sub cp (nsubs n)).
Proof. destruct n as [k d [l t]]. reflexivity. Qed.
Lemma clone_items (cp : V -> V) h : hitems (clone_sub cp h) = map (clone_node cp) (hitems h).
Proof. reflexivity. Qed.
Lemma clone_good (cp : V -> V) h : good (clone_sub cp h).
Proof.
  unfold good, clone_sub; cbn [htail hitems]. rewrite map_length.
  destruct (hitems h); cbn; rewrite ?map_length; reflexivity.
Qed.
Lemma clone_head (cp : V -> V) n : head0 (clone_node cp n) = head0 n.
Proof. rewrite clone_node_eq. reflexivity. Qed.

Lemma clone_wff (cp : V -> V) h : wff h -> wff (clone_sub cp h).
Proof.
  induction 1 as [h Hs Hnd Hk Hsub IH]. constructor.
  - apply good_semi, clone_good.
  - rewrite clone_items, map_map. erewrite map_ext; [exact Hnd|]. apply clone_head.
  - rewrite clone_items. intros m Hm. apply in_map_iff in Hm. destruct Hm as (n & <- & Hn).
    rewrite clone_node_eq. cbn. auto.
  - rewrite clone_items. intros m Hm. apply in_map_iff in Hm. destruct Hm as (n & <- & Hn).
    rewrite clone_node_eq. cbn. auto.
Qed.

Lemma pick_clone (cp : V -> V) c l : pick c (map (clone_node cp) l) = option_map (clone_node cp) (pick c l).
Proof.
  unfold pick. induction l as [|n l IH]; cbn; [reflexivity|].
  rewrite clone_head. destruct (Ascii.eqb (head0 n) c); [reflexivity|exact IH].
Qed.

Lemma clone_look (cp : V -> V) h k : wff h -> look (clone_sub cp h) k = option_map cp (look h k).
Proof.
  intros Hw. revert k. induction Hw as [h Hs Hnd Hk Hsub IH]. intros k.
  assert (Hw : wff h) by (constructor; auto).
  destruct k as [|c k]; [reflexivity|].
  rewrite look_cons by now apply clone_wff. rewrite look_cons by assumption.
  rewrite clone_items, pick_clone. destruct (pick c (hitems h)) as [n|] eqn:Ep; [|reflexivity].
  apply pick_some in Ep. destruct Ep as [Hin _]. cbn [option_map].
  rewrite clone_node_eq. unfold nlook. cbn [nkey ndata nsubs].
  destruct (strip (nkey n) (c :: k)) as [[|a r]|]; try reflexivity. now apply IH.
Qed.

Lemma clone_ents (cp : V -> V) h :
  ents (hitems (clone_sub cp h)) = map (fun kv => (fst kv, cp (snd kv))) (ents (hitems h)).
Proof.
  assert (H : forall n, nents (clone_node cp n) = map (fun kv => (fst kv, cp (snd kv))) (nents n)).
  { intros n. induction n as [k d l t IH] using node_ind'. cbn [clone_node nents hitems].
    rewrite map_app. f_equal; [destruct d; reflexivity|].
    unfold eprefix. rewrite map_map. cbn [fst snd].
    transitivity (map (fun kv => (k ++ fst kv, snd kv)) (map (fun kv : str * V => (fst kv, cp (snd kv))) (flat_map nents l))).
    - f_equal. induction IH as [|m l Hm _ IHl]; cbn; [reflexivity|]. rewrite map_app. congruence.
    - rewrite map_map. reflexivity. }
  rewrite clone_items. unfold ents. induction (hitems h) as [|n l IH]; cbn; [reflexivity|].
  rewrite map_app, H. congruence.
Qed.

(** ** Where new nodes come from *)
Lemma set_sub_paths fuel : forall h k d h' b q m,
  wff h -> length k <= fuel -> set_sub fuel h k d = Ok (h', b) ->
  at_path (hitems h') q m ->
  (exists m0, at_path (hitems h) q m0 /\ ndata m0 = ndata m) \/
  (q = k /\ ndata m = d) \/ (proper_prefix q k).
Proof.
  induction fuel as [|fuel IH]; intros h k d h' b q m Hw Hlen Hset Hap.
  { destruct k; [|cbn in Hlen; lia]. cbn in Hset. inversion Hset; subst. left; eauto. }
  destruct k as [|c k]; [cbn in Hset; inversion Hset; subst; left; eauto|].
  cbn [set_sub] in Hset.
  pose proof (find_child_spec c (hitems h) 0 None) as Hf.
  destruct (find_child c (hitems h) 0 None) as [i n|lz].
  2:{ destruct Hf as [Hf Hlz]. inversion Hset as [[E1 E2]]; clear Hset.
    set (nn := Node (c :: k) d hs_empty) in *.
    assert (Hin : forall x, In x (hitems h') -> In x (hitems h) \/ x = nn).
    { subst h'. destruct lz as [j|]; cbn.
      - unfold list_ins. intros x Hx. apply in_app_or in Hx. destruct Hx as [Hx|[Hx|Hx]]; auto.
        + left. rewrite <- (firstn_skipn (S j) (hitems h)). apply in_or_app. now left.
        + left. rewrite <- (firstn_skipn (S j) (hitems h)). apply in_or_app. now right.
      - intros x [Hx|Hx]; auto. }
    apply at_path_inv in Hap. destruct Hap as (x & Hx & Hc).
    apply Hin in Hx. destruct Hx as [Hx| ->].
    - left. destruct Hc as [[-> ->]|(q' & -> & Hq')]; eexists; (split; [|reflexivity]).
      + now constructor.
      + apply AP_below; eauto.
    - right; left. destruct Hc as [[-> ->]|(q' & -> & Hq')]; [auto|].
      apply at_path_inv in Hq'. destruct Hq' as (? & [] & _). }
  destruct Hf as (l1 & l2 & El & Hi & Hh & Hf). cbn in Hi. subst i.
  assert (Hin : In n (hitems h)) by (rewrite El; apply in_or_app; right; now left).
  assert (Hin1 : forall x, In x l1 -> In x (hitems h)) by (intros; rewrite El; apply in_or_app; now left).
  assert (Hin2 : forall x, In x l2 -> In x (hitems h)) by (intros; rewrite El; apply in_or_app; right; now right).
  pose proof (wff_key _ _ Hw Hin) as Hnk. pose proof (wff_sub _ _ Hw Hin) as Hns.
  (* a node different from the modified one *)
  assert (Hold : forall x, In x (hitems h) -> forall q m,
             (q = nkey x /\ m = x) \/ (exists q', q = nkey x ++ q' /\ at_path (hitems (nsubs x)) q' m) ->
             exists m0, at_path (hitems h) q m0 /\ ndata m0 = ndata m).
  { intros x Hx q0 m0 [[-> ->]|(q' & -> & Hq')]; eexists; (split; [|reflexivity]).
    - now constructor.
    - apply AP_below; eauto. }
  assert (Hupd : forall n', In n (hitems h) ->
             at_path (hitems (hs_update h (length l1) n')) q m ->
             (exists m0, at_path (hitems h) q m0 /\ ndata m0 = ndata m) \/
             ((q = nkey n' /\ m = n') \/ exists q', q = nkey n' ++ q' /\ at_path (hitems (nsubs n')) q' m)).
  { intros n' _ Ha. unfold hs_update in Ha; cbn [hitems] in Ha. rewrite El, list_upd_app in Ha.
    apply at_path_inv in Ha. destruct Ha as (x & Hx & Hc).
    apply in_app_or in Hx. destruct Hx as [Hx|[<-|Hx]].
    - left. now apply (Hold x); auto.
    - right. exact Hc.
    - left. now apply (Hold x); auto. }
  pose proof (scan_keycmp c k (nkey n) Hnk Hh) as Hk.
  inversion Hk as [E He|a r E He|a r E He|p a ra b0 rb Hp0 E E' Hab He]; clear Hk;
    rewrite <- He in Hset; cbv beta iota zeta in Hset.
  - inversion Hset; subst h' b; clear Hset. apply Hupd in Hap; [|exact Hin].
    destruct Hap as [Hap|[[-> ->]|(q' & -> & Hq')]]; [left; exact Hap| |].
    + right; left. cbn. auto.
    + left. cbn in *. exists m. split; [|reflexivity]. now apply AP_below.
  - set (old := Node (skipn (length (c :: k)) (nkey n)) (ndata n) (nsubs n)) in *.
    set (nn := Node (c :: k) d (mkH [old] (TAt 0))) in *.
    apply bind_ok in Hset. destruct Hset as (s & Ha & Hset). inversion Hset; subst h' b; clear Hset.
    assert (Hsub : forall x, In x (hitems s) -> In x (hitems h) \/ x = nn).
    { pose proof (hs_remove_items h l1 n l2 El) as Erem. intros x Hx. unfold hs_append in Ha.
      destruct (htail (hs_remove h (length l1))) as [|j|]; inversion Ha; subst s; cbn [hitems] in Hx.
      - destruct Hx as [<-|[]]; auto.
      - apply in_app_or in Hx. destruct Hx as [Hx|[<-|[]]]; auto.
        left. rewrite Erem in Hx.
        assert (Hx' : In x (l1 ++ l2)).
        { rewrite <- (firstn_skipn (S j) (l1 ++ l2)). apply in_or_app. now left. }
        apply in_app_or in Hx'. destruct Hx'; auto. }
    apply at_path_inv in Hap. destruct Hap as (x & Hx & Hc). apply Hsub in Hx.
    destruct Hx as [Hx| ->]; [left; now apply (Hold x)|].
    destruct Hc as [[-> ->]|(q' & -> & Hq')]; [right; left; auto|].
    left. apply at_path_inv in Hq'. destruct Hq' as (y & [<-|[]] & Hc).
    assert (Hko : (c :: k) ++ nkey old = nkey n).
    { cbn [old nkey]. rewrite E at 1. rewrite skipn_app_exact. now rewrite E. }
    destruct Hc as [[-> ->]|(q'' & -> & Hq'')].
    + exists n. cbn [nn nkey]. rewrite Hko. split; [now constructor|reflexivity].
    + exists m. cbn [nn nkey]. rewrite app_assoc, Hko. split; [|reflexivity]. now apply AP_below.
  - assert (Hskip : skipn (length (nkey n)) (c :: k) = a :: r) by (rewrite E; apply skipn_app_exact).
    rewrite Hskip in Hset. apply bind_ok in Hset. destruct Hset as ([hs b'] & Ha & Hset).
    inversion Hset; subst h' b; clear Hset. apply Hupd in Hap; [|exact Hin].
    destruct Hap as [Hap|[[-> ->]|(q' & -> & Hq')]]; [left; exact Hap| |].
    + left. exists n. cbn [nkey]. split; [now apply AP_here|reflexivity].
    + cbn [nkey nsubs fst] in *. eapply IH in Ha; [|exact Hns| |exact Hq'].
      2:{ apply (f_equal (@length _)) in E. rewrite app_length in E.
          destruct (nkey n); [congruence|]. cbn in *. lia. }
      destruct Ha as [(m0 & Hm0 & Hd)|[[-> Hd]|Hp]].
      * left. exists m0. split; [now apply AP_below|exact Hd].
      * right; left. split; [now rewrite E|exact Hd].
      * right; right. rewrite E. now apply proper_prefix_app.
  - assert (Hsk : skipn (length p) (c :: k) = b0 :: rb) by (rewrite E'; apply skipn_app_exact).
    assert (Hsn : skipn (length p) (nkey n) = a :: ra) by (rewrite E; apply skipn_app_exact).
    assert (Hfn : firstn (length p) (nkey n) = p) by (rewrite E; apply firstn_app_exact).
    rewrite Hsk, Hsn, Hfn in Hset.
    set (old := Node (a :: ra) (ndata n) (nsubs n)) in *.
    set (new := Node (b0 :: rb) d hs_empty) in *.
    destruct (good_append_all (match strcmp (b0 :: rb) (a :: ra) with Gt => [old; new] | _ => [new; old] end)
                hs_empty good_empty) as (ch & Ech & Hch & Hg).
    rewrite Ech in Hset. cbn [bind] in Hset. cbn [hs_empty hitems app] in Hch.
    inversion Hset; subst h' b; clear Hset. apply Hupd in Hap; [|exact Hin].
    destruct Hap as [Hap|[[-> ->]|(q' & -> & Hq')]]; [left; exact Hap| |].
    + right; right. cbn. rewrite E'. now exists b0, rb.
    + cbn [nkey nsubs] in *.
      assert (Hchin : forall x, In x (hitems ch) -> x = old \/ x = new).
      { intros y0. rewrite Hch. destruct (strcmp (b0 :: rb) (a :: ra)); cbn [In]; intros [Hy0|[Hy0|[]]]; auto. }
      apply at_path_inv in Hq'. destruct Hq' as (y & Hy & Hc). apply Hchin in Hy.
      destruct Hy as [->| ->].
      * left. destruct Hc as [[-> ->]|(q'' & -> & Hq'')].
        -- exists n. cbn [old nkey]. rewrite <- E. split; [now constructor|reflexivity].
        -- exists m. cbn [old nkey] in *. rewrite app_assoc, <- E. split; [|reflexivity]. now apply AP_below.
      * right; left. destruct Hc as [[-> ->]|(q'' & -> & Hq'')].
        -- cbn. auto.
        -- apply at_path_inv in Hq''. destruct Hq'' as (? & [] & _).
Qed.

(** ** Invariant that keeps [set] harmless *)
(** Every child list with a NULL tail pointer only contains nodes whose full
    keys are prefixes of keys in [S] (keys are relative to the list). *)
Inductive tn : (str -> Prop) -> hsl node -> Prop :=
| tn_intro (S : str -> Prop) h :
    (htail h = TNull -> forall q m, at_path (hitems h) q m -> exists s, S s /\ prefix q s) ->
    (forall n, In n (hitems h) -> tn (fun r => S (nkey n ++ r)) (nsubs n)) ->
    tn S h.

Lemma tn_mono h : wff h -> forall (S S' : str -> Prop), (forall s, S s -> S' s) -> tn S h -> tn S' h.
Proof.
  induction 1 as [h Hs Hnd Hk Hsub IH]. intros S S' HS Ht. inversion Ht as [S0 h0 H1 H2]; subst.
  constructor.
  - intros E q m Hq. destruct (H1 E q m Hq) as (s & Hss & Hp). eauto.
  - intros n Hn. apply (IH n Hn (fun r => S (nkey n ++ r))); auto.
Qed.

Lemma tn_empty S : tn S hs_empty.
Proof.
  constructor; [|intros n []]. intros _ q m H. apply at_path_inv in H. destruct H as (n & [] & _).
Qed.

Lemma clone_tn (cp : V -> V) S h : wff h -> tn S (clone_sub cp h).
Proof.
  intros Hw. revert S. induction Hw as [h Hs Hnd Hk Hsub IH]. intros S. constructor.
  - intros E q m H. pose proof (clone_good cp h) as Hg. unfold good in Hg. rewrite E in Hg.
    rewrite Hg in H. apply at_path_inv in H. destruct H as (n & [] & _).
  - rewrite clone_items. intros m Hm. apply in_map_iff in Hm. destruct Hm as (n & <- & Hn).
    rewrite clone_node_eq. cbn. auto.
Qed.

Definition addS (S : str -> Prop) k : str -> Prop := fun s => S s \/ s = k.

(** All paths starting with the first character of a child go through it. *)
Lemma at_path_through h n c k m :
  wff h -> In n (hitems h) -> head0 n = c -> at_path (hitems h) (c :: k) m ->
  (c :: k = nkey n /\ m = n) \/ exists q', c :: k = nkey n ++ q' /\ at_path (hitems (nsubs n)) q' m.
Proof.
  intros Hw Hin Hh Hm. apply at_path_inv in Hm. destruct Hm as (x & Hx & Hc).
  assert (Ex : head0 x = c).
  { pose proof (wff_key _ _ Hw Hx) as Hk. unfold head0.
    destruct Hc as [[E _]|(q' & E & _)]; destruct (nkey x); try congruence; cbn in *; congruence. }
  assert (x = n) as ->; [|exact Hc].
  pose proof (pick_in c _ _ (wff_nodup _ Hw) Hx Ex) as P1.
  pose proof (pick_in c _ _ (wff_nodup _ Hw) Hin Hh) as P2. congruence.
Qed.

Lemma set_sub_tn fuel : forall h k d h' b (S : str -> Prop),
  wff h -> length k <= fuel -> k <> [] -> tn S h ->
  ((exists m, at_path (hitems h) k m) \/ forall s, S s -> ~ proper_prefix k s) ->
  set_sub fuel h k d = Ok (h', b) ->
  clob fuel h k = false /\ tn (addS S k) h'.
Proof.
  induction fuel as [|fuel IH]; intros h k d h' b S Hw Hlen Hkne Ht HS Hset.
  { destruct k; [congruence|cbn in Hlen; lia]. }
  destruct k as [|c k]; [congruence|].
  pose proof (set_sub_paths (Datatypes.S fuel) h (c :: k) d h' b) as Hpaths.
  pose proof Hset as Hset0.
  cbn [set_sub clob] in *.
  assert (Hmono : forall n, In n (hitems h) -> tn (fun r => addS S (c :: k) (nkey n ++ r)) (nsubs n)).
  { intros n Hn. inversion Ht as [S0 h0 H1 H2]; subst.
    apply (tn_mono _ (wff_sub _ _ Hw Hn) (fun r => S (nkey n ++ r))); [|auto]. unfold addS; auto. }
  (* the head list of the result, when its tail stayed NULL because it was NULL *)
  assert (Htop : htail h' = TNull -> (htail h = TNull \/ hitems h' = []) ->
             forall q m, at_path (hitems h') q m -> exists s, addS S (c :: k) s /\ prefix q s).
  { intros _ Hor q m Hq.
    destruct (Hpaths q m Hw Hlen Hset0 Hq) as [(m0 & Hm0 & _)|[[-> _]|Hp]].
    - destruct Hor as [Htn|Hnil].
      + inversion Ht as [S0 h0 H1 H2]; subst. destruct (H1 Htn q m0 Hm0) as (s & Hs & Hp).
        exists s. unfold addS. auto.
      + rewrite Hnil in Hq. apply at_path_inv in Hq. destruct Hq as (? & [] & _).
    - exists (c :: k). unfold addS. split; [auto|apply prefix_refl].
    - exists (c :: k). unfold addS. split; [auto|now apply proper_prefix_prefix]. }
  pose proof (find_child_spec c (hitems h) 0 None) as Hf.
  destruct (find_child c (hitems h) 0 None) as [i n|lz].
  2:{ split; [reflexivity|]. destruct Hf as [Hf Hlz]. inversion Hset as [[E1 E2]]; clear Hset.
    set (nn := Node (c :: k) d hs_empty) in *.
    assert (Hin : forall x, In x (hitems h') -> In x (hitems h) \/ x = nn).
    { subst h'. destruct lz as [j|]; cbn.
      - unfold list_ins. intros x Hx. apply in_app_or in Hx. destruct Hx as [Hx|[Hx|Hx]]; auto.
        + left. rewrite <- (firstn_skipn (Datatypes.S j) (hitems h)). apply in_or_app. now left.
        + left. rewrite <- (firstn_skipn (Datatypes.S j) (hitems h)). apply in_or_app. now right.
      - intros x [Hx|Hx]; auto. }
    rewrite E1. constructor.
    - intros E. apply Htop; [exact E|]. left. subst h'. destruct lz as [j|]; unfold hs_insert_after, hs_prepend in E; cbn [htail] in E.
      + destruct (htail h) as [|j'|]; [reflexivity| |discriminate].
        destruct (j' =? j); [discriminate|destruct (j' <? j); discriminate].
      + destruct (htail h); [reflexivity|discriminate|discriminate].
    - intros x Hx. apply Hin in Hx. destruct Hx as [Hx| ->]; [auto|apply tn_empty]. }
  destruct Hf as (l1 & l2 & El & Hi & Hh & Hf). cbn in Hi. subst i.
  assert (Hin : In n (hitems h)) by (rewrite El; apply in_or_app; right; now left).
  pose proof (wff_key _ _ Hw Hin) as Hnk. pose proof (wff_sub _ _ Hw Hin) as Hns.
  assert (Hinu : forall n' x, In x (hitems (hs_update h (length l1) n')) -> In x (hitems h) \/ x = n').
  { intros n' x. unfold hs_update; cbn [hitems]. rewrite El, list_upd_app. intros Hx.
    apply in_app_or in Hx. destruct Hx as [Hx|[<-|Hx]]; auto; left; apply in_or_app; [now left|right; now right]. }
  pose proof (scan_keycmp c k (nkey n) Hnk Hh) as Hk.
  inversion Hk as [E He|a r E He|a r E He|p a ra b0 rb Hp0 E E' Hab He]; clear Hk;
    rewrite <- He in *; cbv beta iota zeta in Hset |- *.
  - split; [reflexivity|]. inversion Hset; subst h' b; clear Hset. constructor.
    + intros E0. apply Htop; auto.
    + intros x Hx. apply Hinu in Hx. destruct Hx as [Hx| ->]; [auto|]. cbn. apply Hmono; auto.
  - (* the key ends inside the node key: the list tail cannot be NULL *)
    assert (Hnn : htail h <> TNull).
    { intros E0. inversion Ht as [S0 h0 H1 H2]; subst S0 h0.
      destruct (H1 E0 (nkey n) n) as (s & Hs & Hp); [now constructor|].
      destruct HS as [(m & Hm)|HS].
      { apply (at_path_through h n c k m Hw Hin Hh) in Hm.
        destruct Hm as [[E2 _]|(q' & E2 & _)]; rewrite E in E2;
          apply (f_equal (@length _)) in E2; rewrite ?app_length in E2; cbn in E2; lia. }
      apply (HS s Hs). eapply proper_prefix_trans; [|exact Hp]. rewrite E. now exists a, r. }
    split; [destruct (htail h); [congruence|reflexivity|reflexivity]|].
    set (old := Node (skipn (length (c :: k)) (nkey n)) (ndata n) (nsubs n)) in *.
    set (nn := Node (c :: k) d (mkH [old] (TAt 0))) in *.
    apply bind_ok in Hset. destruct Hset as (s & Ha & Hset). inversion Hset; subst h' b; clear Hset.
    assert (Hsub : forall x, In x (hitems s) -> In x (hitems h) \/ x = nn).
    { pose proof (hs_remove_items h l1 n l2 El) as Erem. intros x Hx. unfold hs_append in Ha.
      destruct (htail (hs_remove h (length l1))) as [|j|]; inversion Ha; subst s; cbn [hitems] in Hx.
      - destruct Hx as [<-|[]]; auto.
      - apply in_app_or in Hx. destruct Hx as [Hx|[<-|[]]]; auto.
        left. rewrite Erem in Hx.
        assert (Hx' : In x (l1 ++ l2)).
        { rewrite <- (firstn_skipn (Datatypes.S j) (l1 ++ l2)). apply in_or_app. now left. }
        rewrite El. apply in_or_app. apply in_app_or in Hx'. cbn. tauto. }
    assert (Hst : htail s <> TNull).
    { unfold hs_append in Ha. destruct (htail (hs_remove h (length l1))); inversion Ha; subst s; discriminate. }
    constructor; [intros E0; contradiction|].
    intros x Hx. apply Hsub in Hx. destruct Hx as [Hx| ->]; [auto|].
    cbn [nn nkey nsubs]. constructor; cbn [htail hitems]; [discriminate|].
    intros y [<-|[]]. cbn [old nsubs nkey].
    pose proof (Hmono n Hin) as Hm.
    assert (Hko : (c :: k) ++ skipn (length (c :: k)) (nkey n) = nkey n).
    { rewrite E at 1. rewrite skipn_app_exact. now rewrite E. }
    eapply tn_mono; [exact Hns| |exact Hm]. intros s0 Hs0. cbn beta in *.
    rewrite app_assoc, Hko. exact Hs0.
  - assert (Hskip : skipn (length (nkey n)) (c :: k) = a :: r) by (rewrite E; apply skipn_app_exact).
    rewrite Hskip in *. apply bind_ok in Hset. destruct Hset as ([hs b'] & Ha & Hset).
    inversion Hset; subst h' b; clear Hset. cbn [fst snd] in *.
    inversion Ht as [S0 h0 H1 H2]; subst S0 h0.
    destruct (IH (nsubs n) (a :: r) d hs b' (fun r => S (nkey n ++ r)) Hns) as [Hc Hts]; auto; try discriminate.
    { apply (f_equal (@length _)) in E. rewrite app_length in E.
      destruct (nkey n); [congruence|]. cbn in *. lia. }
    { destruct HS as [(m & Hm)|HS].
      - left. exists m. apply (at_path_through h n c k m Hw Hin Hh) in Hm.
        destruct Hm as [[E2 _]|(q' & E2 & Hq)]; rewrite E in E2.
        + apply (f_equal (@length _)) in E2; rewrite ?app_length in E2; cbn in E2; lia.
        + apply app_inv_head in E2. now subst q'.
      - right. intros s Hs Hp. apply (HS _ Hs). rewrite E. now apply proper_prefix_app. }
    split; [exact Hc|]. constructor.
    + intros E0. apply Htop; auto.
    + intros x Hx. apply Hinu in Hx. destruct Hx as [Hx| ->]; [auto|]. cbn [nkey nsubs].
      assert (Hw2 : wff hs).
      { destruct (set_sub_spec fuel (nsubs n) (a :: r) d Hns) as (hs' & b2 & Es & Hws & _).
        - apply (f_equal (@length _)) in E. rewrite app_length in E.
          destruct (nkey n); [congruence|]. cbn in *. lia.
        - rewrite Es in Ha. inversion Ha; subst. exact Hws. }
      eapply tn_mono; [exact Hw2| |exact Hts]. intros s Hs. unfold addS in *.
      destruct Hs as [Hs| ->]; [left; exact Hs|right; now rewrite E].
  - split; [reflexivity|].
    assert (Hsk : skipn (length p) (c :: k) = b0 :: rb) by (rewrite E'; apply skipn_app_exact).
    assert (Hsn : skipn (length p) (nkey n) = a :: ra) by (rewrite E; apply skipn_app_exact).
    assert (Hfn : firstn (length p) (nkey n) = p) by (rewrite E; apply firstn_app_exact).
    rewrite Hsk, Hsn, Hfn in Hset.
    set (old := Node (a :: ra) (ndata n) (nsubs n)) in *.
    set (new := Node (b0 :: rb) d hs_empty) in *.
    destruct (good_append_all (match strcmp (b0 :: rb) (a :: ra) with Gt => [old; new] | _ => [new; old] end)
                hs_empty good_empty) as (ch & Ech & Hch & Hg).
    rewrite Ech in Hset. cbn [bind] in Hset. cbn [hs_empty hitems app] in Hch.
    inversion Hset; subst h' b; clear Hset. constructor.
    + intros E0. apply Htop; auto.
    + intros x Hx. apply Hinu in Hx. destruct Hx as [Hx| ->]; [auto|]. cbn [nkey nsubs].
      assert (Hchin : forall x, In x (hitems ch) -> x = old \/ x = new).
      { intros y0. rewrite Hch. destruct (strcmp (b0 :: rb) (a :: ra)); cbn [In]; intros [Hy0|[Hy0|[]]]; auto. }
      constructor.
      * intros E0. unfold good in Hg. rewrite E0 in Hg. rewrite Hg in Hch.
        destruct (strcmp (b0 :: rb) (a :: ra)); discriminate.
      * intros y Hy. apply Hchin in Hy. destruct Hy as [->| ->]; [|apply tn_empty].
        cbn [old nsubs nkey]. pose proof (Hmono n Hin) as Hm.
        eapply tn_mono; [exact Hns| |exact Hm]. intros s0 Hs0. cbn beta in *.
        rewrite app_assoc, <- E. exact Hs0.
Qed.

(** Whether a new node was created. *)
Lemma set_sub_flag fuel : forall h k d h' b,
  wff h -> length k <= fuel -> k <> [] -> set_sub fuel h k d = Ok (h', b) ->
  if b then forall m, ~ at_path (hitems h) k m else exists m, at_path (hitems h) k m.
Proof.
  induction fuel as [|fuel IH]; intros h k d h' b Hw Hlen Hkne Hset.
  { destruct k; [congruence|cbn in Hlen; lia]. }
  destruct k as [|c k]; [congruence|]. cbn [set_sub] in Hset.
  assert (Hnot : forall x q m, In x (hitems h) -> head0 x <> c ->
     ((c :: k = nkey x /\ m = x) \/ exists q', c :: k = nkey x ++ q' /\ at_path (hitems (nsubs x)) q' m) -> q = c :: k -> False).
  { intros x q m Hx Hne Hc _. pose proof (wff_key _ _ Hw Hx) as Hk. unfold head0 in Hne.
    destruct Hc as [[E _]|(q' & E & _)]; destruct (nkey x); try congruence; cbn in *; congruence. }
  pose proof (find_child_spec c (hitems h) 0 None) as Hf.
  destruct (find_child c (hitems h) 0 None) as [i n|lz].
  2:{ destruct Hf as [Hf _]. inversion Hset; subst. intros m Hm. apply at_path_inv in Hm.
    destruct Hm as (x & Hx & Hc). rewrite Forall_forall in Hf. eapply Hnot; eauto. }
  destruct Hf as (l1 & l2 & El & Hi & Hh & Hf). cbn in Hi. subst i.
  assert (Hin : In n (hitems h)) by (rewrite El; apply in_or_app; right; now left).
  pose proof (wff_key _ _ Hw Hin) as Hnk. pose proof (wff_sub _ _ Hw Hin) as Hns.
  assert (Honly : forall m, at_path (hitems h) (c :: k) m ->
     (c :: k = nkey n /\ m = n) \/ exists q', c :: k = nkey n ++ q' /\ at_path (hitems (nsubs n)) q' m).
  { intros m Hm. apply at_path_inv in Hm. destruct Hm as (x & Hx & Hc).
    destruct (ascii_dec (head0 x) c) as [Ex|Ex]; [|exfalso; eapply Hnot; eauto].
    assert (x = n) as ->; [|exact Hc].
    pose proof (pick_in c _ _ (wff_nodup _ Hw) Hx Ex) as P1.
    pose proof (pick_in c _ _ (wff_nodup _ Hw) Hin Hh) as P2. congruence. }
  pose proof (scan_keycmp c k (nkey n) Hnk Hh) as Hk.
  inversion Hk as [E He|a r E He|a r E He|p a ra b0 rb Hp0 E E' Hab He]; clear Hk;
    rewrite <- He in *; cbv beta iota zeta in Hset |- *.
  - inversion Hset; subst. exists n. rewrite E. now constructor.
  - apply bind_ok in Hset. destruct Hset as (s & _ & Hset). inversion Hset; subst h' b.
    intros m Hm. apply Honly in Hm. destruct Hm as [[E2 _]|(q' & E2 & _)]; rewrite E in E2;
      apply (f_equal (@length _)) in E2; rewrite ?app_length in E2; cbn in E2; lia.
  - assert (Hskip : skipn (length (nkey n)) (c :: k) = a :: r) by (rewrite E; apply skipn_app_exact).
    rewrite Hskip in *. apply bind_ok in Hset. destruct Hset as ([hs b'] & Ha & Hset).
    inversion Hset; subst h' b; clear Hset. cbn [fst snd] in *.
    apply IH in Ha; [|exact Hns| |discriminate].
    2:{ apply (f_equal (@length _)) in E. rewrite app_length in E.
        destruct (nkey n); [congruence|]. cbn in *. lia. }
    destruct b'.
    + intros m Hm. apply Honly in Hm. destruct Hm as [[E2 _]|(q' & E2 & Hq)].
      * rewrite E in E2. apply (f_equal (@length _)) in E2. rewrite ?app_length in E2; cbn in E2; lia.
      * rewrite E in E2. apply app_inv_head in E2. subst q'. now apply (Ha m).
    + destruct Ha as (m & Hm). exists m. rewrite E. now apply AP_below.
  - apply bind_ok in Hset. destruct Hset as (s & _ & Hset). inversion Hset; subst h' b.
    intros m Hm. apply Honly in Hm.
    assert (Hpre : prefix (nkey n) (c :: k)).
    { destruct Hm as [[E2 _]|(q' & E2 & _)]; rewrite E2; [apply prefix_refl|now exists q']. }
    destruct Hpre as (q & Hq). rewrite E, E' in Hq. rewrite <- app_assoc in Hq.
    apply app_inv_head in Hq. cbn in Hq. congruence.
Qed.

End Facts.
