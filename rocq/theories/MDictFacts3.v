(** Listings, clones and unions of the plain multi-dictionary; programs without
    forks; the object multi-dictionary as a table. *)
From Coq Require Import Permutation.
From Verif Require Import CStr CStrFacts HSListModel HSListFacts SetModel RTreeModel RTreeFacts RTreeFacts2 RTreeFacts3 RTreeFacts4
  MRTreeModel MRTreeFacts MRTreeFacts2 SpecA MDictModel MDictFacts MDictSpec MDictFacts2.

Section P.
Context {V : Type}.
Notation mlist := (list (mval V)).
Notation pnode := (node (option mlist)).
Notation ptable := (list (str * option mlist)).
Implicit Types (h : hsl pnode) (tb : ptable) (k q : str) (v : V) (d : option mlist) (t : pdict V).

(** ** Listings *)
Definition opened tb : bool := forallb (fun e => match snd e with Some _ => true | None => false end) tb.
Definition shown tb : list (str * mlist) := flat_map (fun e => match snd e with Some (x :: l) => [(fst e, x :: l)] | _ => [] end) tb.
Definition lists tb : mlist := flat_map (fun e => match snd e with Some l => l | None => [] end) tb.
Lemma opened_app a b : opened (a ++ b) = opened a && opened b.
Proof. apply forallb_app. Qed.
Lemma shown_app a b : shown (a ++ b) = shown a ++ shown b.
Proof. apply flat_map_app. Qed.
Lemma lists_app a b : lists (a ++ b) = lists a ++ lists b.
Proof. apply flat_map_app. Qed.
Lemma opened_perm a b : Permutation a b -> opened a = opened b.
Proof. unfold opened. induction 1 as [|x l l' _ IH|x y l|l l' l'' _ IH1 _ IH2]; cbn; [reflexivity|now rewrite IH|destruct (snd x), (snd y); reflexivity|congruence]. Qed.

Lemma level_cons pre dp (n : pnode) l : level pre dp (n :: l) = match ndata n with Some v => [(pre ++ nkey n, v, dp)] | None => [] end ++ level pre dp l.
Proof. reflexivity. Qed.
Lemma pkeys_level_eq pre dp (l : list pnode) : (forall n, In n l -> ndata n <> None) ->
  pkeys_level pre l = if opened (strip_d (level pre dp l)) then Ok (shown (strip_d (level pre dp l))) else UB.
Proof.
  induction l as [|n l IH]; intros H; [reflexivity|]. cbn [pkeys_level]. rewrite level_cons. unfold pdata. pose proof (H n (or_introl eq_refl)) as Hn. destruct (ndata n) as [d|]; [|congruence].
  rewrite IH by (intros m Hm; apply H; now right). destruct d as [x|]; [|reflexivity]. unfold strip_d. cbn [map app fst]. fold (strip_d (level pre dp l)).
  change (opened ((pre ++ nkey n, Some x) :: strip_d (level pre dp l))) with (opened (strip_d (level pre dp l))).
  destruct (opened (strip_d (level pre dp l))); [|reflexivity]. cbn [bind]. now destruct x.
Qed.
Lemma plevel_eq pre dp (l : list pnode) : (forall n, In n l -> ndata n <> None) ->
  plevel l = if opened (strip_d (level pre dp l)) then Ok (lists (strip_d (level pre dp l))) else UB.
Proof.
  induction l as [|n l IH]; intros H; [reflexivity|]. cbn [plevel]. rewrite level_cons. unfold pdata. pose proof (H n (or_introl eq_refl)) as Hn. destruct (ndata n) as [d|]; [|congruence].
  rewrite IH by (intros m Hm; apply H; now right). destruct d as [x|]; [|reflexivity]. unfold strip_d. cbn [map app fst]. fold (strip_d (level pre dp l)).
  change (opened ((pre ++ nkey n, Some x) :: strip_d (level pre dp l))) with (opened (strip_d (level pre dp l))).
  destruct (opened (strip_d (level pre dp l))); reflexivity.
Qed.
Lemma strip_d_app (a b : list (str * option mlist * nat)) : strip_d (a ++ b) = strip_d a ++ strip_d b.
Proof. apply map_app. Qed.
Definition qfull (q : list (hsl pnode * str * nat)) : Prop := forall x, In x q -> gfull (fst (fst x)).
Lemma qfull_next h (pre : str) (dp : nat) (q : list (hsl pnode * str * nat)) : qfull ((h, pre, dp) :: q) -> qfull (q ++ map (fun n => (nsubs n, pre ++ nkey n, S dp)) (filter nonleaf (hitems h))).
Proof.
  intros H x Hx. apply in_app_or in Hx. destruct Hx as [Hx|Hx]; [apply H; now right|]. apply in_map_iff in Hx. destruct Hx as (n & <- & Hn). apply filter_In in Hn.
  apply (gfull_sub h); [exact (H _ (or_introl eq_refl))|apply Hn].
Qed.
Lemma pkeys_loop_bfs fuel : forall (q : list (hsl pnode * str * nat)), qfull q -> bq_size q <= fuel ->
  pkeys_loop fuel (map fst q) = if opened (strip_d (bfs fuel q)) then Ok (shown (strip_d (bfs fuel q))) else UB.
Proof.
  induction fuel as [|fuel IH]; intros q Hf Hq; (destruct q as [|[[h pre] dp] q]; [reflexivity|]); [cbn in Hq; lia|].
  change (S (fsize (hitems h)) + bq_size q <= S fuel) in Hq. cbn [map fst pkeys_loop bfs]. rewrite (pkeys_level_eq pre dp) by (intros n Hn; apply (gfull_data h); [exact (Hf _ (or_introl eq_refl))|exact Hn]).
  rewrite !strip_d_app, opened_app, shown_app. destruct (opened (strip_d (level pre dp (hitems h)))); cbn [andb bind]; [|reflexivity].
  assert (E : map fst q ++ map (fun n => (nsubs n, pre ++ nkey n)) (filter (fun n : pnode => match hitems (nsubs n) with [] => false | _ => true end) (hitems h))
    = map fst (q ++ map (fun n => (nsubs n, pre ++ nkey n, S dp)) (filter nonleaf (hitems h)))) by (rewrite map_app, map_map; reflexivity).
  rewrite E, IH; [|now apply qfull_next|rewrite bq_size_app; pose proof (bq_size_children pre dp (hitems h)); lia].
  destruct (opened (strip_d (bfs fuel _))); reflexivity.
Qed.
Lemma pwalk_loop_bfs fuel : forall (q : list (hsl pnode * str * nat)), qfull q -> bq_size q <= fuel ->
  pwalk_loop fuel (map (fun x => fst (fst x)) q) = if opened (strip_d (bfs fuel q)) then Ok (lists (strip_d (bfs fuel q))) else UB.
Proof.
  induction fuel as [|fuel IH]; intros q Hf Hq; (destruct q as [|[[h pre] dp] q]; [reflexivity|]); [cbn in Hq; lia|].
  change (S (fsize (hitems h)) + bq_size q <= S fuel) in Hq. cbn [map fst pwalk_loop bfs]. rewrite (plevel_eq pre dp) by (intros n Hn; apply (gfull_data h); [exact (Hf _ (or_introl eq_refl))|exact Hn]).
  rewrite !strip_d_app, opened_app, lists_app. destruct (opened (strip_d (level pre dp (hitems h)))); cbn [andb bind]; [|reflexivity].
  assert (E : map (fun x => fst (fst x)) q ++ map nsubs (filter (fun n : pnode => match hitems (nsubs n) with [] => false | _ => true end) (hitems h))
    = map (fun x => fst (fst x)) (q ++ map (fun n => (nsubs n, pre ++ nkey n, S dp)) (filter nonleaf (hitems h)))) by (rewrite map_app, map_map; reflexivity).
  rewrite E, IH; [|now apply qfull_next|rewrite bq_size_app; pose proof (bq_size_children pre dp (hitems h)); lia].
  destruct (opened (strip_d (bfs fuel _))); reflexivity.
Qed.

(** ** Unions *)
Definition pairs_of tb : list (str * V) := flat_map (fun e => map (fun v => (fst e, v)) (oflat (snd e))) tb.
Definition t_sets tb (kvs : list (str * V)) : ptable := fold_left (fun tb kv => t_set tb (fst kv) (snd kv)) kvs tb.
Lemma t_sets_app tb a b : t_sets tb (a ++ b) = t_sets (t_sets tb a) b.
Proof. apply fold_left_app. Qed.
Lemma pset_all_shows ctor k (l : mlist) : forall h tb, shows h tb ->
  if forallb is_plain l then exists h', pset_all ctor h k l = Ok h' /\ shows h' (t_sets tb (map (fun v => (k, ctor v)) (mflat l)))
  else pset_all ctor h k l = UB.
Proof.
  induction l as [|[v|x] l IH]; intros h tb H; cbn [forallb is_plain andb pset_all]; [exists h; split; auto| |reflexivity].
  destruct (pset_shows h tb k (ctor v) H) as (h1 & E1 & H1). rewrite E1. cbn [bind]. exact (IH h1 (t_set tb k (ctor v)) H1).
Qed.
Lemma punite_shows ctor es : forall h tb, shows h tb -> opened es = true ->
  if forallb (fun e => plain_d (snd e)) es then exists h', punite ctor h (shown es) = Ok h' /\ shows h' (t_sets tb (map (fun kv => (fst kv, ctor (snd kv))) (pairs_of es)))
  else punite ctor h (shown es) = UB.
Proof.
  induction es as [|[k [l|]] es IH]; intros h tb H Ho; [exists h; split; auto| |discriminate]. change (opened es = true) in Ho. cbn [forallb plain_d snd].
  assert (E : punite ctor h (shown ((k, Some l) :: es)) = (h' <- pset_all ctor h k l ;; punite ctor h' (shown es))) by (destruct l; reflexivity). rewrite E.
  pose proof (pset_all_shows ctor k l h tb H) as Hs. destruct (forallb is_plain l); cbn [andb]; [|now rewrite Hs].
  destruct Hs as (h1 & -> & H1). cbn [bind]. specialize (IH h1 _ H1 Ho). destruct (forallb (fun e => plain_d (snd e)) es); [|exact IH].
  destruct IH as (h2 & E2 & H2). exists h2. split; [exact E2|]. unfold pairs_of. cbn [flat_map fst snd oflat]. rewrite map_app, map_map. cbn [fst snd]. rewrite t_sets_app. exact H2.
Qed.

Lemma listing t s : pshows t s -> ts_dead s = false ->
  exists es, Permutation es (ts_tab s) /\
    p_entries t = (if opened (ts_tab s) then Ok (shown es) else UB) /\
    p_walk t = (if opened (ts_tab s) then Ok (lists es) else UB) /\
    forall ctor t1 s1, pshows t1 s1 -> ts_dead s1 = false ->
      if opened (ts_tab s) && forallb (fun e => plain_d (snd e)) (ts_tab s)
      then exists t', p_unite ctor t1 t = Ok t' /\ pshows t' (mkTS (t_sets (ts_tab s1) (map (fun kv => (fst kv, ctor (snd kv))) (pairs_of es))) false)
      else p_unite ctor t1 t = UB.
Proof.
  intros (Hs & Hd) Hdead. rewrite Hdead in Hd. set (fuel := S (fsize (hitems (p_root t)))). set (q := [(p_root t, [] : str, 0)]).
  assert (Hq : bq_size q <= fuel) by (unfold q, fuel; cbn; lia). assert (Hf : qfull q) by (intros x [<-|[]]; apply Hs).
  set (es := strip_d (bfs fuel q)). exists es.
  assert (Hp : Permutation es (ts_tab s)).
  { eapply Permutation_trans; [apply bfs_ents, Hq|]. unfold bq_ents, q. cbn [flat_map fst snd]. rewrite app_nil_r, eprefix_nil. apply shows_ents, Hs. }
  assert (Ee : p_entries t = if opened (ts_tab s) then Ok (shown es) else UB).
  { unfold p_entries. rewrite Hd. rewrite <- (opened_perm _ _ Hp). exact (pkeys_loop_bfs fuel q Hf Hq). }
  split; [exact Hp|]. split; [exact Ee|]. split.
  - unfold p_walk. rewrite Hd. rewrite <- (opened_perm _ _ Hp). exact (pwalk_loop_bfs fuel q Hf Hq).
  - intros ctor t1 s1 (H1 & Hd1) Hdead1. unfold p_unite. rewrite Hd1, Hdead1, Ee. destruct (opened (ts_tab s)) eqn:Eo; cbn [andb bind]; [|reflexivity].
    assert (Epl : forallb (fun e => plain_d (snd e)) (ts_tab s) = forallb (fun e => plain_d (snd e)) es).
    { clear - Hp. induction Hp as [|x l l' _ IH|x y l|l l' l'' _ IH1 _ IH2]; cbn; [reflexivity|now rewrite IH|destruct (plain_d (snd x)), (plain_d (snd y)); reflexivity|congruence]. }
    pose proof (punite_shows ctor es (p_root t1) (ts_tab s1) H1) as Hu. rewrite (opened_perm _ _ Hp), Eo in Hu. specialize (Hu eq_refl). rewrite Epl. destruct (forallb (fun e => plain_d (snd e)) es).
    + destruct Hu as (h' & -> & H'). cbn [bind]. eexists. split; [reflexivity|]. split; [exact H'|reflexivity].
    + now rewrite Hu.
Qed.

(** ** Clones *)
Definition cloneable (cl : option (V -> V)) d : bool :=
  match d with Some [] => true | Some l => forallb is_plain l && match cl with Some _ => true | None => false end | None => false end.
Definition cval (cl : option (V -> V)) (x : mval V) : mval V := match cl, x with Some f, MV v => MV (f v) | _, _ => x end.
Definition pcp (cl : option (V -> V)) d : option mlist := option_map (map (cval cl)) d.
Lemma pclone_data_eq cl d : pclone_data cl d = if cloneable cl d then Ok (pcp cl d) else UB.
Proof.
  destruct d as [l|]; [|reflexivity]. cbn [pclone_data cloneable pcp option_map]. rewrite values_plain. destruct l as [|x l]; [reflexivity|].
  destruct (forallb is_plain (x :: l)) eqn:Ep; cbn [andb]; [|now destruct cl].
  assert (G : forall f, map (fun v => MV (f v)) (mflat (x :: l)) = map (cval (Some f)) (x :: l)).
  { intros f. generalize (x :: l) Ep. clear. induction l as [|[v|y] l IH]; cbn; [reflexivity| |discriminate]. intros Hp. f_equal. now apply IH. }
  destruct x as [v|y]; [|discriminate]. destruct cl as [f|]; [|reflexivity]. now rewrite <- (G f).
Qed.
Lemma pclone_node_eq cl (n : pnode) : pclone_node cl n =
  (d' <- pclone_data cl (pdata n) ;; l' <- pclone_list cl (hitems (nsubs n)) ;; Ok (Node (nkey n) (Some d') (mkH l' (match l' with [] => TNull | _ => TAt (length l' - 1) end)))).
Proof.
  destruct n as [k d [l tl]]. unfold pdata. cbn [pclone_node ndata hitems nsubs nkey]. destruct (pclone_data cl (match d with Some d => d | None => None end)); cbn [bind]; auto.
  match goal with |- (b <- ?f l ;; _) = _ => assert (G : forall l, f l = pclone_list cl l) by (clear; induction l as [|n l IH]; cbn; [reflexivity|now rewrite IH]) end.
  now rewrite G.
Qed.
Lemma tail_of {A} (l : list A) : match l with [] => TNull | _ => TAt (length l - 1) end = match length l with O => TNull | S m => TAt m end.
Proof. destruct l as [|x l]; [reflexivity|]. cbn. now rewrite Nat.sub_0_r. Qed.
Lemma eprefix_snd p (e : list (str * option mlist)) : map snd (eprefix p e) = map snd e.
Proof. unfold eprefix. rewrite map_map. reflexivity. Qed.
Lemma pclone_list_eq cl h : gfull h ->
  pclone_list cl (hitems h) = if forallb (cloneable cl) (map snd (ents (hitems h))) then Ok (map (clone_node (pcp cl)) (hitems h)) else UB.
Proof.
  induction 1 as [h Hd Hs IH]. induction (hitems h) as [|n l IHl]; [reflexivity|]. cbn [pclone_list]. rewrite pclone_node_eq, pclone_data_eq.
  rewrite IH by now left. rewrite IHl; [|intros m Hm; apply Hd; now right|intros m Hm; apply Hs; now right|intros m Hm; apply IH; now right].
  change (ents (n :: l)) with (nents n ++ ents l). rewrite nents_eq, !map_app, !forallb_app. unfold own, pdata. specialize (Hd n (or_introl eq_refl)). destruct (ndata n) as [d|] eqn:En; [|congruence].
  rewrite eprefix_snd. cbn [map snd forallb]. rewrite Bool.andb_true_r. destruct (cloneable cl d); cbn [andb bind]; [|reflexivity].
  destruct (forallb (cloneable cl) (map snd (ents (hitems (nsubs n))))); cbn [andb bind]; [|reflexivity].
  destruct (forallb (cloneable cl) (map snd (ents l))); cbn [bind]; [|reflexivity]. cbn [map]. rewrite clone_node_eq, En. unfold clone_sub. rewrite tail_of. reflexivity.
Qed.
Lemma clone_gfull (cp : option mlist -> option mlist) h : gfull h -> gfull (clone_sub cp h).
Proof.
  induction 1 as [h Hd Hs IH]. constructor; intros n Hn; rewrite clone_items in Hn; apply in_map_iff in Hn; destruct Hn as (m & <- & Hm); rewrite clone_node_eq; cbn [ndata nsubs].
  - specialize (Hd m Hm). destruct (ndata m); [discriminate|congruence].
  - now apply IH.
Qed.
Lemma p_clone_shows cl t s : pshows t s -> ts_dead s = false ->
  if forallb (cloneable cl) (map snd (ts_tab s))
  then exists t', p_clone cl t = Ok t' /\ pshows t' (mkTS (map (fun e => (fst e, pcp cl (snd e))) (ts_tab s)) false)
  else p_clone cl t = UB.
Proof.
  intros (Hs & Hd) Hdead. unfold p_clone. rewrite Hd, Hdead. pose proof (shows_ents _ _ Hs) as Hp. destruct Hs as ((Hw & Ht & Hf) & Hnd & Hl). rewrite pclone_list_eq by exact Hf.
  assert (E : forallb (cloneable cl) (map snd (ents (hitems (p_root t)))) = forallb (cloneable cl) (map snd (ts_tab s))).
  { apply (Permutation_map snd) in Hp. clear - Hp. induction Hp as [|x l l' _ IH|x y l|l l' l'' _ IH1 _ IH2]; cbn; [reflexivity|now rewrite IH|destruct (cloneable cl x), (cloneable cl y); reflexivity|congruence]. }
  rewrite E. destruct (forallb (cloneable cl) (map snd (ts_tab s))); [|reflexivity]. cbn [bind]. eexists. split; [reflexivity|]. split; [|reflexivity]. cbn [p_root ts_tab]. rewrite tail_of.
  change (shows (clone_sub (pcp cl) (p_root t)) (map (fun e => (fst e, pcp cl (snd e))) (ts_tab s))). split; [split; [now apply clone_wff|split; [now apply clone_tight|now apply clone_gfull]]|]. split.
  - rewrite map_map. cbn [fst]. exact Hnd.
  - intros q. rewrite clone_look by exact Hw. rewrite Hl. unfold tget. clear. induction (ts_tab s) as [|[x e] tb IH]; [reflexivity|]. cbn. destruct (streq x q); [reflexivity|exact IH].
Qed.
End P.
