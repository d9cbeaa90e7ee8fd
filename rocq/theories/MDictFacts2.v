(** The plain multi-dictionary as a table of paths: programs, release, listings,
    clones and unions. *)
From Coq Require Import Permutation.
From Verif Require Import CStr CStrFacts HSListModel HSListFacts RTreeModel RTreeFacts RTreeFacts2 RTreeFacts3 RTreeFacts4
  MRTreeModel MRTreeFacts MDictModel MDictFacts MDictSpec.

Section P.
Context {V : Type}.
Notation mlist := (list (mval V)).
Notation pnode := (node (option mlist)).
Notation ptable := (list (str * option mlist)).
Implicit Types (h : hsl pnode) (tb : ptable) (k q : str) (v : V) (d : option mlist) (t : pdict V).

(** ** The machine on tables *)
(** A list is [Some l]; [None] is a path without a list. *)
Definition is_plain (x : mval V) : bool := match x with MV _ => true | MNest _ => false end.
Definition plain_d d : bool := match d with Some l => forallb is_plain l | None => true end.
Definition t_set tb k v : ptable :=
  tset (fun d => match d with Some l => Some (l ++ [MV v]) | None => None end)
       (fun d => match d with Some l => Some [MNest l] | None => Some [] end) (Some [MV v]) None tb k.
(** Giving lists to the destructor, if there is one. *)
Definition t_release (dtor : bool) (ds : list (option mlist)) : res (list V) :=
  if dtor then if forallb plain_d ds then Ok (flat_map oflat ds) else UB else Ok [].
Definition t_unset (dtor : bool) tb k : res (ptable * list V) :=
  tunset (fun d => t_release dtor [d]) [] (fun d => match d with Some _ => Some [] | None => None end) tb k.
Definition t_get tb k : option mlist := match tget tb k with Some d => d | None => None end.

Record tstate := mkTS { ts_tab : ptable; ts_dead : bool }.
Definition ts_new : tstate := mkTS [] false.
(** What an operation returns and gives to the destructor, and the values that
    are neither in the table afterwards nor were given to the destructor. *)
Definition t_step (dtor : bool) (ctor : V -> V) (s : tstate) (o : pop V) : res (tstate * peffect V * list V) :=
  match o with
  | PSet [] v => Ok (s, mkPE None [], [ctor v])
  | PGet [] => Ok (s, mkPE None [], [])
  | PUnset [] => Ok (s, mkPE None [], [])
  | PSet k v =>
      if ts_dead s then UB
      else Ok (mkTS (t_set (ts_tab s) k (ctor v)) false, mkPE None [],
               match tget (ts_tab s) k with Some None => [ctor v] | _ => [] end)
  | PGet k => if ts_dead s then UB else Ok (s, mkPE (t_get (ts_tab s) k) [], [])
  | PUnset k =>
      if ts_dead s then UB
      else r <- t_unset dtor (ts_tab s) k ;;
           Ok (mkTS (fst r) false, mkPE None (snd r), if dtor then [] else oflat (t_get (ts_tab s) k))
  | PClear =>
      if ts_dead s then UB
      else ev <- t_release dtor (map snd (ts_tab s)) ;;
           Ok (mkTS (ts_tab s) (match ts_tab s with [] => false | _ => true end), mkPE None ev,
               if dtor then [] else flat_map oflat (map snd (ts_tab s)))
  end.
Fixpoint t_run (dtor : bool) (ctor : V -> V) (s : tstate) (os : list (pop V)) : res (tstate * list (peffect V) * list V) :=
  match os with
  | [] => Ok (s, [], [])
  | o :: r =>
      a <- t_step dtor ctor s o ;;
      b <- t_run dtor ctor (fst (fst a)) r ;;
      Ok (fst (fst b), snd (fst a) :: snd (fst b), snd a ++ snd b)
  end.

(** ** Trees and tables *)
Definition join {A} (o : option (option A)) : option A := match o with Some d => d | None => None end.
Lemma pset_gset fuel : forall h k v, pset_sub fuel h k v =
  gset (fun o => match join o with Some l => Some (l ++ [MV v]) | None => None end)
       (fun o => match join o with Some l => Some [MNest l] | None => Some [] end) (Some [MV v]) None fuel h k.
Proof.
  induction fuel as [|fuel IH]; intros h k v; (destruct k as [|c k]; [reflexivity|]); [reflexivity|]. cbn [pset_sub gset].
  destruct (find_child c (hitems h) 0 None) as [i n|]; [|reflexivity]. destruct (scan 1 k (tl (nkey n))); try (now rewrite IH); try reflexivity; unfold pdata, join; destruct (ndata n) as [[l|]|]; reflexivity.
Qed.
Lemma values_plain (l : mlist) : values_only l = if forallb is_plain l then Some (mflat l) else None.
Proof.
  induction l as [|[v|x] l IH]; [reflexivity| |reflexivity]. cbn [values_only forallb is_plain andb]. rewrite IH. destruct (forallb is_plain l); reflexivity.
Qed.
Lemma pdispose_release dtor d : pdispose dtor d = t_release dtor [d].
Proof.
  unfold pdispose, t_release. destruct dtor; [|now destruct d]. destruct d as [l|]; [|reflexivity]. rewrite values_plain. cbn [forallb plain_d flat_map oflat]. rewrite Bool.andb_true_r, app_nil_r. now destruct (forallb is_plain l).
Qed.
Lemma punset_gunset dtor fuel : forall isroot h k, punset_sub dtor fuel isroot h k =
  gunset (fun o => t_release dtor [join o]) [] (fun o => match join o with Some _ => Some [] | None => None end) fuel isroot h k.
Proof.
  induction fuel as [|fuel IH]; intros isroot h k; (destruct k as [|c k]; [reflexivity|]); [reflexivity|]. cbn [punset_sub gunset].
  destruct (find_child c (hitems h) 0 None) as [i n|]; [|reflexivity]. destruct (scan 1 k (tl (nkey n))); try (now rewrite IH); try reflexivity; now rewrite pdispose_release.
Qed.
Lemma pset_shows h tb k v : shows h tb -> exists h', pset_sub (length k) h k v = Ok h' /\ shows h' (t_set tb k v).
Proof. intros H. rewrite pset_gset. exact (gset_shows _ _ _ _ h tb k H). Qed.
Lemma punset_shows dtor h tb k : shows h tb ->
  match punset_sub dtor (length k) true h k, t_unset dtor tb k with
  | Ok (h', ev), Ok (tb', ev') => ev = ev' /\ shows h' tb'
  | UB, UB => True
  | NoFuel, NoFuel => True
  | _, _ => False
  end.
Proof. intros H. rewrite punset_gunset. exact (gunset_shows (fun o => t_release dtor [join o]) [] _ h tb k H). Qed.
Lemma pget_shows h tb k : shows h tb -> pget h k = Ok (t_get tb k).
Proof. intros H. unfold pget. rewrite (gget_shows h tb k H). reflexivity. Qed.

(** Releasing everything. *)
Lemma t_release_app dtor a b : t_release dtor (a ++ b) = (x <- t_release dtor a ;; y <- t_release dtor b ;; Ok (x ++ y)).
Proof.
  unfold t_release. destruct dtor; [|reflexivity]. rewrite forallb_app, flat_map_app. destruct (forallb plain_d a); [|reflexivity]. cbn [andb bind]. now destruct (forallb plain_d b).
Qed.
Lemma pdestroy_node_eq dtor (n : pnode) : pdestroy_node dtor n = (a <- pdispose dtor (pdata n) ;; b <- pdestroy_list (pdestroy_node dtor) (hitems (nsubs n)) ;; Ok (a ++ b)).
Proof.
  destruct n as [k d [l tl]]. unfold pdata. cbn [pdestroy_node ndata hitems nsubs]. destruct (pdispose dtor (match d with Some d => d | None => None end)); cbn [bind]; auto.
  match goal with |- (b <- ?f l ;; _) = _ => assert (G : forall l, f l = pdestroy_list (pdestroy_node dtor) l) by (clear; induction l as [|n l IH]; cbn; [reflexivity|now rewrite IH]) end.
  now rewrite G.
Qed.
Lemma pdestroy_ents dtor h : gfull h -> pdestroy_list (pdestroy_node dtor) (hitems h) = t_release dtor (map snd (ents (hitems h))).
Proof.
  induction 1 as [h Hd Hs IH]. induction (hitems h) as [|n l IHl]; [now destruct dtor|]. cbn [pdestroy_list]. rewrite pdestroy_node_eq.
  rewrite IH by now left. rewrite IHl; [|intros m Hm; apply Hd; now right|intros m Hm; apply Hs; now right|intros m Hm; apply IH; now right].
  change (ents (n :: l)) with (nents n ++ ents l). rewrite nents_eq, !map_app, !t_release_app. unfold own, pdata. specialize (Hd n (or_introl eq_refl)). destruct (ndata n) as [d|]; [|congruence].
  rewrite pdispose_release. cbn [map snd]. unfold eprefix. rewrite map_map.
  destruct (t_release dtor [d]) as [x| |]; cbn [bind]; reflexivity.
Qed.
Lemma t_release_perm dtor a b : Permutation a b ->
  match t_release dtor a, t_release dtor b with Ok x, Ok y => Permutation x y | UB, UB => True | _, _ => False end.
Proof.
  intros H. unfold t_release. destruct dtor; [|constructor].
  assert (E : forallb plain_d a = forallb plain_d b).
  { induction H as [|x l l' _ IH|x y l|l l' l'' _ IH1 _ IH2]; cbn; [reflexivity|now rewrite IH|destruct (plain_d x), (plain_d y); reflexivity|congruence]. }
  rewrite <- E. destruct (forallb plain_d a); [|trivial]. now apply Permutation_flat_map.
Qed.
Lemma shows_nil h tb : shows h tb -> (hitems h = [] <-> tb = []).
Proof.
  intros H. pose proof (shows_ents h tb H) as Hp. destruct H as (Hv & _). split; intros E.
  - rewrite E in Hp. now apply Permutation_nil.
  - subst tb. apply Permutation_sym, Permutation_nil in Hp. destruct (hitems h) as [|n l] eqn:El; [reflexivity|]. exfalso.
    assert (Hin : In n (hitems h)) by (rewrite El; now left). pose proof (inv_child _ _ Hv Hin) as (_ & Hd & _).
    change (ents (n :: l)) with (nents n ++ ents l) in Hp. rewrite nents_eq in Hp. unfold own in Hp. destruct (ndata n); [discriminate|congruence].
Qed.

Definition pshows t (s : tstate) : Prop := shows (p_root t) (ts_tab s) /\ p_dead t = ts_dead s.
Definition same_effect (a b : peffect V) : Prop := pe_got a = pe_got b /\ Permutation (pe_destroyed a) (pe_destroyed b).
Lemma same_refl a : same_effect a a.
Proof. split; auto. Qed.
Lemma pshows_new : pshows p_create ts_new.
Proof. split; [apply shows_empty|reflexivity]. Qed.
Lemma p_step_shows dtor ctor t s o : pshows t s ->
  match p_step dtor ctor t o, t_step dtor ctor s o with
  | Ok (t', e), Ok (s', e', _) => pshows t' s' /\ same_effect e e'
  | UB, UB => True
  | _, _ => False
  end.
Proof.
  intros (Hs & Hd). assert (Hin : inv (p_root t)) by apply Hs. assert (Hnf : forall dt ds, t_release dt ds <> NoFuel) by (intros [] ds; unfold t_release; [destruct (forallb plain_d ds)|]; discriminate).
  destruct o as [k v|k|k|]; unfold p_step, t_step, p_live; rewrite ?Hd.
  - destruct k as [|c k]; [cbn; split; [split; [exact Hs|cbn; congruence]|apply same_refl]|]. destruct (ts_dead s); cbn [negb]; [trivial|].
    destruct (pset_shows (p_root t) (ts_tab s) (c :: k) (ctor v) Hs) as (h' & -> & H'). cbn [bind]. split; [split; [exact H'|reflexivity]|apply same_refl].
  - destruct k as [|c k]; [cbn; split; [split; [exact Hs|cbn; congruence]|apply same_refl]|]. destruct (ts_dead s) eqn:Ed; cbn [negb]; [trivial|].
    rewrite (pget_shows _ _ (c :: k) Hs). cbn [bind]. split; [split; [exact Hs|congruence]|apply same_refl].
  - destruct k as [|c k]; [cbn; split; [split; [exact Hs|cbn; congruence]|apply same_refl]|]. destruct (ts_dead s); cbn [negb]; [trivial|].
    pose proof (punset_shows dtor (p_root t) (ts_tab s) (c :: k) Hs) as H. destruct (punset_sub dtor (length (c :: k)) true (p_root t) (c :: k)) as [[h' ev]| |]; cbn [bind].
    + destruct (t_unset dtor (ts_tab s) (c :: k)) as [[tb' ev']| |]; cbn [bind fst snd]; [|contradiction|contradiction]. destruct H as [-> H]. split; [split; [exact H|reflexivity]|apply same_refl].
    + destruct (t_unset dtor (ts_tab s) (c :: k)) as [[tb' ev']| |]; cbn [bind]; auto.
    + destruct (t_unset dtor (ts_tab s) (c :: k)) as [[tb' ev']| |] eqn:Eu; cbn [bind]; auto. unfold t_unset in Eu. rewrite tunset_ne in Eu by discriminate.
      destruct (tget (ts_tab s) (c :: k)) as [d|]; [|discriminate]. destruct (t_release dtor [d]) as [ev| |] eqn:Er; [|discriminate|now apply Hnf in Er].
      cbn [bind] in Eu. destruct (tlonely (ts_tab s) (c :: k)); discriminate.
  - unfold p_destroy. rewrite Hd. destruct (ts_dead s); [exact I|]. rewrite pdestroy_ents by apply Hin.
    pose proof (t_release_perm dtor _ _ (Permutation_map snd (shows_ents _ _ Hs))) as H.
    destruct (t_release dtor (map snd (ents (hitems (p_root t))))) as [x| |]; destruct (t_release dtor (map snd (ts_tab s))) as [y| |]; cbn [bind]; try contradiction; auto.
    split; [|split; [reflexivity|exact H]]. split; [exact Hs|]. cbn. pose proof (shows_nil _ _ Hs) as Hn. destruct (hitems (p_root t)), (ts_tab s); try reflexivity.
    + discriminate (proj1 Hn eq_refl).
    + discriminate (proj2 Hn eq_refl).
Qed.
Lemma p_run_shows dtor ctor os : forall t s, pshows t s ->
  match p_run dtor ctor t os, t_run dtor ctor s os with
  | Ok (t', es), Ok (s', es', _) => pshows t' s' /\ Forall2 same_effect es es'
  | UB, UB => True
  | _, _ => False
  end.
Proof.
  induction os as [|o os IH]; intros t s H; cbn [p_run t_run]; [split; auto|].
  pose proof (p_step_shows dtor ctor t s o H) as Hs. destruct (p_step dtor ctor t o) as [[t1 e]| |]; destruct (t_step dtor ctor s o) as [[[s1 e'] lo]| |]; try contradiction; cbn [bind fst snd]; auto.
  destruct Hs as [H1 He]. specialize (IH t1 s1 H1). destruct (p_run dtor ctor t1 os) as [[t2 es]| |]; destruct (t_run dtor ctor s1 os) as [[[s2 es'] los]| |]; try contradiction; cbn [bind fst snd]; auto.
  destruct IH as [I1 I2]. split; [exact I1|]. constructor; auto.
Qed.

(** ** Account of the values *)
Definition t_stored (s : tstate) : list V := if ts_dead s then [] else flat_map oflat (map snd (ts_tab s)).
Lemma tput_stored tb k d d' : NoDup (map fst tb) -> tget tb k = Some d ->
  exists rest, Permutation (flat_map oflat (map snd tb)) (oflat d ++ rest) /\ Permutation (flat_map oflat (map snd (tput tb k d'))) (oflat d' ++ rest) /\
    flat_map oflat (map snd (tdel tb k)) = rest.
Proof.
  induction tb as [|[q e] tb IH]; cbn [map]; intros Hnd; [discriminate|]. apply NoDup_cons_iff in Hnd. destruct Hnd as [Hni Hnd]. rewrite tget_cons. cbn [fst snd] in *.
  unfold tput, tdel. cbn [map filter fst]. destruct (streq_spec q k) as [->|Hne].
  - intros [= ->]. exists (flat_map oflat (map snd tb)). cbn [negb]. split; [reflexivity|].
    assert (Hid : map (fun e => if streq (fst e) k then (k, d') else e) tb = tb /\ filter (fun e => negb (streq (fst e) k)) tb = tb).
    { clear IH Hnd. induction tb as [|[x w] tb IHt]; [split; reflexivity|]. cbn [map filter fst] in *. rewrite (streq_neq x k) by (intros ->; apply Hni; now left). cbn [negb].
      destruct IHt as [-> ->]; [intros H; apply Hni; now right|]. split; reflexivity. }
    destruct Hid as [-> ->]. split; reflexivity.
  - intros Hg. destruct (IH Hnd Hg) as (rest & P1 & P2 & P3). exists (oflat e ++ rest). cbn [negb map snd flat_map]. split; [|split].
    + eapply Permutation_trans; [apply Permutation_app_head, P1|]. rewrite !app_assoc. apply Permutation_app_tail, Permutation_app_comm.
    + eapply Permutation_trans; [apply Permutation_app_head, P2|]. rewrite !app_assoc. apply Permutation_app_tail, Permutation_app_comm.
    + unfold tdel in P3. now rewrite P3.
Qed.
Lemma lowest_in tb s p d : lowest tb s = Some (p, d) -> In (p, d) tb.
Proof.
  induction tb as [|e tb IH]; [discriminate|]. cbn [lowest fold_right]. change (fold_right _ None tb) with (lowest tb s). destruct (starts s (fst e)); [|right; auto].
  destruct (lowest tb s) as [e'|].
  - match goal with |- context [if ?b then _ else _] => destruct b end; intros E; [right; now apply IH|left; congruence].
  - intros E. left. congruence.
Qed.
Lemma t_set_stored tb k v : NoDup (map fst tb) -> k <> [] ->
  Permutation (flat_map oflat (map snd (t_set tb k v)) ++ match tget tb k with Some None => [v] | _ => [] end) (v :: flat_map oflat (map snd tb)).
Proof.
  intros Hnd Hk. unfold t_set. rewrite tset_ne by exact Hk. destruct (tget tb k) as [[l|]|] eqn:Eg.
  - destruct (tput_stored tb k (Some l) (Some (l ++ [MV v])) Hnd Eg) as (rest & P1 & P2 & _). rewrite app_nil_r.
    eapply Permutation_trans; [exact P2|]. eapply Permutation_trans; [|apply perm_skip, Permutation_sym, P1]. cbn [oflat]. rewrite mflat_app. cbn. rewrite <- app_assoc. apply Permutation_sym, Permutation_middle.
  - destruct (tput_stored tb k None None Hnd Eg) as (rest & P1 & P2 & _). eapply Permutation_trans; [apply Permutation_app_tail, P2|]. cbn [oflat app] in *.
    eapply Permutation_trans; [apply Permutation_app_comm|]. cbn. now apply perm_skip, Permutation_sym.
  - rewrite app_nil_r. destruct (tforks tb k); [|reflexivity]. cbn [map snd flat_map oflat mflat app]. apply perm_skip.
    destruct (lowest tb (stem tb k)) as [[p d]|] eqn:El; [|reflexivity]. apply lowest_in in El. apply (tget_in tb p d Hnd) in El.
    destruct (tput_stored tb p d (match d with Some l => Some [MNest l] | None => Some [] end) Hnd El) as (rest & P1 & P2 & _).
    eapply Permutation_trans; [exact P2|]. eapply Permutation_trans; [|apply Permutation_sym, P1]. destruct d as [l|]; [|reflexivity]. cbn [oflat]. unfold mflat at 1. cbn [flat_map]. rewrite vflat_nest, app_nil_r. reflexivity.
Qed.
Definition given (ctor : V -> V) (o : pop V) : list V := match o with PSet _ v => [ctor v] | _ => [] end.
Definition wf_ts (s : tstate) : Prop := NoDup (map fst (ts_tab s)).
Lemma t_unset_stored dtor tb k tb' ev : NoDup (map fst tb) -> k <> [] -> t_unset dtor tb k = Ok (tb', ev) ->
  Permutation (flat_map oflat (map snd tb)) (flat_map oflat (map snd tb') ++ ev ++ if dtor then [] else oflat (t_get tb k)).
Proof.
  intros Hnd Hk. unfold t_unset, t_get. rewrite tunset_ne by exact Hk. destruct (tget tb k) as [d|] eqn:Eg; [|intros [= <- <-]; destruct dtor; now rewrite ?app_nil_r].
  destruct (tput_stored tb k d (match d with Some _ => Some [] | None => None end) Hnd Eg) as (rest & P1 & P2 & P3).
  destruct (t_release dtor [d]) as [x| |] eqn:Er; cbn [bind]; try discriminate. destruct (tlonely tb k); [discriminate|]. intros [= <- <-].
  assert (Hx : x ++ (if dtor then [] else oflat d) = oflat d).
  { unfold t_release in Er. destruct dtor; [|now injection Er as <-]. destruct (forallb plain_d [d]); [|discriminate]. injection Er as <-. cbn. now rewrite !app_nil_r. }
  rewrite Hx. eapply Permutation_trans; [exact P1|]. eapply Permutation_trans; [apply Permutation_app_comm|]. apply Permutation_app_tail. destruct (texceeded tb k).
  - eapply Permutation_trans; [|apply Permutation_sym, P2]. now destruct d.
  - now rewrite P3.
Qed.
Lemma wf_shows t s : pshows t s -> wf_ts s.
Proof. intros ((_ & H & _) & _). exact H. Qed.
Lemma Ok3 {A B C} (a a' : A) (b b' : B) (c c' : C) : Ok (a, b, c) = Ok (a', b', c') -> a = a' /\ b = b' /\ c = c'.
Proof. intros [=]. auto. Qed.
Lemma t_step_account dtor ctor s o s' e lo : wf_ts s -> t_step dtor ctor s o = Ok (s', e, lo) ->
  Permutation (given ctor o ++ t_stored s) (t_stored s' ++ pe_destroyed e ++ lo).
Proof.
  intros Hw. destruct o as [k v|k|k|]; cbn [t_step given].
  - destruct k as [|c k]; [intros [= <- <- <-]; cbn; apply Permutation_cons_append|]. unfold t_stored. destruct (ts_dead s); [discriminate|]. intros E. apply Ok3 in E. destruct E as (<- & <- & <-). cbn [ts_dead ts_tab pe_destroyed app].
    apply Permutation_sym, t_set_stored; [exact Hw|discriminate].
  - destruct k as [|c k]; [intros [= <- <- <-]; cbn; now rewrite app_nil_r|]. destruct (ts_dead s); [discriminate|]. intros [= <- <- <-]. cbn. now rewrite app_nil_r.
  - destruct k as [|c k]; [intros [= <- <- <-]; cbn; now rewrite app_nil_r|]. unfold t_stored. destruct (ts_dead s); [discriminate|].
    destruct (t_unset dtor (ts_tab s) (c :: k)) as [[tb' ev]| |] eqn:Eu; cbn [bind]; try discriminate. intros [= <- <- <-]. cbn [fst snd ts_dead ts_tab pe_destroyed app].
    now apply t_unset_stored; [| |exact Eu].
  - unfold t_stored. destruct (ts_dead s); [discriminate|]. destruct (t_release dtor (map snd (ts_tab s))) as [ev| |] eqn:Er; cbn [bind]; try discriminate. intros [= <- <- <-]. cbn [ts_dead ts_tab pe_destroyed app].
    destruct (ts_tab s) as [|e0 tb] eqn:Et; [cbn in *; unfold t_release in Er; destruct dtor; cbn in Er; injection Er as <-; constructor|].
    unfold t_release in Er. destruct dtor; [|injection Er as <-; reflexivity]. destruct (forallb plain_d _); [|discriminate]. injection Er as <-. rewrite app_nil_r. reflexivity.
Qed.
Lemma t_step_wf dtor ctor s o s' e lo t : pshows t s -> t_step dtor ctor s o = Ok (s', e, lo) -> exists t' e', p_step dtor ctor t o = Ok (t', e') /\ pshows t' s' /\ same_effect e' e.
Proof.
  intros H E. pose proof (p_step_shows dtor ctor t s o H) as Hs. rewrite E in Hs. destruct (p_step dtor ctor t o) as [[t' e']| |]; try contradiction. exists t', e'. tauto.
Qed.
Lemma perm_account {A} (g g2 s s1 s2 e e2 l1 l2 : list A) : Permutation (g ++ s) (s1 ++ e ++ l1) -> Permutation (g2 ++ s1) (s2 ++ e2 ++ l2) ->
  Permutation ((g ++ g2) ++ s) (s2 ++ (e ++ e2) ++ l1 ++ l2).
Proof.
  intros H1 H2. rewrite (Permutation_app_comm g g2), <- app_assoc, H1, app_assoc, H2, <- !app_assoc. apply Permutation_app_head.
  rewrite (app_assoc e2 l2), (Permutation_app_comm (e2 ++ l2)), <- !app_assoc. apply Permutation_app_head. rewrite !app_assoc. apply Permutation_app_tail, Permutation_app_comm.
Qed.
Lemma t_run_account dtor ctor os : forall t s s' es lo, pshows t s -> t_run dtor ctor s os = Ok (s', es, lo) ->
  Permutation (flat_map (given ctor) os ++ t_stored s) (t_stored s' ++ flat_map pe_destroyed es ++ lo).
Proof.
  induction os as [|o os IH]; intros t s s' es lo H; cbn [t_run flat_map]; [intros [= <- <- <-]; cbn; now rewrite app_nil_r|].
  destruct (t_step dtor ctor s o) as [[[s1 e] l1]| |] eqn:Es; cbn [bind fst snd]; try discriminate. destruct (t_run dtor ctor s1 os) as [[[s2 es2] l2]| |] eqn:Er; cbn [bind fst snd]; try discriminate.
  intros [= <- <- <-]. pose proof (t_step_account _ _ _ _ _ _ _ (wf_shows _ _ H) Es) as A1. destruct (t_step_wf _ _ _ _ _ _ _ _ H Es) as (t1 & e1 & _ & H1 & _).
  exact (perm_account _ _ _ _ _ _ _ _ _ A1 (IH t1 s1 s2 es2 l2 H1 Er)).
Qed.
End P.
