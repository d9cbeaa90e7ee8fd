(** The statements about the plain multi-dictionary. *)
From Coq Require Import Permutation.
From Verif Require Import CStr CStrFacts HSListModel HSListFacts SetModel RTreeModel RTreeFacts RTreeFacts2 RTreeFacts3 RTreeFacts4
  MRTreeModel MRTreeFacts MRTreeFacts2 SpecA MDictModel MDictFacts MDictSpec MDictFacts2 MDictFacts3 MDictFacts4.

Section Q.
Context {V : Type}.
Notation mlist := (list (mval V)).
Implicit Types (os : list (pop V)) (t : pdict V) (k : str).

Lemma q_run dtor ctor os :
  match p_run dtor ctor p_create os, t_run dtor ctor ts_new os with
  | Ok (t, es), Ok (s, es', _) => Forall2 same_effect es es'
  | UB, UB => True
  | _, _ => False
  end.
Proof.
  pose proof (p_run_shows dtor ctor os p_create ts_new pshows_new) as H. destruct (p_run dtor ctor p_create os) as [[t es]| |]; destruct (t_run dtor ctor ts_new os) as [[[s es'] l]| |]; auto. apply H.
Qed.
Lemma q_both dtor ctor os t es : p_run dtor ctor p_create os = Ok (t, es) ->
  exists s es' l, t_run dtor ctor ts_new os = Ok (s, es', l) /\ pshows t s /\ Forall2 same_effect es es'.
Proof.
  intros E. pose proof (p_run_shows dtor ctor os p_create ts_new pshows_new) as H. rewrite E in H. destruct (t_run dtor ctor ts_new os) as [[[s es'] l]| |]; try contradiction. exists s, es', l. tauto.
Qed.
Lemma forkfree_law dtor ctor os t es : forkfree dtor ctor ts_new os -> p_run dtor ctor p_create os = Ok (t, es) -> p_dead t = false ->
  exists s es' l, t_run dtor ctor ts_new os = Ok (s, es', l) /\ pshows t s /\ Forall2 same_effect es es' /\ law (ts_tab s) (vals ctor os) /\ tget (ts_tab s) [] = None /\
    (dtor = true -> ~ In [] (set_keys os) -> l = []).
Proof.
  intros Hf E Hd. destruct (q_both _ _ _ _ _ E) as (s & es' & l & Er & Hs & He). exists s, es', l. split; [exact Er|]. split; [exact Hs|]. split; [exact He|].
  assert (Hds : ts_dead s = false) by (destruct Hs as [_ <-]; exact Hd).
  exact (law_run dtor ctor os ts_new s es' l (fun _ => []) (fun k _ => or_intror (conj eq_refl eq_refl)) eq_refl Er Hds Hf).
Qed.
Lemma np_forkfree dtor ctor os : no_parting (set_keys os) -> forkfree dtor ctor ts_new os.
Proof. intros H. apply (no_parting_forkfree dtor ctor os ts_new (set_keys os)); auto; [intros q Hq; now destruct Hq|apply incl_refl]. Qed.
Lemma law_get dtor ctor t s k f : pshows t s -> ts_dead s = false -> law (ts_tab s) f -> k <> [] ->
  exists o, p_step dtor ctor t (PGet k) = Ok (t, mkPE o []) /\ (o = Some (map MV (f k)) \/ o = None /\ f k = []).
Proof.
  intros Hs Hd Hl Hk. exists (t_get (ts_tab s) k). split.
  - cbn [p_step]. unfold p_live. destruct k; [congruence|]. destruct Hs as [Hs Hdd]. rewrite Hdd, Hd. cbn [negb]. now rewrite (pget_shows _ _ _ Hs).
  - unfold t_get. destruct (Hl k Hk) as [->|[-> ->]]; auto.
Qed.
Lemma q_get dtor ctor os t es k : no_parting (set_keys os) -> p_run dtor ctor p_create os = Ok (t, es) -> p_dead t = false -> k <> [] ->
  exists o, p_step dtor ctor t (PGet k) = Ok (t, mkPE o []) /\ (o = Some (map MV (vals ctor os k)) \/ o = None /\ vals ctor os k = []).
Proof.
  intros Hn E Hd Hk. destruct (forkfree_law dtor ctor os t es (np_forkfree _ _ _ Hn) E Hd) as (s & es' & l & _ & Hs & _ & Hl & _). eapply law_get; eauto. now destruct Hs as [_ <-].
Qed.
Lemma q_sets dtor ctor (kvs : list (str * V)) : nonempty_keys kvs -> no_branching kvs ->
  exists t es, p_run dtor ctor p_create (psets kvs) = Ok (t, es) /\ forall k, k <> [] ->
    p_step dtor ctor t (PGet k) = Ok (t, mkPE (match values_of kvs k with [] => None | vs => Some (map (fun v => MV (ctor v)) vs) end) []).
Proof.
  intros Hk Hnb. destruct (sets_run dtor ctor kvs [] ts_new eq_refl) as (F & s & es' & l & Er & Hd & Hne); auto; [intros q; cbn; tauto|discriminate|].
  pose proof (p_run_shows dtor ctor (psets kvs) p_create ts_new pshows_new) as H. rewrite Er in H. destruct (p_run dtor ctor p_create (psets kvs)) as [[t es]| |] eqn:Ep; try contradiction. destruct H as [Hs _].
  exists t, es. split; [reflexivity|]. intros k Hk0. assert (Hdt : p_dead t = false) by (destruct Hs as [_ ->]; exact Hd).
  destruct (forkfree_law dtor ctor (psets kvs) t es F Ep Hdt) as (s2 & es2 & l2 & Er2 & _ & _ & Hl & _). rewrite Er in Er2. apply Ok3 in Er2. destruct Er2 as (<- & _ & _).
  cbn [p_step]. unfold p_live. destruct k as [|c k]; [congruence|]. rewrite Hdt. cbn [negb]. destruct Hs as [Hs _]. rewrite (pget_shows _ _ _ Hs). cbn [bind]. repeat f_equal. unfold t_get.
  assert (Ev : vals ctor (psets kvs) (c :: k) = map ctor (values_of kvs (c :: k))) by (unfold vals; now rewrite vals_values).
  destruct (Hl (c :: k) Hk0) as [E|[E E2]]; rewrite E.
  - rewrite Ev. pose proof (Hne _ _ E) as Hx. rewrite Ev in Hx. destruct (values_of kvs (c :: k)); [now destruct Hx|]. now rewrite map_map.
  - rewrite Ev in E2. destruct (values_of kvs (c :: k)); [reflexivity|discriminate].
Qed.

(** ** Listings *)
Lemma q_listing dtor ctor os t es : p_run dtor ctor p_create os = Ok (t, es) -> p_dead t = false ->
  exists s es' l, t_run dtor ctor ts_new os = Ok (s, es', l) /\
  exists ord, Permutation ord (ts_tab s) /\
    p_entries t = (if opened (ts_tab s) then Ok (shown ord) else UB) /\
    p_keys t = (if opened (ts_tab s) then Ok (map fst (shown ord)) else UB) /\
    p_walk t = (if opened (ts_tab s) then Ok (lists ord) else UB).
Proof.
  intros E Hd. destruct (q_both _ _ _ _ _ E) as (s & es' & l & Er & Hs & _). exists s, es', l. split; [exact Er|].
  destruct (listing t s Hs) as (ord & H1 & H2 & H3 & _); [now destruct Hs as [_ <-]|]. exists ord. unfold p_keys. rewrite H2. destruct (opened (ts_tab s)); auto.
Qed.
Lemma shown_in (tb : list (str * option mlist)) k l : In (k, l) (shown tb) <-> In (k, Some l) tb /\ l <> [].
Proof.
  unfold shown. rewrite in_flat_map. split.
  - intros ([q d] & Hin & H). cbn [fst snd] in H. destruct d as [[|x r]|]; [destruct H| |destruct H]. destruct H as [[= <- <-]|[]]. split; [exact Hin|discriminate].
  - intros [Hin Hl]. exists (k, Some l). split; [exact Hin|]. cbn. destruct l; [congruence|now left].
Qed.
Lemma shown_nodup (tb : list (str * option mlist)) : NoDup (map fst tb) -> NoDup (map fst (shown tb)).
Proof.
  induction tb as [|[q d] tb IH]; intros H; [constructor|]. cbn [map fst] in H. apply NoDup_cons_iff in H. destruct H as [Hn H]. change (shown ((q, d) :: tb)) with (match d with Some (x :: l) => [(q, x :: l)] | _ => [] end ++ shown tb).
  destruct d as [[|x r]|]; [now apply IH| |now apply IH]. cbn [app map fst]. constructor; [|now apply IH]. intros Hin. apply Hn. apply in_map_iff in Hin. destruct Hin as ([q' l] & Eq & Hin). cbn in Eq. subst q'. apply shown_in in Hin.
  destruct Hin as [Hin _]. now apply (in_map fst) in Hin.
Qed.
Lemma law_opened (tb : list (str * option mlist)) f : NoDup (map fst tb) -> tget tb [] = None -> law tb f ->
  opened tb = true /\ forallb (fun e => plain_d (snd e)) tb = true /\ forall k l, In (k, Some l) tb -> k <> [] /\ l = map MV (f k).
Proof.
  intros Hnd Hn Hl. assert (G : forall k d, In (k, d) tb -> k <> [] /\ d = Some (map MV (f k))).
  { intros k d Hin. apply (tget_in tb k d Hnd) in Hin. assert (Hk : k <> []) by (intros ->; congruence). split; [exact Hk|]. destruct (Hl k Hk) as [E|[E _]]; congruence. }
  split; [|split].
  - apply forallb_forall. intros [k d] Hin. apply G in Hin. destruct Hin as [_ ->]. reflexivity.
  - apply forallb_forall. intros [k d] Hin. apply G in Hin. destruct Hin as [_ ->]. cbn. apply forallb_forall. intros x Hx. apply in_map_iff in Hx. destruct Hx as (v & <- & _). reflexivity.
  - intros k l Hin. apply G in Hin. destruct Hin as [Hk [= ->]]. auto.
Qed.
Lemma q_keys dtor ctor os t es : no_parting (set_keys os) -> p_run dtor ctor p_create os = Ok (t, es) -> p_dead t = false ->
  exists ps, p_entries t = Ok ps /\ p_keys t = Ok (map fst ps) /\ NoDup (map fst ps) /\
    (forall k l, k <> [] -> (In (k, l) ps <-> l = map MV (vals ctor os k) /\ vals ctor os k <> [])) /\
    exists w, p_walk t = Ok w /\ Permutation w (flat_map snd ps).
Proof.
  intros Hn E Hd. destruct (forkfree_law dtor ctor os t es (np_forkfree _ _ _ Hn) E Hd) as (s & es' & l & _ & Hs & _ & Hl & Hn0 & _). assert (Hds : ts_dead s = false) by (destruct Hs as [_ <-]; exact Hd).
  pose proof (wf_shows _ _ Hs) as Hnd. unfold wf_ts in Hnd. destruct (law_opened _ _ Hnd Hn0 Hl) as (Ho & _ & Hin). destruct (listing t s Hs Hds) as (ord & Hp & H2 & H3 & _). rewrite Ho in H2, H3. exists (shown ord).
  assert (Hno : NoDup (map fst ord)) by (eapply Permutation_NoDup; [apply Permutation_sym, Permutation_map, Hp|exact Hnd]).
  split; [exact H2|]. split; [unfold p_keys; now rewrite H2|]. split; [now apply shown_nodup|]. split.
  - intros k x Hk. rewrite shown_in. assert (Hpk : In (k, Some x) ord <-> In (k, Some x) (ts_tab s)) by (split; apply Permutation_in; auto; now apply Permutation_sym). rewrite Hpk. split.
    + intros [Hi Hx]. destruct (Hin k x Hi) as [_ ->]. split; [reflexivity|]. intros Ev. apply Hx. now rewrite Ev.
    + intros [-> Hv]. split; [|intros Ev; apply map_eq_nil in Ev; contradiction]. apply (tget_in _ _ _ Hnd). destruct (Hl k Hk) as [Eg|[_ Eg]]; [exact Eg|contradiction].
  - exists (lists ord). split; [exact H3|]. assert (G : lists ord = flat_map snd (shown ord)); [|now rewrite G]. clear. induction ord as [|[q d] ord IH]; [reflexivity|].
    change (lists ((q, d) :: ord)) with (match d with Some l => l | None => [] end ++ lists ord). change (shown ((q, d) :: ord)) with (match d with Some (x :: l) => [(q, x :: l)] | _ => [] end ++ shown ord).
    rewrite flat_map_app, IH. destruct d as [[|x r]|]; [reflexivity| |reflexivity]. cbn. now rewrite app_nil_r.
Qed.

(** ** Clones and unions *)
Lemma q_clone dtor ctor cl os t es : p_run dtor ctor p_create os = Ok (t, es) -> p_dead t = false ->
  exists s es' l, t_run dtor ctor ts_new os = Ok (s, es', l) /\
  if forallb (cloneable cl) (map snd (ts_tab s))
  then exists t', p_clone cl t = Ok t' /\ p_dead t' = false /\ (forall k, pget (p_root t') k = Ok (pcp cl (t_get (ts_tab s) k)))
  else p_clone cl t = UB.
Proof.
  intros E Hd. destruct (q_both _ _ _ _ _ E) as (s & es' & l & Er & Hs & _). exists s, es', l. split; [exact Er|]. assert (Hds : ts_dead s = false) by (destruct Hs as [_ <-]; exact Hd).
  pose proof (p_clone_shows cl t s Hs Hds) as H. destruct (forallb (cloneable cl) (map snd (ts_tab s))); [|exact H]. destruct H as (t' & E' & Hs' & Hd'). exists t'. split; [exact E'|]. split; [exact Hd'|].
  intros k. rewrite (pget_shows _ _ k Hs'). cbn [ts_tab]. f_equal. unfold t_get, tget. clear. induction (ts_tab s) as [|[q d] tb IH]; [reflexivity|]. cbn. destruct (streq q k); [reflexivity|exact IH].
Qed.
Lemma q_clone_np dtor ctor f os t es : no_parting (set_keys os) -> p_run dtor ctor p_create os = Ok (t, es) -> p_dead t = false ->
  exists t', p_clone (Some f) t = Ok t' /\ forall k, exists o, pget (p_root t) k = Ok o /\ pget (p_root t') k = Ok (option_map (map (cval (Some f))) o).
Proof.
  intros Hn E Hd. destruct (forkfree_law dtor ctor os t es (np_forkfree _ _ _ Hn) E Hd) as (s & es' & l & _ & Hs & _ & Hl & Hn0 & _). assert (Hds : ts_dead s = false) by (destruct Hs as [_ <-]; exact Hd).
  pose proof (wf_shows _ _ Hs) as Hnd. destruct (law_opened _ _ Hnd Hn0 Hl) as (Ho & Hpl & Hin). pose proof (p_clone_shows (Some f) t s Hs Hds) as H.
  assert (Hc : forallb (cloneable (Some f)) (map snd (ts_tab s)) = true).
  { apply forallb_forall. intros d Hd'. apply in_map_iff in Hd'. destruct Hd' as (e & <- & He). unfold opened in Ho. rewrite forallb_forall in Ho, Hpl. specialize (Ho e He). specialize (Hpl e He). destruct (snd e) as [[|x r]|]; [reflexivity| |discriminate].
    cbn [cloneable plain_d] in *. now rewrite Hpl. }
  rewrite Hc in H. destruct H as (t' & E' & Hs' & Hd'). exists t'. split; [exact E'|]. intros k. exists (t_get (ts_tab s) k). destruct Hs as [Hs _]. split; [now apply pget_shows|]. rewrite (pget_shows _ _ k Hs'). cbn [ts_tab]. f_equal.
  unfold t_get, tget, pcp. clear. induction (ts_tab s) as [|[q d] tb IH]; [reflexivity|]. cbn. destruct (streq q k); [reflexivity|exact IH].
Qed.
Lemma q_unite dtor ctor os1 t1 es1 os2 t2 es2 : p_run dtor ctor p_create os1 = Ok (t1, es1) -> p_dead t1 = false -> p_run dtor ctor p_create os2 = Ok (t2, es2) -> p_dead t2 = false ->
  exists s1 es1' l1 s2 es2' l2, t_run dtor ctor ts_new os1 = Ok (s1, es1', l1) /\ t_run dtor ctor ts_new os2 = Ok (s2, es2', l2) /\
  if opened (ts_tab s2) && forallb (fun e => plain_d (snd e)) (ts_tab s2)
  then exists ord t', Permutation ord (ts_tab s2) /\ p_unite ctor t1 t2 = Ok t' /\
    forall k, pget (p_root t') k = Ok (t_get (t_sets (ts_tab s1) (map (fun kv => (fst kv, ctor (snd kv))) (pairs_of ord))) k)
  else p_unite ctor t1 t2 = UB.
Proof.
  intros E1 D1 E2 D2. destruct (q_both _ _ _ _ _ E1) as (s1 & es1' & l1 & R1 & H1 & _). destruct (q_both _ _ _ _ _ E2) as (s2 & es2' & l2 & R2 & H2 & _). exists s1, es1', l1, s2, es2', l2. split; [exact R1|]. split; [exact R2|].
  destruct (listing t2 s2 H2) as (ord & Hp & _ & _ & Hu); [now destruct H2 as [_ <-]|]. specialize (Hu ctor t1 s1 H1 ltac:(now destruct H1 as [_ <-])).
  destruct (opened (ts_tab s2) && forallb (fun e => plain_d (snd e)) (ts_tab s2)); [|exact Hu]. destruct Hu as (t' & E & Hs' & _). exists ord, t'. split; [exact Hp|]. split; [exact E|]. intros k. now apply pget_shows.
Qed.

(** ** Release *)
(** All values in the lists of a tree. *)
Definition p_stored t : list V := if p_dead t then [] else flat_map oflat (map snd (ents (hitems (p_root t)))).
Lemma stored_shows t s : pshows t s -> Permutation (p_stored t) (t_stored s).
Proof.
  intros [Hs Hd]. unfold p_stored, t_stored. rewrite Hd. destruct (ts_dead s); [reflexivity|]. apply Permutation_flat_map, Permutation_map, shows_ents, Hs.
Qed.
Lemma destroyed_perm (es es' : list (peffect V)) : Forall2 same_effect es es' -> Permutation (flat_map pe_destroyed es) (flat_map pe_destroyed es').
Proof. induction 1 as [|a b es es' [_ H] _ IH]; [constructor|]. cbn. now apply Permutation_app. Qed.
Lemma forallb_map_snd {A B} (f : B -> bool) (l : list (A * B)) : forallb f (map snd l) = forallb (fun e => f (snd e)) l.
Proof. induction l as [|x l IH]; [reflexivity|]. cbn. now rewrite IH. Qed.
Lemma forallb_perm {A} (f : A -> bool) (l l' : list A) : Permutation l l' -> forallb f l = forallb f l'.
Proof. induction 1 as [|x l l' _ IH|x y l|l l' l'' _ IH1 _ IH2]; cbn; [reflexivity|now rewrite IH|now destruct (f x), (f y)|congruence]. Qed.
Lemma q_account dtor ctor os t es : p_run dtor ctor p_create os = Ok (t, es) ->
  exists s es' lost, t_run dtor ctor ts_new os = Ok (s, es', lost) /\
    Permutation (flat_map (given ctor) os) (p_stored t ++ flat_map pe_destroyed es ++ lost) /\
    (p_dead t = false ->
       if dtor && negb (forallb (fun e => plain_d (snd e)) (ts_tab s)) then p_destroy dtor t = UB
       else exists ev, p_destroy dtor t = Ok ev /\ Permutation ev (if dtor then p_stored t else [])).
Proof.
  intros E. destruct (q_both _ _ _ _ _ E) as (s & es' & l & Er & Hs & He). exists s, es', l. split; [exact Er|]. pose proof (stored_shows _ _ Hs) as Hst. split.
  - pose proof (t_run_account dtor ctor os p_create ts_new s es' l pshows_new Er) as A. cbn [t_stored ts_new ts_dead ts_tab map flat_map] in A. rewrite app_nil_r in A. rewrite A, <- Hst, <- (destroyed_perm _ _ He). reflexivity.
  - intros Hd. destruct Hs as [Hs Hdd]. unfold p_destroy. rewrite Hd. assert (Hf : gfull (p_root t)) by apply Hs. rewrite pdestroy_ents by exact Hf. unfold p_stored. rewrite Hd. unfold t_release. destruct dtor; cbn [andb]; [|exists []; split; [reflexivity|constructor]].
    assert (Ep : forallb plain_d (map snd (ents (hitems (p_root t)))) = forallb (fun e => plain_d (snd e)) (ts_tab s)).
    { rewrite <- forallb_map_snd. apply forallb_perm, Permutation_map, shows_ents, Hs. }
    rewrite Ep. destruct (forallb (fun e => plain_d (snd e)) (ts_tab s)); cbn [negb]; [|reflexivity]. eexists. split; [reflexivity|]. reflexivity.
Qed.
Lemma q_release ctor os t es : no_parting (set_keys os) -> ~ In [] (set_keys os) -> p_run true ctor p_create os = Ok (t, es) -> p_dead t = false ->
  exists ev, p_destroy true t = Ok ev /\ Permutation (flat_map (given ctor) os) (flat_map pe_destroyed es ++ ev).
Proof.
  intros Hn Hk E Hd. destruct (forkfree_law true ctor os t es (np_forkfree _ _ _ Hn) E Hd) as (s & es' & l & Er & Hs & He & Hl & Hn0 & Hlost). specialize (Hlost eq_refl Hk). subst l.
  pose proof (wf_shows _ _ Hs) as Hnd. destruct (law_opened _ _ Hnd Hn0 Hl) as (_ & Hpl & _).
  destruct (q_account true ctor os t es E) as (s2 & es2 & lost & Er2 & A & Hdes). rewrite Er in Er2. apply Ok3 in Er2. destruct Er2 as (<- & _ & <-). specialize (Hdes Hd). rewrite Hpl in Hdes. cbn [andb negb] in Hdes.
  destruct Hdes as (ev & Ee & Hp). exists ev. split; [exact Ee|]. rewrite A, app_nil_r, Hp. apply Permutation_app_comm.
Qed.
End Q.

(** ** The object multi-dictionary *)
Lemma q_mrun {V} (os : list (mop V)) :
  match mo_run mt_create os, tm_run ([], 0%Z) os with
  | Ok (t, outs), Ok (s, outs') => outs = outs' /\ mlen t = snd s
  | UB, UB => True
  | _, _ => False
  end.
Proof.
  pose proof (mo_run_shows os mt_create ([], 0%Z) mshows_new) as H. destruct (mo_run mt_create os) as [[t r]| |]; destruct (tm_run ([], 0%Z) os) as [[s r']| |]; auto. destruct H as [H1 [_ H2]]. auto.
Qed.
