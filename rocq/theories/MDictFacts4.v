(** Programs in which no two keys part; the object multi-dictionary as a table. *)
From Coq Require Import Permutation.
From Verif Require Import CStr CStrFacts HSListModel HSListFacts SetModel RTreeModel RTreeFacts RTreeFacts2 RTreeFacts3 RTreeFacts4
  MRTreeModel MRTreeFacts MRTreeFacts2 SpecA MDictModel MDictFacts MDictSpec MDictFacts2 MDictFacts3.

Section P.
Context {V : Type}.
Notation mlist := (list (mval V)).
Notation ptable := (list (str * option mlist)).
Implicit Types (tb : ptable) (k q : str) (v : V) (t : pdict V) (s : tstate (V:=V)) (os : list (pop V)).

(** The values set under [k] since it was last unset. *)
Definition vals1 (ctor : V -> V) k (vs : list V) (o : pop V) : list V :=
  match o with
  | PSet q v => if streq q k then vs ++ [ctor v] else vs
  | PUnset q => if streq q k then [] else vs
  | PClear => []
  | PGet _ => vs
  end.
Definition vals (ctor : V -> V) os k : list V := fold_left (vals1 ctor k) os [].
Definition set_keys os : list str := flat_map (fun o => match o with PSet k _ => [k] | _ => [] end) os.
(** Any two keys are prefixes of one another or differ in the first character. *)
Definition no_parting (ks : list str) : Prop :=
  forall k1 k2, In k1 ks -> In k2 ks -> prefix k1 k2 \/ prefix k2 k1 \/ char0 k1 <> char0 k2.

(** No operation forks. *)
Fixpoint forkfree (dtor : bool) (ctor : V -> V) s os : Prop :=
  match os with
  | [] => True
  | o :: r =>
      match o with PSet k _ => tforks (ts_tab s) k = false | _ => True end /\
      forall s' e l, t_step dtor ctor s o = Ok (s', e, l) -> forkfree dtor ctor s' r
  end.

Definition law tb (f : str -> list V) : Prop :=
  forall k, k <> [] -> tget tb k = Some (Some (map MV (f k))) \/ tget tb k = None /\ f k = [].
Lemma tget_nil_t_step dtor ctor s o s' e l : tget (ts_tab s) [] = None -> t_step dtor ctor s o = Ok (s', e, l) ->
  match o with PSet k _ => tforks (ts_tab s) k = false | _ => True end -> tget (ts_tab s') [] = None.
Proof.
  intros Hn. destruct o as [k v|k|k|]; cbn [t_step].
  - destruct k as [|c k]; [intros [= <- <- <-]; auto|]. destruct (ts_dead s); [discriminate|]. intros E Hf. apply Ok3 in E. destruct E as (<- & _ & _). cbn [ts_tab]. unfold t_set. rewrite tset_ne by discriminate.
    destruct (tget (ts_tab s) (c :: k)) as [d|]; [rewrite tget_tput; cbn; exact Hn|]. rewrite Hf, tget_cons. exact Hn.
  - destruct k as [|c k]; [intros [= <- <- <-]; auto|]. destruct (ts_dead s); [discriminate|]. intros [= <- <- <-]. auto.
  - destruct k as [|c k]; [intros [= <- <- <-]; auto|]. destruct (ts_dead s); [discriminate|]. unfold t_unset. rewrite tunset_ne by discriminate.
    destruct (tget (ts_tab s) (c :: k)) as [d|]; [|cbn; intros [= <- <- <-]; auto]. destruct (t_release dtor [d]) as [x| |]; cbn [bind]; try discriminate. destruct (tlonely (ts_tab s) (c :: k)); [discriminate|]. cbn [bind fst snd].
    intros E _. apply Ok3 in E. destruct E as (<- & _ & _). cbn [ts_tab]. destruct (texceeded (ts_tab s) (c :: k)); [rewrite tget_tput|rewrite tget_tdel]; exact Hn.
  - destruct (ts_dead s); [discriminate|]. destruct (t_release dtor (map snd (ts_tab s))); cbn [bind]; try discriminate. intros [= <- <- <-]. auto.
Qed.
Lemma law_step dtor ctor s o s' e l f : law (ts_tab s) f -> t_step dtor ctor s o = Ok (s', e, l) -> ts_dead s' = false ->
  match o with PSet k _ => tforks (ts_tab s) k = false | _ => True end -> law (ts_tab s') (fun k => vals1 ctor k (f k) o) /\ (dtor = true -> (forall k v, o = PSet k v -> k <> []) -> l = []).
Proof.
  intros Hl. destruct o as [k v|k|k|]; cbn [t_step vals1].
  - destruct k as [|c k].
    { intros [= <- <- <-] _ _. split; [|intros _ H; now destruct (H [] v eq_refl)]. intros q Hq. destruct (streq_spec [] q); [congruence|]. now apply Hl. }
    destruct (ts_dead s); [discriminate|]. intros E _ Hf. apply Ok3 in E. destruct E as (<- & _ & <-). cbn [ts_tab]. set (K := c :: k) in *. assert (HK : K <> []) by discriminate. clearbody K. split.
    + intros q Hq. unfold t_set. rewrite tset_ne by exact HK. destruct (Hl K HK) as [EK|[EK Ef]]; rewrite EK.
      * rewrite tget_tput, EK. destruct (streq_spec q K) as [->|Hn]; [rewrite streq_refl, map_app; now left|]. rewrite (streq_neq K q) by congruence. now apply Hl.
      * rewrite Hf, tget_cons. destruct (streq_spec K q) as [<-|Hn]; [rewrite Ef; now left|now apply Hl].
    + intros _ _. destruct (Hl K HK) as [->|[-> _]]; reflexivity.
  - destruct k as [|c k]; [intros [= <- <- <-]; auto|]. destruct (ts_dead s); [discriminate|]. intros [= <- <- <-]. auto.
  - destruct k as [|c k]. { intros [= <- <- <-] _ _. split; [|auto]. intros q Hq. destruct (streq_spec [] q); [congruence|]. now apply Hl. }
    destruct (ts_dead s); [discriminate|]. set (K := c :: k) in *. assert (HK : K <> []) by discriminate. clearbody K. unfold t_unset. rewrite tunset_ne by exact HK. destruct (Hl K HK) as [EK|[EK Ef]]; rewrite EK.
    + destruct (t_release dtor [Some (map MV (f K))]) as [x| |]; cbn [bind]; try discriminate. destruct (tlonely (ts_tab s) K); [discriminate|]. cbn [bind fst snd]. intros E _ _. apply Ok3 in E. destruct E as (<- & _ & <-). cbn [ts_tab].
      split; [|intros -> _; reflexivity]. intros q Hq. destruct (texceeded (ts_tab s) K).
      * rewrite tget_tput, EK. destruct (streq_spec q K) as [->|Hn]; [rewrite streq_refl; now left|]. rewrite (streq_neq K q) by congruence. now apply Hl.
      * rewrite tget_tdel. destruct (streq_spec q K) as [->|Hn]; [rewrite streq_refl; now right|]. rewrite (streq_neq K q) by congruence. now apply Hl.
    + cbn [bind fst snd]. intros E _ _. apply Ok3 in E. destruct E as (<- & _ & <-). cbn [ts_tab]. split; [|intros -> _; reflexivity]. intros q Hq. destruct (streq_spec K q) as [<-|Hn]; [now right|now apply Hl].
  - destruct (ts_dead s); [discriminate|]. destruct (t_release dtor (map snd (ts_tab s))); cbn [bind]; try discriminate. intros [= <- <- <-]. cbn [ts_dead ts_tab]. intros Hd _.
    split; [|intros -> _; reflexivity]. destruct (ts_tab s); [|discriminate]. intros q Hq. now right.
Qed.
Lemma dead_stays dtor ctor s o s' e l : t_step dtor ctor s o = Ok (s', e, l) -> ts_dead s = true -> ts_dead s' = true.
Proof.
  intros E Hd. destruct o as [k v|k|k|]; cbn [t_step] in E; rewrite ?Hd in E; try discriminate; destruct k; try discriminate; injection E as <- _ _; exact Hd.
Qed.
Lemma dead_run dtor ctor os : forall s s' es l, t_run dtor ctor s os = Ok (s', es, l) -> ts_dead s = true -> ts_dead s' = true.
Proof.
  induction os as [|o os IH]; intros s s' es l; cbn [t_run]; [intros [= <- _ _]; auto|].
  destruct (t_step dtor ctor s o) as [[[s1 e] l1]| |] eqn:Es; cbn [bind fst snd]; try discriminate. destruct (t_run dtor ctor s1 os) as [[[s2 es2] l2]| |] eqn:Er; cbn [bind fst snd]; try discriminate.
  intros [= <- _ _] Hd. apply (IH _ _ _ _ Er). exact (dead_stays _ _ _ _ _ _ _ Es Hd).
Qed.
Lemma law_ext tb f g : (forall k, f k = g k) -> law tb f -> law tb g.
Proof. intros E H k Hk. rewrite <- E. now apply H. Qed.
Lemma law_run dtor ctor os : forall s s' es l f, law (ts_tab s) f -> tget (ts_tab s) [] = None -> t_run dtor ctor s os = Ok (s', es, l) -> ts_dead s' = false -> forkfree dtor ctor s os ->
  law (ts_tab s') (fun k => fold_left (vals1 ctor k) os (f k)) /\ tget (ts_tab s') [] = None /\ (dtor = true -> ~ In [] (set_keys os) -> l = []).
Proof.
  induction os as [|o os IH]; intros s s' es l f Hl Hn; cbn [t_run]; [intros [= <- _ <-] _ _; auto|].
  destruct (t_step dtor ctor s o) as [[[s1 e] l1]| |] eqn:Es; cbn [bind fst snd]; try discriminate. destruct (t_run dtor ctor s1 os) as [[[s2 es2] l2]| |] eqn:Er; cbn [bind fst snd]; try discriminate.
  intros E Hd (F1 & F2). apply Ok3 in E. destruct E as (<- & _ & <-). assert (Hd1 : ts_dead s1 = false) by (destruct (ts_dead s1) eqn:X; [apply (dead_run _ _ _ _ _ _ _ Er) in X; congruence|reflexivity]).
  destruct (law_step _ _ _ _ _ _ _ f Hl Es Hd1 F1) as [L1 L2]. pose proof (tget_nil_t_step _ _ _ _ _ _ _ Hn Es F1) as N1.
  destruct (IH s1 s2 es2 l2 _ L1 N1 Er Hd (F2 _ _ _ Es)) as (I1 & I2 & I3). split; [exact I1|]. split; [exact I2|]. intros Hdt Hk. rewrite L2, I3; auto.
  - intros Hin. apply Hk. unfold set_keys. cbn [flat_map]. apply in_or_app. now right.
  - intros k v ->. intros ->. apply Hk. now left.
Qed.

(** ** Programs without forks *)
Lemma stem_no_fork tb k : k <> [] -> (forall q, tget tb q <> None -> forall s : str, s <> [] -> prefix s q -> prefix s k -> (forall r, prefix r q -> prefix r k -> prefix r s) -> s = k \/ tget tb s <> None) -> tforks tb k = false.
Proof.
  intros Hk H. rewrite tforks_ne by exact Hk. destruct (tget tb k) eqn:Ek; [reflexivity|]. destruct (stem_stems tb k) as (S1 & S2 & S3). destruct (stem tb k) as [|a s] eqn:Es; [reflexivity|]. cbv zeta.
  destruct S2 as [S2|(q & Hq & Hs)]; [discriminate|]. destruct (H q Hq (a :: s) ltac:(discriminate) Hs S1) as [E|Hn].
  - intros r Hr1 Hr2. now apply (S3 q).
  - destruct (streq_spec (a :: s) k); [reflexivity|contradiction].
  - destruct (tget tb (a :: s)); [now rewrite Bool.andb_false_r|congruence].
Qed.
Lemma no_parting_step dtor ctor s o s' e l (ks : list str) : (forall q, tget (ts_tab s) q <> None -> In q ks) -> (forall k v, o = PSet k v -> In k ks) -> no_parting ks ->
  match o with PSet k _ => tforks (ts_tab s) k = false | _ => True end /\
  (t_step dtor ctor s o = Ok (s', e, l) -> forall q, tget (ts_tab s') q <> None -> In q ks).
Proof.
  intros Hs Ho Hnp. assert (Hf : match o with PSet k _ => tforks (ts_tab s) k = false | _ => True end).
  { destruct o as [k v| | |]; auto. destruct k as [|c k]; [reflexivity|]. specialize (Ho (c :: k) v eq_refl). apply stem_no_fork; [discriminate|]. intros q Hq x Hx P1 P2 Hm. pose proof (Hs q Hq) as Hin.
    destruct (Hnp q (c :: k) Hin Ho) as [H|[H|H]].
    - right. assert (x = q) as -> by (apply prefix_antisym; [exact P1|apply Hm; [apply prefix_refl|exact H]]). exact Hq.
    - left. apply prefix_antisym; [exact P2|apply Hm; [exact H|apply prefix_refl]].
    - exfalso. apply H. rewrite (prefix_char0 x q Hx P1), (prefix_char0 x (c :: k) Hx P2). reflexivity. }
  split; [exact Hf|]. destruct o as [k v|k|k|]; cbn [t_step].
  - destruct k as [|c k]; [intros [= <- <- <-]; auto|]. destruct (ts_dead s); [discriminate|]. intros E. apply Ok3 in E. destruct E as (<- & _ & _). cbn [ts_tab]. unfold t_set. rewrite tset_ne by discriminate. rewrite Hf.
    intros q. destruct (tget (ts_tab s) (c :: k)) as [d|] eqn:Ek.
    + rewrite tget_tput, Ek. destruct (streq_spec q (c :: k)) as [->|Hn]; [intros _; eapply Ho; reflexivity|apply Hs].
    + rewrite tget_cons. destruct (streq_spec (c :: k) q) as [<-|Hn]; [intros _; eapply Ho; reflexivity|apply Hs].
  - destruct k as [|c k]; [intros [= <- <- <-]; auto|]. destruct (ts_dead s); [discriminate|]. intros [= <- <- <-]. auto.
  - destruct k as [|c k]; [intros [= <- <- <-]; auto|]. destruct (ts_dead s); [discriminate|]. unfold t_unset. rewrite tunset_ne by discriminate.
    destruct (tget (ts_tab s) (c :: k)) as [d|] eqn:Ek; [|cbn; intros [= <- <- <-]; auto]. destruct (t_release dtor [d]) as [x| |]; cbn [bind]; try discriminate. destruct (tlonely (ts_tab s) (c :: k)); [discriminate|]. cbn [bind fst snd].
    intros E. apply Ok3 in E. destruct E as (<- & _ & _). cbn [ts_tab]. intros q. destruct (texceeded (ts_tab s) (c :: k)); [rewrite tget_tput, Ek|rewrite tget_tdel]; destruct (streq_spec q (c :: k)) as [->|Hn]; try (apply Hs); [intros _; apply Hs; congruence|congruence].
  - destruct (ts_dead s); [discriminate|]. destruct (t_release dtor (map snd (ts_tab s))); cbn [bind]; try discriminate. intros [= <- <- <-]. auto.
Qed.
Lemma no_parting_forkfree dtor ctor os : forall s (ks : list str), (forall q, tget (ts_tab s) q <> None -> In q ks) -> incl (set_keys os) ks -> no_parting ks -> forkfree dtor ctor s os.
Proof.
  induction os as [|o os IH]; intros s ks Hs Hi Hnp; [exact I|].
  assert (Ho : forall k v, o = PSet k v -> In k ks) by (intros k v ->; apply Hi; now left).
  assert (Hi' : incl (set_keys os) ks) by (intros x Hx; apply Hi; unfold set_keys; cbn [flat_map]; apply in_or_app; now right). split.
  - apply (no_parting_step dtor ctor s o s (mkPE None []) [] ks Hs Ho Hnp).
  - intros s' e l Es. apply (IH s' ks); auto. apply (proj2 (no_parting_step dtor ctor s o s' e l ks Hs Ho Hnp) Es).
Qed.

(** Sets only. *)
Definition psets (kvs : list (str * V)) : list (pop V) := map (fun kv => PSet (fst kv) (snd kv)) kvs.
Lemma sets_run dtor ctor kvs2 : forall kvs1 s, ts_dead s = false -> (forall q, tget (ts_tab s) q <> None <-> In q (map fst kvs1)) ->
  (forall q l, tget (ts_tab s) q = Some (Some l) -> l <> []) -> nonempty_keys (kvs1 ++ kvs2) -> no_branching (kvs1 ++ kvs2) ->
  forkfree dtor ctor s (psets kvs2) /\ exists s' es l, t_run dtor ctor s (psets kvs2) = Ok (s', es, l) /\ ts_dead s' = false /\ (forall q l, tget (ts_tab s') q = Some (Some l) -> l <> []).
Proof.
  induction kvs2 as [|[k v] kvs2 IH]; intros kvs1 s Hd Hdom Hne Hk Hnb; [split; [exact I|]; exists s, [], []; split; [reflexivity|auto]|].
  assert (Hk0 : k <> []) by (apply (Hk k v); apply in_or_app; right; now left).
  assert (Hf : tforks (ts_tab s) k = false).
  { apply stem_no_fork; [exact Hk0|]. intros q Hq x Hx P1 P2 Hm. apply Hdom in Hq. destruct P1 as (r1 & E1). destruct P2 as (r2 & E2). destruct r1 as [|a ra]; [rewrite app_nil_r in E1; subst q; right; now apply Hdom|].
    destruct r2 as [|b rb]; [rewrite app_nil_r in E2; left; congruence|]. right. apply Hdom. apply (Hnb kvs1 k v kvs2 q x a ra b rb eq_refl Hq E1 E2); [|exact Hx]. intros <-.
    assert (Hp : prefix (x ++ [a]) x) by (apply Hm; [exists ra; rewrite E1, <- app_assoc; reflexivity|exists rb; rewrite E2, <- app_assoc; reflexivity]). apply prefix_length in Hp. rewrite app_length in Hp. cbn in Hp. lia. }
  assert (Hstep : t_step dtor ctor s (PSet k v) = Ok (mkTS (t_set (ts_tab s) k (ctor v)) false, mkPE None [], match tget (ts_tab s) k with Some None => [ctor v] | _ => [] end)).
  { cbn [t_step]. destruct k; [congruence|]. now rewrite Hd. }
  set (s1 := mkTS (t_set (ts_tab s) k (ctor v)) false).
  assert (Hg : forall q, tget (ts_tab s1) q = if streq q k then match tget (ts_tab s) k with Some (Some l) => Some (Some (l ++ [MV (ctor v)])) | Some None => Some None | None => Some (Some [MV (ctor v)]) end else tget (ts_tab s) q).
  { intros q. unfold s1. cbn [ts_tab]. unfold t_set. rewrite tset_ne by exact Hk0. destruct (tget (ts_tab s) k) as [[l|]|] eqn:Ek.
    - rewrite tget_tput, Ek. reflexivity.
    - rewrite tget_tput, Ek. reflexivity.
    - rewrite Hf, tget_cons. destruct (streq_spec q k) as [->|Hn]; [now rewrite streq_refl|]. now rewrite (streq_neq k q) by congruence. }
  destruct (IH (kvs1 ++ [(k, v)]) s1) as (F & s' & es & l & E & Hd' & Hne').
  - reflexivity.
  - intros q. rewrite Hg, map_app, in_app_iff. cbn [map fst In]. rewrite <- Hdom. destruct (streq_spec q k) as [->|Hn].
    + split; [auto|]. intros _. destruct (tget (ts_tab s) k) as [[?|]|]; discriminate.
    + split; [auto|]. intros [?|[?|[]]]; [assumption|congruence].
  - intros q l. rewrite Hg. destruct (streq q k); [|apply Hne]. destruct (tget (ts_tab s) k) as [[x|]|]; try discriminate; intros [= <-]; [destruct x|]; discriminate.
  - now rewrite <- app_assoc.
  - now rewrite <- app_assoc.
  - split.
    + split; [exact Hf|]. intros s0 e0 l0. change (fst (k, v)) with k. change (snd (k, v)) with v. rewrite Hstep. intros E0. apply Ok3 in E0. destruct E0 as (<- & _ & _). exact F.
    + unfold psets. cbn [map fst snd t_run]. rewrite Hstep. cbn [bind fst snd]. fold s1. fold (psets kvs2). rewrite E. cbn [bind fst snd]. do 3 eexists. split; [reflexivity|]. auto.
Qed.
Lemma vals_values ctor (kvs : list (str * V)) k : forall vs, fold_left (vals1 ctor k) (psets kvs) vs = vs ++ map ctor (values_of kvs k).
Proof.
  induction kvs as [|[q v] kvs IH]; intros vs; cbn; [now rewrite app_nil_r|]. fold (psets kvs). rewrite IH. unfold values_of. cbn [filter fst]. destruct (streq q k); [|reflexivity]. cbn. now rewrite <- app_assoc.
Qed.
End P.

(** ** The object multi-dictionary *)
Section M.
Context {V : Type}.
Notation mlist := (list (mval V)).
Implicit Types (k : str) (t : mtree V).
(** [comps_objmrtree_set], the same with NULL as PyCOMPSMDict_set does it, unset, get. *)
Inductive mop := OSet (k : str) (v : V) | ONull (k : str) | OUnset (k : str) | OGet (k : str).
Definition mo_step t (o : mop) : res (mtree V * option mlist) :=
  match o with
  | OSet k v => t' <- mt_set t k v ;; Ok (t', None)
  | ONull k => t' <- mt_put_null t k ;; Ok (t', None)
  | OUnset k => t' <- mt_unset t k ;; Ok (t', None)
  | OGet k => o <- mt_get t k ;; Ok (t, o)
  end.
Fixpoint mo_run t (os : list mop) : res (mtree V * list (option mlist)) :=
  match os with
  | [] => Ok (t, [])
  | o :: r => a <- mo_step t o ;; b <- mo_run (fst a) r ;; Ok (fst b, snd a :: snd b)
  end.
(** The same on a table and the count. *)
Notation mtable := (list (str * mlist)).
Definition tm_set (tb : mtable) k (vs : mlist) : mtable := tset (fun l => l ++ vs) (fun l => [MNest l]) vs [] tb k.
Definition tm_step (s : mtable * Z) (o : mop) : res (mtable * Z * option mlist) :=
  let one k : Z := match k with [] => 0%Z | _ :: _ => 1%Z end in
  match o with
  | OSet k v => Ok (tm_set (fst s) k [MV v], snd s + one k, None)%Z
  | ONull k => Ok (tm_set (fst s) k [], snd s + one k, None)%Z
  | OUnset k => r <- tunset (fun l => Ok (Z.of_nat (length l))) 0%Z (fun _ => []) (fst s) k ;; Ok (fst r, (snd s - snd r)%Z, None)
  | OGet k => Ok (s, tget (fst s) k)
  end.
Fixpoint tm_run (s : mtable * Z) (os : list mop) : res (mtable * Z * list (option mlist)) :=
  match os with
  | [] => Ok (s, [])
  | o :: r => a <- tm_step s o ;; b <- tm_run (fst a) r ;; Ok (fst b, snd a :: snd b)
  end.
Lemma mset_gset fuel : forall (h : hsl (node mlist)) k vs, mset_sub fuel h k vs = gset (fun o => olist o ++ vs) (fun o => [MNest (olist o)]) vs [] fuel h k.
Proof.
  induction fuel as [|fuel IH]; intros h k vs; (destruct k as [|c k]; [reflexivity|]); [reflexivity|]. cbn [mset_sub gset].
  destruct (find_child c (hitems h) 0 None) as [i n|]; [|reflexivity]. destruct (scan 1 k (tl (nkey n))); try (now rewrite IH); reflexivity.
Qed.
Lemma munset_gunset fuel : forall isroot (h : hsl (node mlist)) k, munset_sub fuel isroot h k = gunset (fun o => Ok (Z.of_nat (length (olist o)))) 0%Z (fun _ => []) fuel isroot h k.
Proof.
  induction fuel as [|fuel IH]; intros isroot h k; (destruct k as [|c k]; [reflexivity|]); [reflexivity|]. cbn [munset_sub gunset].
  destruct (find_child c (hitems h) 0 None) as [i n|]; [|reflexivity]. destruct (scan 1 k (tl (nkey n))); try (now rewrite IH); reflexivity.
Qed.
Definition mshows t (s : mtable * Z) : Prop := shows (mroot t) (fst s) /\ mlen t = snd s.
Lemma mput_shows t s k vs : mshows t s ->
  exists t', (s' <- mset_sub (length k) (mroot t) k vs ;; Ok (mkMT s' (match k with [] => mlen t | _ => mlen t + 1 end)%Z)) = Ok t' /\
    mshows t' (tm_set (fst s) k vs, (snd s + match k with [] => 0 | _ => 1 end)%Z).
Proof.
  intros (H & Hn). rewrite mset_gset. destruct (gset_shows (fun o => olist o ++ vs) (fun o => [MNest (olist o)]) vs [] (mroot t) (fst s) k H) as (h' & -> & H'). cbn [bind].
  eexists. split; [reflexivity|]. split; [exact H'|]. cbn. rewrite Hn. destruct k; lia.
Qed.
Lemma mo_step_shows t s o : mshows t s ->
  match mo_step t o, tm_step s o with
  | Ok (t', r), Ok (s', r') => r = r' /\ mshows t' s'
  | UB, UB => True
  | _, _ => False
  end.
Proof.
  intros H. destruct o as [k v|k|k|k]; cbn [mo_step tm_step].
  - unfold mt_set, mt_put. destruct (mput_shows t s k [MV v] H) as (t' & -> & H'). cbn [bind]. split; [reflexivity|exact H'].
  - unfold mt_put_null. destruct (mput_shows t s k [] H) as (t' & -> & H'). cbn [bind]. split; [reflexivity|exact H'].
  - unfold mt_unset. rewrite munset_gunset. destruct H as [H Hn]. pose proof (gunset_shows (fun o => Ok (Z.of_nat (length (olist o)))) 0%Z (fun _ => []) (mroot t) (fst s) k H) as G.
    cbn [olist] in G. destruct (gunset _ _ _ (length k) true (mroot t) k) as [[h' d]| |]; destruct (tunset _ _ _ (fst s) k) as [[tb' d']| |] eqn:Eu; cbn [bind]; try contradiction; auto.
    + destruct G as [<- G]. split; [reflexivity|]. split; [exact G|]. cbn. now rewrite Hn.
    + destruct k as [|c k]; [discriminate|]. rewrite tunset_ne in Eu by discriminate. destruct (tget (fst s) (c :: k)); [|discriminate]. cbn [bind] in Eu. destruct (tlonely (fst s) (c :: k)); discriminate.
  - destruct H as [H Hn]. unfold mt_get. rewrite (gget_shows _ _ k H). cbn [bind]. split; [reflexivity|split; auto].
Qed.
Lemma mo_run_shows os : forall t s, mshows t s ->
  match mo_run t os, tm_run s os with
  | Ok (t', r), Ok (s', r') => r = r' /\ mshows t' s'
  | UB, UB => True
  | _, _ => False
  end.
Proof.
  induction os as [|o os IH]; intros t s H; cbn [mo_run tm_run]; [split; auto|].
  pose proof (mo_step_shows t s o H) as Hs. destruct (mo_step t o) as [[t1 r]| |]; destruct (tm_step s o) as [[s1 r']| |]; try contradiction; cbn [bind fst snd]; auto.
  destruct Hs as [<- H1]. specialize (IH t1 s1 H1). destruct (mo_run t1 os) as [[t2 rs]| |]; destruct (tm_run s1 os) as [[s2 rs']| |]; try contradiction; cbn [bind fst snd]; auto.
  destruct IH as [<- H2]. split; [reflexivity|exact H2].
Qed.
Lemma mshows_new : mshows mt_create ([], 0%Z).
Proof. split; [apply shows_empty|reflexivity]. Qed.
End M.
Arguments mop V : clear implicits.
