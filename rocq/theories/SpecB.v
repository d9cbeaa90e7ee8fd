(** Specifications for the multi-dictionaries. *)
From Verif Require Import CStr CStrFacts HSListModel HSListFacts SetModel SetFacts RTreeModel RTreeFacts
  RTreeFacts2 RTreeFacts3 RTreeFacts4 MRTreeModel MRTreeFacts MRTreeFacts2 SpecA.

Section B.
Context {V : Type}.
Implicit Types (t : mtree V) (k p s : str).

(** [k] has a value list (possibly empty). *)
Definition listed t k : Prop := exists l, mt_get t k = Ok (Some l).
(** [k] is the only listed key that properly extends some listed key. *)
Definition only_extension t k : Prop :=
  exists p, listed t p /\ listed t k /\ proper_prefix p k /\
    forall s, listed t s -> proper_prefix p s -> s = k.
(** The plain values in a value list, lists stored inside it spliced in. *)
Definition plain (o : res (option (list (mval V)))) : list V :=
  match o with Ok (Some l) => mflat l | _ => [] end.

Lemma listed_mlook t k : listed t k <-> mlook t k <> None.
Proof.
  unfold listed. rewrite mt_get_mlook. destruct (mlook t k) as [l|]; split; try congruence; eauto.
  intros (l & H). discriminate.
Qed.
Lemma plain_oflat t k : plain (mt_get t k) = oflat (mlook t k).
Proof. rewrite mt_get_mlook. now destruct (mlook t k). Qed.

Lemma at_path_app (l : list (node (list (mval V)))) p m : at_path l p m -> forall q x, at_path (hitems (nsubs m)) q x -> at_path l (p ++ q) x.
Proof.
  induction 1 as [l n Hin|l n q m Hin H IH]; intros q' x Hx.
  - now apply AP_below.
  - rewrite <- app_assoc. apply AP_below; auto.
Qed.
Lemma at_path_wff (h : hsl (node (list (mval V)))) p m : wff h -> full h -> at_path (hitems h) p m ->
  wff (nsubs m) /\ full (nsubs m) /\ ndata m <> None /\ p <> [].
Proof.
  intros Hw Hf H. remember (hitems h) as l eqn:El. revert h Hw Hf El.
  induction H as [l n Hin|l n q m Hin H IH]; intros h Hw Hf ->.
  - split; [eapply wff_sub; eauto|]. split; [eapply full_sub; eauto|]. split; [eapply full_data; eauto|]. eapply wff_key; eauto.
  - destruct (IH (nsubs n)) as (A & B & C & D); eauto using wff_sub, full_sub.
    split; [exact A|]. split; [exact B|]. split; [exact C|]. intros E. apply app_eq_nil in E. tauto.
Qed.
Lemma look_through (h : hsl (node (list (mval V)))) p m r : wff h -> at_path (hitems h) p m -> r <> [] ->
  look h (p ++ r) = look (nsubs m) r.
Proof.
  intros Hw H Hr. remember (hitems h) as l eqn:El. revert h Hw El.
  induction H as [l n Hin|l n q m Hin H IH]; intros h Hw ->.
  - pose proof (wff_key _ _ Hw Hin) as Hk. rewrite (look_in h n); auto.
    + rewrite nlook_app. destruct r; [congruence|reflexivity].
    + intros E. apply app_eq_nil in E. tauto.
    + unfold head0. destruct (nkey n); [congruence|reflexivity].
  - pose proof (wff_key _ _ Hw Hin) as Hk. rewrite <- app_assoc. rewrite (look_in h n); auto.
    + rewrite nlook_app. destruct (q ++ r) eqn:E; [apply app_eq_nil in E; tauto|].
      apply IH; auto. eapply wff_sub; eauto.
    + intros E. apply app_eq_nil in E. tauto.
    + unfold head0. destruct (nkey n); [congruence|reflexivity].
Qed.

Lemma lone_only t k : minv t -> (lone (mroot t) k <-> only_extension t k).
Proof.
  intros (Hw & _ & Hf). split.
  - intros (p & m & n & Hp & En & -> & Es). destruct (at_path_wff _ _ _ Hw Hf Hp) as (Hwm & Hfm & Hd & Hne).
    assert (Hin : In n (hitems (nsubs m))) by (rewrite En; now left).
    assert (Hk : at_path (hitems (mroot t)) (p ++ nkey n) n) by (eapply at_path_app; eauto; now constructor).
    exists p. split; [|split; [|split]].
    + apply listed_mlook. unfold mlook. now rewrite (at_path_look _ _ _ Hw Hp).
    + apply listed_mlook. unfold mlook. rewrite (at_path_look _ _ _ Hw Hk). eapply full_data; eauto.
    + pose proof (wff_key _ _ Hwm Hin). destruct (nkey n) as [|c r] eqn:E; [congruence|]. now exists c, r.
    + intros s Hs (c & r & ->). apply listed_mlook in Hs. unfold mlook in Hs.
      rewrite (look_through _ _ _ _ Hw Hp) in Hs by discriminate.
      destruct (look (nsubs m) (c :: r)) as [l|] eqn:El; [|congruence].
      apply look_at_path in El; [|exact Hwm]. destruct El as (x & Hx & _). apply at_path_inv in Hx.
      rewrite En in Hx. destruct Hx as (n' & [<-|[]] & [[-> _]|(q' & _ & Hq)]); [reflexivity|].
      rewrite Es in Hq. apply at_path_inv in Hq. destruct Hq as (? & [] & _).
  - intros (p & Hlp & Hlk & (c & r & ->) & Honly).
    apply listed_mlook in Hlp. unfold mlook in Hlp. destruct (look (mroot t) p) as [dp|] eqn:Ep; [|congruence].
    apply look_at_path in Ep; [|exact Hw]. destruct Ep as (m & Hp & _).
    destruct (at_path_wff _ _ _ Hw Hf Hp) as (Hwm & Hfm & _ & Hne).
    assert (Hall : forall q x, at_path (hitems (nsubs m)) q x -> q = c :: r).
    { intros q x Hq. destruct (at_path_wff _ _ _ Hwm Hfm Hq) as (_ & _ & Hd & Hqne).
      apply (app_inv_head p). apply Honly.
      - apply listed_mlook. unfold mlook. now rewrite (at_path_look _ _ _ Hw (at_path_app _ _ _ Hp _ _ Hq)).
      - destruct q as [|a q]; [congruence|]. now exists a, q. }
    apply listed_mlook in Hlk. unfold mlook in Hlk. rewrite (look_through _ _ _ _ Hw Hp) in Hlk by discriminate.
    destruct (hitems (nsubs m)) as [|n l] eqn:En.
    { exfalso. apply Hlk. apply look_notin; [exact Hwm|]. rewrite En. constructor. }
    pose proof (Hall (nkey n) n (AP_here _ _ (in_eq n l))) as Hn.
    assert (Hl : l = []).
    { destruct l as [|n2 l]; [reflexivity|]. exfalso.
      pose proof (Hall (nkey n2) n2 (AP_here _ _ (in_cons n _ _ (in_eq n2 l)))) as Hn2.
      pose proof (wff_nodup _ Hwm) as Hnd. rewrite En in Hnd. inversion Hnd as [|? ? Hni _]. apply Hni. left.
      unfold head0. now rewrite Hn, Hn2. }
    subst l. exists p, m, n. split; [exact Hp|]. split; [exact En|]. split; [now rewrite Hn|].
    destruct (hitems (nsubs n)) as [|y l] eqn:Ey; [reflexivity|]. exfalso.
    assert (Hiny : In y (hitems (nsubs n))) by (rewrite Ey; now left).
    pose proof (Hall (nkey n ++ nkey y) y (AP_below _ n _ _ (in_eq n []) (AP_here _ _ Hiny))) as Hy.
    rewrite Hn in Hy. rewrite <- (app_nil_r (c :: r)) in Hy at 2. apply app_inv_head in Hy.
    assert (Hinn : In n (hitems (nsubs m))) by (rewrite En; now left).
    exact (wff_key _ _ (wff_sub _ _ Hwm Hinn) Hiny Hy).
Qed.

(** The statements of the properties. *)
Lemma md_get_flat (kvs : list (str * V)) : nonempty_keys kvs ->
  exists t, mt_sets mt_create kvs = Ok t /\ mlen t = Z.of_nat (length kvs) /\
    forall k, plain (mt_get t k) = values_of kvs k.
Proof.
  intros Hne. destruct (mt_sets_spec kvs mt_create minv_create Hne) as (t & E & _ & Hlen & Hl).
  exists t. split; [exact E|]. split; [cbn in Hlen; lia|]. intros k. rewrite plain_oflat, Hl. unfold mlook, mt_create. cbn [mroot]. now rewrite look_empty.
Qed.
Lemma md_get_exact (kvs : list (str * V)) : nonempty_keys kvs -> no_branching kvs ->
  exists t, mt_sets mt_create kvs = Ok t /\
    forall k, mt_get t k = Ok (match values_of kvs k with [] => None | vs => Some (map MV vs) end).
Proof.
  intros Hne Hnb. destruct (mt_sets_exact kvs [] mt_create minv_create Hne Hnb) as (t & E & Hl); [intros k; unfold mlook, mt_create; cbn [mroot]; apply look_empty|].
  exists t. split; [exact E|]. intros k. rewrite mt_get_mlook, Hl. unfold wrap. cbn [app]. now destruct (values_of kvs k).
Qed.
Lemma md_cmp eqv t1 t2 : (forall l, eqv l l = true) -> mreach t1 -> mreach t2 ->
  exists b, mt_cmp eqv t1 t2 = Ok b /\ (b = true <-> forall k, listed t1 k <-> listed t2 k).
Proof.
  intros Hr H1 H2. destruct (mt_cmp_spec eqv t1 t2 Hr (mreach_minv _ H1) (mreach_minv _ H2)) as (b & E & Hb).
  exists b. split; [exact E|]. rewrite Hb. split; intros H k; specialize (H k); rewrite !listed_mlook in *;
    destruct (mlook t1 k), (mlook t2 k); intuition congruence.
Qed.
Lemma md_unset t k : mreach t -> k <> [] ->
  (mt_unset t k = UB /\ only_extension t k) \/
  (~ only_extension t k /\ exists t', mt_unset t k = Ok t' /\
     plain (mt_get t' k) = [] /\ (forall k', k' <> k -> plain (mt_get t' k') = plain (mt_get t k'))).
Proof.
  intros Ht Hk. apply mreach_minv in Ht. pose proof (mt_unset_spec t k Ht Hk) as H.
  destruct (mt_unset t k) as [t'| |]; [right|left; split; [reflexivity|now apply (lone_only t k Ht)]|contradiction].
  destruct H as (_ & Hn & Hl & _). split; [intros Ho; apply Hn; now apply (lone_only t k Ht)|]. exists t'. split; [reflexivity|]. split.
  - now rewrite plain_oflat, Hl, streq_refl.
  - intros k' Hne. now rewrite !plain_oflat, Hl, streq_neq.
Qed.
Lemma md_unite t1 t2 : mreach t1 -> mreach t2 ->
  exists t, mt_unite t1 t2 = Ok t /\
    forall k, plain (mt_get t k) = plain (mt_get t1 k) ++ plain (mt_get t2 k).
Proof.
  intros H1 H2. destruct (mt_unite_spec t1 t2 (mreach_minv _ H1) (mreach_minv _ H2)) as (t & E & _ & Hl).
  exists t. split; [exact E|]. intros k. now rewrite !plain_oflat.
Qed.
Lemma md_enum t : mreach t ->
  exists ps, mt_pairs t = Ok ps /\ NoDup (map fst ps) /\
    (forall k l, In (k, l) ps <-> mt_get t k = Ok (Some l)) /\
    mt_keys t = Ok (map fst ps) /\ mt_values t = Ok (map snd ps).
Proof. intros H. apply mt_pairs_spec, mreach_minv, H. Qed.
End B.

(** Boolean check of [no_branching], for the examples. *)
Fixpoint branch_ok (p : str) (s k : str) (keys : list str) : bool :=
  match s, k with
  | a :: s', b :: k' => if Ascii.eqb a b then branch_ok (p ++ [a]) s' k' keys
                        else match p with [] => true | _ => existsb (streq p) keys end
  | _, _ => true
  end.
Lemma branch_ok_spec keys : forall s k p0, branch_ok p0 s k keys = true ->
  forall p a ra b rb, s = p ++ a :: ra -> k = p ++ b :: rb -> a <> b -> p0 ++ p <> [] -> In (p0 ++ p) keys.
Proof.
  induction s as [|x s IH]; intros k p0 H p a ra b rb Es Ek Hab Hp; [destruct p; discriminate|].
  destruct k as [|y k]; [destruct p; discriminate|]. cbn in H. destruct p as [|z p].
  - cbn in Es, Ek. inversion Es; inversion Ek; subst. destruct (Ascii.eqb_spec a b); [congruence|].
    rewrite app_nil_r in *. destruct p0; [congruence|].
    apply existsb_exists in H. destruct H as (q & Hin & Hq). apply streq_iff in Hq. now subst.
  - cbn in Es, Ek. inversion Es; inversion Ek; subst. rewrite Ascii.eqb_refl in H.
    change (z :: p) with ([z] ++ p). rewrite app_assoc. eapply IH; eauto.
    intros E. apply app_eq_nil in E. destruct E as [E _]. apply app_eq_nil in E. destruct E; discriminate.
Qed.
Fixpoint nbr_b {V} (seen : list str) (kvs : list (str * V)) : bool :=
  match kvs with
  | [] => true
  | (k, _) :: r => forallb (fun s => branch_ok [] s k seen) seen && nbr_b (seen ++ [k]) r
  end.
Lemma no_branching_b {V} (kvs : list (str * V)) : nbr_b [] kvs = true -> no_branching kvs.
Proof.
  cut (forall seen, nbr_b seen kvs = true -> forall l1 k v l2 s p a ra b rb, kvs = l1 ++ (k, v) :: l2 ->
    In s (seen ++ map fst l1) -> s = p ++ a :: ra -> k = p ++ b :: rb -> a <> b -> p <> [] -> In p (seen ++ map fst l1)).
  { intros H Hb. exact (H [] Hb). }
  induction kvs as [|[k v] kvs IH]; intros seen H l1 k' v' l2 s p a ra b rb E; [destruct l1; discriminate|].
  cbn in H. apply andb_prop in H. destruct H as [H1 H2]. destruct l1 as [|x l1].
  - cbn in E. inversion E; subst. rewrite app_nil_r. intros Hs Es Ek Hab Hp.
    rewrite forallb_forall in H1. specialize (H1 s Hs). now apply (branch_ok_spec seen s k' [] H1 p a ra b rb).
  - cbn in E. inversion E; subst. cbn [map fst].
    intros Hs Es Ek Hab Hp. replace (seen ++ k :: map fst l1) with ((seen ++ [k]) ++ map fst l1) in * by (now rewrite <- app_assoc).
    eapply IH; eauto.
Qed.
