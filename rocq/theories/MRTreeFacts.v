(** Facts about the multi radix tree. *)
From Coq Require Import Permutation.
From Verif Require Import CStr CStrFacts HSListModel HSListFacts SetModel SetFacts RTreeModel RTreeFacts
  RTreeFacts2 RTreeFacts3 RTreeFacts4 MRTreeModel.

Section Facts.
Context {V : Type}.
Notation mlist := (list (mval V)).
Notation mnode := (node mlist).
Implicit Types (n : mnode) (h : hsl mnode) (k : str) (t : mtree V).

(** The caller's objects in a data list, in order, looking through the lists
    that [set] wrapped. *)
Fixpoint vflat (x : mval V) : list V :=
  match x with
  | MV v => [v]
  | MNest l => (fix go (l : mlist) : list V := match l with [] => [] | y :: r => vflat y ++ go r end) l
  end.
Definition mflat (l : mlist) : list V := flat_map vflat l.
Lemma vflat_nest l : vflat (MNest l) = mflat l.
Proof. induction l as [|x l IH]; [reflexivity|]. cbn. unfold mflat in *. cbn in IH. now rewrite IH. Qed.
Lemma mflat_app l1 l2 : mflat (l1 ++ l2) = mflat l1 ++ mflat l2.
Proof. apply flat_map_app. Qed.
Definition oflat (o : option mlist) : list V := match o with Some l => mflat l | None => [] end.
Lemma oflat_mdata n : oflat (ndata n) = mflat (mdata n).
Proof. unfold mdata. now destruct (ndata n). Qed.

(** Replacing the child that starts with a character (or adding one). *)
Definition swapped h h' (nn : mnode) : Prop :=
  wff h' /\ tight h' /\
  forall k, k <> [] -> look h' k = if Ascii.eqb (char0 k) (head0 nn) then nlook nn k else look h k.

Lemma swap_update h l1 n nn l2 :
  wff h -> tight h -> hitems h = l1 ++ n :: l2 -> head0 nn = head0 n -> wfn nn -> tight (nsubs nn) ->
  swapped h (hs_update h (length l1) nn) nn.
Proof.
  intros Hw Ht El Hh Hn Htn.
  assert (Hw' : wff (hs_update h (length l1) nn)) by now apply (wff_update h l1 n nn l2).
  split; [exact Hw'|]. split.
  - constructor.
    + pose proof (tight_good _ Ht) as Hg. unfold good, hs_update in *. cbn [htail hitems].
      rewrite El in *. rewrite list_upd_app, !app_length in *. cbn in *.
      destruct (htail h); auto. destruct l1; discriminate.
    + intros m. unfold hs_update; cbn [hitems]. rewrite El, list_upd_app. intros Hm.
      apply in_app_or in Hm. destruct Hm as [Hm|[<-|Hm]]; auto; apply (tight_sub _ _ Ht); rewrite El;
        apply in_or_app; [now left|right; now right].
  - intros k Hk. rewrite (look_update h l1 n nn l2) by auto. now rewrite Hh.
Qed.

Lemma swap_append h nn :
  wff h -> tight h -> Forall (fun m => head0 m <> head0 nn) (hitems h) -> wfn nn -> tight (nsubs nn) ->
  exists h', hs_append h nn = Ok h' /\ swapped h h' nn.
Proof.
  intros Hw Ht Hf Hn Htn. destruct (good_append h nn (tight_good _ Ht)) as (h' & E & Hi & Hg).
  exists h'. split; [exact E|].
  assert (Hw' : wff h').
  { apply (wff_splice h h' (hitems h) nn []); rewrite ?app_nil_r; auto. now apply good_semi. }
  split; [exact Hw'|]. split.
  - constructor; [exact Hg|]. intros m. rewrite Hi. intros Hm. apply in_app_or in Hm.
    destruct Hm as [Hm|[<-|[]]]; [now apply (tight_sub _ _ Ht)|exact Htn].
  - intros k Hk. apply (look_splice h h' (hitems h) nn []); rewrite ?app_nil_r; auto.
Qed.

Lemma tight_remove h i : tight h -> tight (hs_remove h i).
Proof.
  intros Ht. constructor; [apply good_remove, (tight_good _ Ht)|].
  intros m Hm. apply (tight_sub _ _ Ht). unfold hs_remove in Hm. destruct (i <? length (hitems h)); [|exact Hm].
  cbn [hitems] in Hm. unfold list_del in Hm. apply in_app_or in Hm.
  destruct Hm as [Hm|Hm]; [rewrite <- (firstn_skipn i (hitems h))|rewrite <- (firstn_skipn (S i) (hitems h))];
    apply in_or_app; auto.
Qed.

Lemma swap_replace h l1 n nn l2 :
  wff h -> tight h -> hitems h = l1 ++ n :: l2 -> head0 nn = head0 n -> wfn nn -> tight (nsubs nn) ->
  exists h', hs_append (hs_remove h (length l1)) nn = Ok h' /\ swapped h h' nn.
Proof.
  intros Hw Ht El Hh Hn Htn.
  pose proof (wff_remove h l1 n l2 Hw El) as Hwr. pose proof (hs_remove_items h l1 n l2 El) as Er.
  destruct (swap_append (hs_remove h (length l1)) nn) as (h' & E & Hw' & Ht' & Hl); auto.
  - now apply tight_remove.
  - rewrite Er. apply Forall_forall. intros m Hm Eh.
    pose proof (wff_nodup _ Hw) as H. rewrite El, map_app in H. cbn in H. apply NoDup_remove_2 in H.
    apply H. rewrite <- map_app, <- Hh, <- Eh. now apply in_map.
  - exists h'. split; [exact E|]. split; [exact Hw'|]. split; [exact Ht'|]. intros k Hk.
    rewrite Hl by exact Hk. destruct (Ascii.eqb_spec (char0 k) (head0 nn)); [reflexivity|].
    rewrite (look_remove h l1 n l2) by auto. rewrite <- Hh.
    destruct (Ascii.eqb_spec (char0 k) (head0 nn)); [contradiction|reflexivity].
Qed.

Lemma nlook_cases n k :
  nlook n k = match strip (nkey n) k with
              | Some [] => ndata n
              | Some (c :: r) => look (nsubs n) (c :: r)
              | None => None
              end.
Proof. unfold nlook. now destruct (strip (nkey n) k) as [[|]|]. Qed.

Lemma tight_empty : tight (hs_empty : hsl mnode).
Proof. constructor; [apply good_empty|]. intros ? []. Qed.

Lemma mset_sub_spec fuel : forall h k vs,
  wff h -> tight h -> length k <= fuel -> k <> [] ->
  exists h', mset_sub fuel h k vs = Ok h' /\ wff h' /\ tight h' /\
    forall k', oflat (look h' k') = oflat (look h k') ++ (if streq k' k then mflat vs else []).
Proof.
  induction fuel as [|fuel IH]; intros h k vs Hw Ht Hlen Hkne.
  { destruct k; [congruence|cbn in Hlen; lia]. }
  destruct k as [|c k]; [congruence|]. cbn [mset_sub].
  (* it is enough to compare the child with its replacement *)
  assert (Hconcl : forall h' nn, swapped h h' nn -> head0 nn = c ->
            (forall k', k' <> [] -> char0 k' = c ->
               oflat (nlook nn k') = oflat (look h k') ++ (if streq k' (c :: k) then mflat vs else [])) ->
            wff h' /\ tight h' /\
            forall k', oflat (look h' k') = oflat (look h k') ++ (if streq k' (c :: k) then mflat vs else [])).
  { intros h' nn (Hw' & Ht' & Hl) Hh H. split; [exact Hw'|]. split; [exact Ht'|]. intros k'.
    destruct k' as [|c' k0]; [reflexivity|]. rewrite Hl by discriminate. rewrite Hh.
    destruct (Ascii.eqb_spec (char0 (c' :: k0)) c) as [Ec|Ec].
    - apply H; [discriminate|exact Ec].
    - rewrite streq_neq by (cbn in Ec; congruence). now rewrite app_nil_r. }
  pose proof (find_child_spec c (hitems h) 0 None) as Hf.
  destruct (find_child c (hitems h) 0 None) as [i n|lz].
  2:{ destruct Hf as [Hf _]. set (nn := Node (c :: k) (Some vs) hs_empty : mnode).
    destruct (swap_append h nn Hw Ht) as (h' & E & Hs); auto.
    { now apply wfn_leaf. } { apply tight_empty. }
    exists h'. split; [exact E|]. apply (Hconcl h' nn Hs eq_refl). intros k' Hk' Hc.
    rewrite (look_notin h k' Hw) by now rewrite Hc. unfold nn. rewrite nlook_leaf.
    destruct (streq k' (c :: k)); cbn; now rewrite ?app_nil_r. }
  destruct Hf as (l1 & l2 & El & Hi & Hh & Hf). cbn in Hi. subst i.
  assert (Hin : In n (hitems h)) by (rewrite El; apply in_or_app; right; now left).
  pose proof (wff_key _ _ Hw Hin) as Hnk. pose proof (wff_sub _ _ Hw Hin) as Hns.
  pose proof (tight_sub _ _ Ht Hin) as Htn.
  assert (Hother : forall k', k' <> [] -> char0 k' = c -> look h k' = nlook n k')
    by (intros; apply look_in; auto; congruence).
  assert (Hself : forall k', strip (c :: k) k' = Some [] -> streq k' (c :: k) = true).
  { intros k' Es. apply strip_some in Es. rewrite app_nil_r in Es. subst. apply streq_refl. }
  assert (Hlong : forall k' a0 r0, strip (c :: k) k' = Some (a0 :: r0) -> streq k' (c :: k) = false).
  { intros k' a0 r0 Es. apply strip_some in Es. apply streq_neq. intros ->.
    apply (f_equal (@length _)) in Es. rewrite app_length in Es. cbn in Es. lia. }
  assert (Hoff : forall k', strip (c :: k) k' = None -> streq k' (c :: k) = false).
  { intros k' Es. apply strip_none in Es. apply streq_neq. intros ->. apply Es, prefix_refl. }
  pose proof (scan_keycmp c k (nkey n) Hnk Hh) as Hk.
  inversion Hk as [E He|a r E He|a r E He|p a ra b rb Hp0 E E' Hab He]; clear Hk He; cbv beta iota zeta.
  - set (nn := Node (nkey n) (Some (mdata n ++ vs)) (nsubs n)).
    eexists. split; [reflexivity|]. apply (Hconcl _ nn); [|exact Hh|].
    { apply (swap_update h l1 n nn l2); auto. split; auto. }
    intros k' Hk' Hc. rewrite Hother by assumption. rewrite !nlook_cases. cbn [nn nkey ndata nsubs].
    rewrite <- E. destruct (strip (c :: k) k') as [[|a0 r0]|] eqn:Es.
    + rewrite (Hself _ Es). cbn [oflat]. now rewrite mflat_app, <- oflat_mdata.
    + rewrite (Hlong _ _ _ Es). now rewrite app_nil_r.
    + rewrite (Hoff _ Es). reflexivity.
  - set (old := Node (skipn (length (c :: k)) (nkey n)) (ndata n) (nsubs n)).
    set (nn := Node (c :: k) (Some vs) (mkH [old] (TAt 0))).
    assert (Hold : nkey old = a :: r) by (cbn [old nkey]; rewrite E; apply skipn_app_exact).
    assert (Hwold : wff (mkH [old] (TAt 0))).
    { constructor; cbn [hitems htail].
      - reflexivity.
      - cbn. constructor; [easy|constructor].
      - intros m [<-|[]]. rewrite Hold. discriminate.
      - intros m [<-|[]]. exact Hns. }
    destruct (swap_replace h l1 n nn l2) as (h' & Ea & Hs); auto.
    { split; [discriminate|exact Hwold]. }
    { constructor; [reflexivity|]. intros m [<-|[]]. exact Htn. }
    exists h'. split; [exact Ea|]. apply (Hconcl _ nn Hs); [reflexivity|].
    intros k' Hk' Hc. rewrite Hother by assumption. rewrite !nlook_cases. cbn [nn nkey ndata nsubs].
    rewrite E. destruct (strip (c :: k) k') as [[|a0 r0]|] eqn:Es.
    + rewrite (Hself _ Es). apply strip_some in Es. rewrite app_nil_r in Es. subst k'.
      destruct (strip ((c :: k) ++ a :: r) (c :: k)) as [s|] eqn:Es2.
      { apply strip_some in Es2. apply (f_equal (@length _)) in Es2. rewrite !app_length in Es2. cbn in Es2. lia. }
      reflexivity.
    + rewrite (Hlong _ _ _ Es), app_nil_r. apply strip_some in Es. subst k'. rewrite strip_app2.
      rewrite look_cons by exact Hwold. cbn [hitems pick find]. unfold head0. rewrite Hold. cbn [char0].
      destruct (Ascii.eqb_spec a a0) as [->|Hne].
      * rewrite nlook_cases. rewrite Hold. cbn [old ndata nsubs]. reflexivity.
      * destruct (strip (a :: r) (a0 :: r0)) as [s|] eqn:Es2; [|reflexivity].
        apply strip_some in Es2. cbn in Es2. congruence.
    + rewrite (Hoff _ Es), app_nil_r. apply strip_none in Es.
      destruct (strip ((c :: k) ++ a :: r) k') as [s|] eqn:Es2; [|reflexivity].
      apply strip_some in Es2. exfalso. apply Es. exists ((a :: r) ++ s). now rewrite app_assoc.
  - assert (Hsk : skipn (length (nkey n)) (c :: k) = a :: r) by (rewrite E; apply skipn_app_exact).
    rewrite Hsk. destruct (IH (nsubs n) (a :: r) vs Hns Htn) as (s & Es0 & Hws & Hts & Hls); [|discriminate|].
    { apply (f_equal (@length _)) in E. rewrite app_length in E. destruct (nkey n); [congruence|]. cbn in *. lia. }
    rewrite Es0. cbn [bind]. set (nn := Node (nkey n) (ndata n) s).
    eexists. split; [reflexivity|]. apply (Hconcl _ nn); [|exact Hh|].
    { apply (swap_update h l1 n nn l2); auto. split; auto. }
    intros k' Hk' Hc. rewrite Hother by assumption. rewrite !nlook_cases. cbn [nn nkey ndata nsubs].
    rewrite E. destruct (strip (nkey n) k') as [[|a0 r0]|] eqn:Es.
    + apply strip_some in Es. rewrite app_nil_r in Es. subst k'. rewrite streq_neq, app_nil_r; [reflexivity|].
      intros E2. apply (f_equal (@length _)) in E2. rewrite app_length in E2. cbn in E2. lia.
    + apply strip_some in Es. subst k'. rewrite Hls.
      destruct (streq_spec (a0 :: r0) (a :: r)) as [E2|E2].
      * rewrite E2, streq_refl. reflexivity.
      * rewrite streq_neq; [reflexivity|]. intros E3. now apply app_inv_head in E3.
    + apply strip_none in Es. rewrite streq_neq; [reflexivity|]. intros ->. apply Es. now exists (a :: r).
  - assert (Hsk : skipn (length p) (c :: k) = b :: rb) by (rewrite E'; apply skipn_app_exact).
    assert (Hsn : skipn (length p) (nkey n) = a :: ra) by (rewrite E; apply skipn_app_exact).
    assert (Hfn : firstn (length p) (nkey n) = p) by (rewrite E; apply firstn_app_exact).
    rewrite Hsk, Hsn, Hfn.
    set (old := Node (a :: ra) (Some [MNest (mdata n)]) (nsubs n)).
    set (new := Node (b :: rb) (Some vs) hs_empty : mnode).
    destruct (good_append_all (match strcmp (b :: rb) (a :: ra) with Gt => [old; new] | _ => [new; old] end)
                hs_empty good_empty) as (ch & Ech & Hch & Hg).
    rewrite Ech. cbn [bind]. cbn [hs_empty hitems app] in Hch.
    set (nn := Node p (Some []) ch).
    assert (Hin2 : forall x, In x (hitems ch) <-> x = old \/ x = new).
    { intros x. rewrite Hch. destruct (strcmp (b :: rb) (a :: ra)); cbn [In]; intuition congruence. }
    assert (Hwc : wff ch).
    { constructor.
      - now apply good_semi.
      - rewrite Hch. destruct (strcmp (b :: rb) (a :: ra)); cbn; repeat constructor; cbn; intuition congruence.
      - intros x Hx. apply Hin2 in Hx. destruct Hx as [->| ->]; discriminate.
      - intros x Hx. apply Hin2 in Hx. destruct Hx as [->| ->]; [exact Hns|apply wff_empty]. }
    assert (Hhp : char0 p = c).
    { destruct p; [congruence|]. cbn in E'. cbn. congruence. }
    eexists. split; [reflexivity|]. apply (Hconcl _ nn); [|exact Hhp|].
    { apply (swap_update h l1 n nn l2); auto.
      - unfold head0 at 1. cbn [nn nkey]. congruence.
      - split; auto.
      - constructor; [exact Hg|]. intros x Hx. apply Hin2 in Hx. destruct Hx as [->| ->]; [exact Htn|apply tight_empty]. }
    intros k' Hk' Hc. rewrite Hother by assumption. rewrite !nlook_cases. cbn [nn nkey ndata nsubs].
    rewrite E, E'. destruct (strip p k') as [[|a0 r0]|] eqn:Es.
    + apply strip_some in Es. rewrite app_nil_r in Es. subst k'.
      destruct (strip (p ++ a :: ra) p) as [s|] eqn:Es2.
      { apply strip_some in Es2. apply (f_equal (@length _)) in Es2. rewrite !app_length in Es2. cbn in Es2. lia. }
      rewrite streq_neq; [reflexivity|]. intros E2. apply (f_equal (@length _)) in E2. rewrite !app_length in E2. cbn in E2. lia.
    + apply strip_some in Es. subst k'. rewrite strip_app2.
      assert (Est : streq (p ++ a0 :: r0) (p ++ b :: rb) = streq (a0 :: r0) (b :: rb)).
      { destruct (streq_spec (a0 :: r0) (b :: rb)) as [->|Hne]; [apply streq_refl|].
        apply streq_neq. intros E2. now apply app_inv_head in E2. }
      rewrite Est. destruct (Ascii.eqb_spec a0 a) as [->|Hna].
      * rewrite (look_in ch old (a :: r0) Hwc (proj2 (Hin2 old) (or_introl eq_refl))) by (discriminate || reflexivity).
        rewrite nlook_cases. cbn [old nkey ndata nsubs]. rewrite streq_neq by congruence. rewrite app_nil_r.
        destruct (strip (a :: ra) (a :: r0)) as [[|a1 r1]|]; [|reflexivity|reflexivity].
        rewrite oflat_mdata. cbn [oflat]. unfold mflat at 1. cbn [flat_map]. rewrite app_nil_r. apply vflat_nest.
      * destruct (strip (a :: ra) (a0 :: r0)) as [s|] eqn:Es2.
        { apply strip_some in Es2. cbn in Es2. congruence. }
        destruct (Ascii.eqb_spec a0 b) as [->|Hnb].
        -- rewrite (look_in ch new (b :: r0) Hwc (proj2 (Hin2 new) (or_intror eq_refl))) by (discriminate || reflexivity).
           unfold new. rewrite nlook_leaf. destruct (streq (b :: r0) (b :: rb)); [|reflexivity].
           reflexivity.
        -- rewrite look_notin by (auto; apply Forall_forall; intros x Hx; apply Hin2 in Hx; destruct Hx as [->| ->]; cbn; congruence).
           rewrite streq_neq by congruence. reflexivity.
    + apply strip_none in Es. rewrite streq_neq by (intros ->; apply Es; now exists (b :: rb)).
      destruct (strip (p ++ a :: ra) k') as [s|] eqn:Es2; [|reflexivity].
      apply strip_some in Es2. exfalso. apply Es. exists ((a :: ra) ++ s). now rewrite app_assoc.
Qed.

(** ** Removal *)
(** The key's node is a leaf and the only child of a node below the root. *)
Definition lone h k : Prop :=
  exists p m n, at_path (hitems h) p m /\ hitems (nsubs m) = [n] /\ k = p ++ nkey n /\ hitems (nsubs n) = [].

Lemma tail_null h : good h -> (htail h = TNull <-> hitems h = []).
Proof.
  unfold good. intros Hg. destruct (htail h) as [|i|]; split; auto; try discriminate; try contradiction.
  intros E. rewrite E in Hg. discriminate.
Qed.

Lemma munset_sub_spec fuel : forall h k (isroot : bool),
  wff h -> tight h -> length k <= fuel -> k <> [] ->
  match munset_sub fuel isroot h k with
  | NoFuel => False
  | UB => lone h k \/ isroot = false /\ exists n, hitems h = [n] /\ nkey n = k /\ hitems (nsubs n) = []
  | Ok (h', d) => wff h' /\ tight h' /\
      (forall k', oflat (look h' k') = if streq k' k then [] else oflat (look h k')) /\
      d = Z.of_nat (length (match look h k with Some l => l | None => [] end)) /\
      ~ lone h k /\
      (isroot = false -> ~ exists n, hitems h = [n] /\ nkey n = k /\ hitems (nsubs n) = [])
  end.
Proof.
  induction fuel as [|fuel IH]; intros h k isroot Hw Ht Hlen Hkne.
  { destruct k; [congruence|cbn in Hlen; lia]. }
  destruct k as [|c k]; [congruence|]. cbn [munset_sub].
  assert (Habsent : look h (c :: k) = None -> (forall m, ~ at_path (hitems h) (c :: k) m) ->
     wff h /\ tight h /\
      (forall k', oflat (look h k') = if streq k' (c :: k) then [] else oflat (look h k')) /\
      0%Z = Z.of_nat (length (match look h (c :: k) with Some l => l | None => [] end)) /\
      ~ lone h (c :: k) /\
      (isroot = false -> ~ exists n, hitems h = [n] /\ nkey n = c :: k /\ hitems (nsubs n) = [])).
  { intros Hn Hp. split; [exact Hw|]. split; [exact Ht|]. split; [|split; [|split]].
    - intros k'. destruct (streq_spec k' (c :: k)) as [->|]; [|reflexivity]. now rewrite Hn.
    - now rewrite Hn.
    - intros (p & m & n & Hap & Hi & Ek & _). apply (Hp n). rewrite Ek.
      clear - Hap Hi. remember (hitems h) as l eqn:El. clear El.
      induction Hap as [l n0 Hin|l n0 q m Hin Hap IH].
      + apply AP_below; [exact Hin|]. rewrite Hi. constructor. now left.
      + rewrite <- app_assoc. apply AP_below; auto.
    - intros _ (n & Hi & Ek & _). apply (Hp n). rewrite <- Ek. constructor. rewrite Hi. now left. }
  assert (Hnp : forall x, In x (hitems h) -> ~ prefix (nkey x) (c :: k) \/ head0 x <> c ->
              forall m, ~ ((c :: k = nkey x /\ m = x) \/ exists q', c :: k = nkey x ++ q' /\ at_path (hitems (nsubs x)) q' m)).
  { intros x Hx Hd m Hm. pose proof (wff_key _ _ Hw Hx) as Hk. destruct Hd as [Hd|Hd].
    - apply Hd. destruct Hm as [[E _]|(q' & E & _)]; [exists []; now rewrite app_nil_r|now exists q'].
    - unfold head0 in Hd. destruct Hm as [[E _]|(q' & E & _)]; destruct (nkey x); try congruence; cbn in *; congruence. }
  pose proof (find_child_spec c (hitems h) 0 None) as Hf.
  destruct (find_child c (hitems h) 0 None) as [i n|lz].
  2:{ destruct Hf as [Hf _]. apply Habsent; [now apply look_notin|]. intros m Hm.
      apply at_path_inv in Hm. destruct Hm as (x & Hx & Hm). rewrite Forall_forall in Hf.
      apply (Hnp x Hx (or_intror (Hf x Hx)) m Hm). }
  destruct Hf as (l1 & l2 & El & Hi & Hh & Hf). cbn in Hi. subst i.
  assert (Hin : In n (hitems h)) by (rewrite El; apply in_or_app; right; now left).
  pose proof (wff_key _ _ Hw Hin) as Hnk. pose proof (wff_sub _ _ Hw Hin) as Hns.
  pose proof (tight_sub _ _ Ht Hin) as Htn.
  assert (Hother : forall k', k' <> [] -> char0 k' = head0 n -> look h k' = nlook n k')
    by (intros; now apply look_in).
  assert (Hthr : forall m, at_path (hitems h) (c :: k) m ->
            (c :: k = nkey n /\ m = n) \/ exists q', c :: k = nkey n ++ q' /\ at_path (hitems (nsubs n)) q' m).
  { intros m Hm. now apply (at_path_through h n c k m Hw Hin Hh). }
  pose proof (scan_keycmp c k (nkey n) Hnk Hh) as Hk.
  inversion Hk as [E He|a r E He|a r E He|p a ra b rb Hp0 E E' Hab He]; clear Hk He; cbv beta iota zeta.
  - rewrite E in *. clear E.
    assert (El0 : look h (nkey n) = ndata n) by (rewrite Hother by auto; apply nlook_self).
    assert (Hlone : ~ lone h (nkey n)).
    { intros (p & m & n0 & Hap & Him & Ek & _).
      assert (Hp : p <> []).
      { intros ->. apply at_path_inv in Hap. destruct Hap as (x & Hx & [[E _]|(q & E & _)]);
          symmetry in E; [|apply app_eq_nil in E; destruct E as [E _]]; now apply (wff_key _ _ Hw Hx). }
      assert (Hn0 : nkey n0 <> []).
      { assert (Hwm : wff (nsubs m)).
        { clear - Hap Hw. remember (hitems h) as l eqn:El. revert h Hw El.
          induction Hap as [l n0 Hin|l n0 q m Hin Hap IH]; intros h Hw ->; [now apply (wff_sub _ _ Hw)|].
          apply (IH (nsubs n0)); auto. now apply (wff_sub _ _ Hw). }
        apply (wff_key _ _ Hwm). rewrite Him. now left. }
      destruct p as [|c0 p]; [congruence|].
      assert (c0 = c) as ->.
      { clear - Hh Ek Hnk. unfold head0 in Hh. destruct (nkey n) as [|c1 k1]; [congruence|]. cbn in *. congruence. }
      apply (at_path_through h n c p m Hw Hin Hh) in Hap.
      destruct Hap as [[E _]|(q & E & _)]; rewrite E in Ek;
        apply (f_equal (@length _)) in Ek; rewrite !app_length in Ek; destruct (nkey n0); try congruence; cbn in Ek; lia. }
    assert (Hd : Z.of_nat (length (mdata n)) = Z.of_nat (length (match look h (nkey n) with Some l => l | None => [] end)))
      by (rewrite El0; reflexivity).
    destruct (htail (nsubs n)) as [|j|] eqn:Et.
    + (* a leaf: removed *)
      assert (Hnil : hitems (nsubs n) = []) by (apply (tail_null _ (tight_good _ Htn)); exact Et).
      assert (Hmain : wff (hs_remove h (length l1)) /\ tight (hs_remove h (length l1)) /\
        forall k', oflat (look (hs_remove h (length l1)) k') = if streq k' (nkey n) then [] else oflat (look h k')).
      { split; [now apply (wff_remove h l1 n l2)|]. split; [now apply tight_remove|]. intros k'.
        destruct k' as [|c' k0]; [rewrite streq_neq by congruence; reflexivity|]. set (k' := c' :: k0).
        rewrite (look_remove h l1 n l2) by (auto; discriminate).
        destruct (Ascii.eqb_spec (char0 k') (head0 n)) as [Ec|Ec].
        - rewrite (Hother k') by (auto; discriminate).
          destruct (streq_spec k' (nkey n)) as [->|Hne]; [reflexivity|].
          rewrite nlook_cases. destruct (strip (nkey n) k') as [[|c1 r1]|] eqn:Es; [| |reflexivity].
          + apply strip_some in Es. rewrite app_nil_r in Es. congruence.
          + rewrite look_notin; [reflexivity|exact Hns|]. rewrite Hnil. constructor.
        - rewrite streq_neq; [reflexivity|]. intros E2. apply Ec. rewrite E2. reflexivity. }
      destruct Hmain as (Hm1 & Hm2 & Hm3).
      destruct isroot; [repeat (split; [assumption|]); discriminate|].
      destruct (htail (hs_remove h (length l1))) eqn:Et2.
      2-3: repeat (split; [assumption|]); intros _ (x & Ex & _); rewrite El in Ex;
           (destruct l1 as [|y [|? ?]]; [|discriminate|discriminate]); cbn in Ex; inversion Ex; subst l2;
           pose proof (proj2 (tail_null _ (tight_good _ Hm2)) (hs_remove_items h [] n [] El)); congruence.
      right. split; [reflexivity|]. apply (tail_null _ (tight_good _ Hm2)) in Et2.
      rewrite (hs_remove_items h l1 n l2 El) in Et2. apply app_eq_nil in Et2. destruct Et2 as [-> ->].
      exists n. auto.
    + set (nn := Node (nkey n) (Some []) (nsubs n)).
      assert (Hs : swapped h (hs_update h (length l1) nn) nn).
      { apply (swap_update h l1 n nn l2); auto. split; auto. }
      destruct Hs as (Hw' & Ht' & Hl).
      assert (Hm3 : forall k', oflat (look (hs_update h (length l1) nn) k') = if streq k' (nkey n) then [] else oflat (look h k')).
      { intros k'. destruct k' as [|c' k0]; [rewrite streq_neq by congruence; reflexivity|]. set (k' := c' :: k0).
        rewrite Hl by discriminate. change (head0 nn) with (head0 n).
        destruct (Ascii.eqb_spec (char0 k') (head0 n)) as [Ec|Ec].
        - rewrite (Hother k') by (auto; discriminate). rewrite !nlook_cases. cbn [nn nkey ndata nsubs].
          destruct (strip (nkey n) k') as [[|c1 r1]|] eqn:Es.
          + apply strip_some in Es. rewrite app_nil_r in Es. rewrite Es, streq_refl. reflexivity.
          + apply strip_some in Es. rewrite streq_neq; [reflexivity|]. intros E2. rewrite E2 in Es.
            apply (f_equal (@length _)) in Es. rewrite app_length in Es; cbn in Es; lia.
          + rewrite streq_neq; [reflexivity|]. intros E2. rewrite E2 in Es.
            apply strip_none in Es. apply Es, prefix_refl.
        - rewrite streq_neq; [reflexivity|]. intros E2. apply Ec. rewrite E2. reflexivity. }
      destruct isroot; [repeat (split; [assumption|]); discriminate|].
      destruct (htail (hs_update h (length l1) nn)) eqn:Et2.
      2-3: repeat (split; [assumption|]); intros _ (x & Ex & _ & Hx); rewrite Ex in Hin; destruct Hin as [->|[]];
           apply (tail_null _ (tight_good _ Htn)) in Hx; congruence.
      exfalso. apply (tail_null _ (tight_good _ Ht')) in Et2. unfold hs_update in Et2. cbn [hitems] in Et2.
      rewrite El, list_upd_app in Et2. destruct l1; discriminate.
    + exfalso. pose proof (wff_semi _ Hns) as Hse. unfold semi in Hse. now rewrite Et in Hse.
  - apply Habsent.
    + rewrite Hother by (auto; discriminate). apply nlook_off. rewrite E. intros (s & Es).
      apply (f_equal (@length _)) in Es. rewrite !app_length in Es. cbn in Es. lia.
    + intros m Hm. apply Hthr in Hm. destruct Hm as [[E2 _]|(q' & E2 & _)]; rewrite E in E2;
        apply (f_equal (@length _)) in E2; rewrite ?app_length in E2; cbn in E2; lia.
  - assert (Hlen2 : length (a :: r) <= fuel).
    { apply (f_equal (@length _)) in E. rewrite app_length in E. destruct (nkey n); [congruence|]. cbn in *. lia. }
    assert (Hsk : skipn (length (nkey n)) (c :: k) = a :: r) by (rewrite E; apply skipn_app_exact).
    rewrite Hsk. specialize (IH (nsubs n) (a :: r) false Hns Htn Hlen2 ltac:(discriminate)).
    assert (Elk : look h (c :: k) = look (nsubs n) (a :: r)).
    { rewrite Hother by (auto; discriminate). rewrite E. apply nlook_below. }
    assert (Hl0 : lone h (c :: k) <-> lone (nsubs n) (a :: r) \/ exists x, hitems (nsubs n) = [x] /\ nkey x = a :: r /\ hitems (nsubs x) = []).
    { split.
      - intros (p & m & x & Hap & Him & Ek & Hx).
        destruct p as [|c0 p].
        { apply at_path_inv in Hap. destruct Hap as (y & Hy & [[E2 _]|(q & E2 & _)]);
          symmetry in E2; [|apply app_eq_nil in E2; destruct E2 as [E2 _]]; exfalso; now apply (wff_key _ _ Hw Hy). }
        assert (c0 = c) as -> by (cbn in Ek; congruence).
        apply (at_path_through h n c p m Hw Hin Hh) in Hap. destruct Hap as [[E2 ->]|(q & E2 & Hq)].
        + right. exists x. split; [exact Him|]. split; [|exact Hx]. rewrite E2, E in Ek. now apply app_inv_head in Ek.
        + left. exists q, m, x. split; [exact Hq|]. split; [exact Him|]. split; [|exact Hx].
          rewrite E2, E, <- app_assoc in Ek. now apply app_inv_head in Ek.
      - intros [(p & m & x & Hap & Him & Ek & Hx)|(x & Hx1 & Hx2 & Hx3)].
        + exists (nkey n ++ p), m, x. split; [now apply AP_below|]. split; [exact Him|]. split; [|exact Hx].
          rewrite E, Ek. apply app_assoc.
        + exists (nkey n), n, x. split; [now constructor|]. split; [exact Hx1|]. split; [|exact Hx3]. now rewrite E, Hx2. }
    destruct (munset_sub fuel false (nsubs n) (a :: r)) as [[s' d]| |]; cbn [bind]; [|left|exact IH].
    2:{ apply Hl0. destruct IH as [IH|(_ & IH)]; auto. }
    destruct IH as (Hws & Hts & H1 & H2 & H3 & H4). cbn [fst snd].
    set (nn := Node (nkey n) (ndata n) s').
    assert (Hs : swapped h (hs_update h (length l1) nn) nn).
    { apply (swap_update h l1 n nn l2); auto. split; auto. }
    destruct Hs as (Hw' & Ht' & Hl). split; [exact Hw'|]. split; [exact Ht'|]. split; [|split; [|split]].
    + intros k'. destruct k' as [|c' k0]; [reflexivity|]. set (k' := c' :: k0).
      rewrite Hl by discriminate. change (head0 nn) with (head0 n).
      destruct (Ascii.eqb_spec (char0 k') (head0 n)) as [Ec|Ec].
      * rewrite (Hother k') by (auto; discriminate). rewrite !nlook_cases. cbn [nn nkey ndata nsubs].
        rewrite E. destruct (strip (nkey n) k') as [[|c1 r1]|] eqn:Es.
        -- apply strip_some in Es. rewrite app_nil_r in Es. rewrite Es. rewrite streq_neq; [reflexivity|].
           intros E2. apply (f_equal (@length _)) in E2. rewrite app_length in E2. cbn in E2. lia.
        -- apply strip_some in Es. rewrite Es. rewrite H1.
           destruct (streq_spec (c1 :: r1) (a :: r)) as [->|Hne]; [now rewrite streq_refl|].
           rewrite streq_neq; [reflexivity|]. intros E2. now apply app_inv_head in E2.
        -- apply strip_none in Es. rewrite streq_neq; [reflexivity|]. intros E2. apply Es. rewrite E2. now exists (a :: r).
      * rewrite streq_neq; [reflexivity|]. intros E2. apply Ec. rewrite E2, Hh. reflexivity.
    + now rewrite Elk.
    + intros Hlo. apply Hl0 in Hlo. destruct Hlo as [Hlo|Hlo]; [auto|now apply H4].
    + intros _ (x & Ex & Ek & _). rewrite Ex in Hin. destruct Hin as [->|[]]. rewrite Ek in E.
      apply (f_equal (@length _)) in E. rewrite app_length in E. cbn in E. lia.
  - apply Habsent.
    + rewrite Hother by (auto; discriminate). apply nlook_off. intros (s & Es).
      rewrite E, E' in Es. rewrite <- app_assoc in Es. apply app_inv_head in Es. cbn in Es. congruence.
    + intros m Hm. apply Hthr in Hm. rewrite E, E' in Hm.
      destruct Hm as [[E2 _]|(q' & E2 & _)]; rewrite <- ?app_assoc in E2; apply app_inv_head in E2; cbn in E2; congruence.
Qed.

(** ** When no node is split *)
(** Whether [set] reaches the "keys differ" branch. *)
Fixpoint msplit (fuel : nat) h k : bool :=
  match k with
  | [] => false
  | c :: k' =>
    match fuel with
    | O => false
    | S fuel' =>
      match find_child c (hitems h) 0 None with
      | NotFound _ => false
      | Found i n =>
          match scan 1 k' (tl (nkey n)) with
          | E1 x => msplit fuel' (nsubs n) (skipn x k)
          | E0 _ => true
          | _ => false
          end
      end
    end
  end.

(** No NULL data pointer. *)
Inductive full : hsl mnode -> Prop :=
| full_intro h : (forall n, In n (hitems h) -> ndata n <> None) ->
    (forall n, In n (hitems h) -> full (nsubs n)) -> full h.
Lemma full_data h n : full h -> In n (hitems h) -> ndata n <> None.
Proof. destruct 1; auto. Qed.
Lemma full_sub h n : full h -> In n (hitems h) -> full (nsubs n).
Proof. destruct 1; auto. Qed.
Lemma full_empty : full hs_empty.
Proof. constructor; intros ? []. Qed.

Definition olist (o : option mlist) : mlist := match o with Some l => l | None => [] end.

Lemma mset_sub_full fuel : forall h k vs h',
  full h -> mset_sub fuel h k vs = Ok h' -> full h'.
Proof.
  induction fuel as [|fuel IH]; intros h k vs h' Hfu E.
  { destruct k; cbn in E; [inversion E; subst; exact Hfu|discriminate]. }
  destruct k as [|c k]; [cbn in E; inversion E; subst; exact Hfu|]. cbn [mset_sub] in E.
  assert (Happ : forall h0 h1 nn, (forall x, In x (hitems h0) -> In x (hitems h)) ->
            hs_append h0 nn = Ok h1 -> ndata nn <> None -> full (nsubs nn) -> full h1).
  { intros h0 h1 nn Hsub Ea Hd Hs.
    assert (Hi : forall x, In x (hitems h1) -> In x (hitems h) \/ x = nn).
    { unfold hs_append in Ea. destruct (htail h0) as [|j|]; inversion Ea; subst h1; cbn [hitems].
      - intros x [<-|[]]; auto.
      - intros x Hx. apply in_app_or in Hx. destruct Hx as [Hx|[<-|[]]]; auto. left. apply Hsub.
        rewrite <- (firstn_skipn (S j) (hitems h0)). apply in_or_app. now left. }
    constructor; intros x Hx; apply Hi in Hx; destruct Hx as [Hx| ->]; auto;
      [now apply (full_data _ _ Hfu)|now apply (full_sub _ _ Hfu)]. }
  assert (Hupd : forall i nn, ndata nn <> None -> full (nsubs nn) -> full (hs_update h i nn)).
  { intros i nn Hd Hs.
    assert (Hi : forall x, In x (hitems (hs_update h i nn)) -> In x (hitems h) \/ x = nn).
    { unfold hs_update; cbn [hitems]. generalize (hitems h). clear. intros l. revert i.
      induction l as [|y l IHl]; intros [|i] x; cbn; try tauto.
      - intros [<-|H]; auto.
      - intros [<-|H]; auto. apply IHl in H. tauto. }
    constructor; intros x Hx; apply Hi in Hx; destruct Hx as [Hx| ->]; auto;
      [now apply (full_data _ _ Hfu)|now apply (full_sub _ _ Hfu)]. }
  pose proof (find_child_spec c (hitems h) 0 None) as Hf.
  destruct (find_child c (hitems h) 0 None) as [i n|lz].
  2:{ apply (Happ h h' _ (fun x H => H) E); [discriminate|apply full_empty]. }
  destruct Hf as (l1 & l2 & El & Hi & Hh & Hf).
  assert (Hin : In n (hitems h)) by (rewrite El; apply in_or_app; right; now left).
  pose proof (full_data _ _ Hfu Hin) as Hd. pose proof (full_sub _ _ Hfu Hin) as Hs.
  destruct (scan 1 k (tl (nkey n))) as [| |x|x].
  - inversion E; subst h'. apply Hupd; [discriminate|exact Hs].
  - apply (Happ _ _ _ (fun x H => H)) in E || idtac.
    refine (Happ (hs_remove h i) h' _ _ E _ _); [|discriminate|].
    + intros x Hx. unfold hs_remove in Hx. destruct (i <? length (hitems h)); [|exact Hx].
      cbn [hitems] in Hx. unfold list_del in Hx. apply in_app_or in Hx.
      destruct Hx as [Hx|Hx]; [rewrite <- (firstn_skipn i (hitems h))|rewrite <- (firstn_skipn (S i) (hitems h))];
        apply in_or_app; auto.
    + constructor; cbn [hitems]; intros y [<-|[]]; auto.
  - apply bind_ok in E. destruct E as (s & Es & E). inversion E; subst h'.
    apply Hupd; [exact Hd|]. cbn [nsubs]. exact (IH _ _ _ _ Hs Es).
  - apply bind_ok in E. destruct E as (ch & Ech & E). inversion E; subst h'. apply Hupd; [discriminate|]. cbn [nsubs].
    set (old := Node (skipn x (nkey n)) (Some [MNest (mdata n)]) (nsubs n)) in *.
    set (new := Node (skipn x (c :: k)) (Some vs) hs_empty) in *.
    destruct (good_append_all (match strcmp (skipn x (c :: k)) (skipn x (nkey n)) with Gt => [old; new] | _ => [new; old] end)
                hs_empty good_empty) as (ch' & Ech' & Hch & Hg).
    rewrite Ech' in Ech. inversion Ech; subst ch'. cbn [hs_empty hitems app] in Hch.
    constructor; rewrite Hch; intros y Hy; destruct (strcmp _ _); destruct Hy as [<-|[<-|[]]];
      try discriminate; try apply full_empty; exact Hs.
Qed.

Lemma mset_sub_exact fuel : forall h k vs h',
  wff h -> tight h -> length k <= fuel -> k <> [] -> msplit fuel h k = false ->
  mset_sub fuel h k vs = Ok h' ->
  forall k', look h' k' = if streq k' k then Some (olist (look h k) ++ vs) else look h k'.
Proof.
  induction fuel as [|fuel IH]; intros h k vs h' Hw Ht Hlen Hkne Hsp Hset.
  { destruct k; [congruence|cbn in Hlen; lia]. }
  destruct k as [|c k]; [congruence|]. cbn [mset_sub msplit] in *.
  assert (Hconcl : forall nn, swapped h h' nn -> head0 nn = c ->
            (forall k', k' <> [] -> char0 k' = c ->
               nlook nn k' = if streq k' (c :: k) then Some (olist (look h (c :: k)) ++ vs) else look h k') ->
            forall k', look h' k' = if streq k' (c :: k) then Some (olist (look h (c :: k)) ++ vs) else look h k').
  { intros nn (Hw' & Ht' & Hl) Hh H k'.
    destruct k' as [|c' k0]; [reflexivity|]. rewrite Hl by discriminate. rewrite Hh.
    destruct (Ascii.eqb_spec (char0 (c' :: k0)) c) as [Ec|Ec].
    - apply H; [discriminate|exact Ec].
    - rewrite streq_neq by (cbn in Ec; congruence). reflexivity. }
  pose proof (find_child_spec c (hitems h) 0 None) as Hf.
  destruct (find_child c (hitems h) 0 None) as [i n|lz].
  2:{ destruct Hf as [Hf _]. set (nn := Node (c :: k) (Some vs) hs_empty : mnode) in *.
    destruct (swap_append h nn Hw Ht) as (h1 & E & Hs); auto.
    { now apply wfn_leaf. } { apply tight_empty. }
    rewrite Hset in E. inversion E; subst h1. apply (Hconcl nn Hs eq_refl). intros k' Hk' Hc.
    rewrite (look_notin h k' Hw) by now rewrite Hc. rewrite (look_notin h (c :: k) Hw) by exact Hf.
    unfold nn. now rewrite nlook_leaf. }
  destruct Hf as (l1 & l2 & El & Hi & Hh & Hf). cbn in Hi. subst i.
  assert (Hin : In n (hitems h)) by (rewrite El; apply in_or_app; right; now left).
  pose proof (wff_key _ _ Hw Hin) as Hnk. pose proof (wff_sub _ _ Hw Hin) as Hns.
  pose proof (tight_sub _ _ Ht Hin) as Htn.
  assert (Hother : forall k', k' <> [] -> char0 k' = c -> look h k' = nlook n k')
    by (intros; apply look_in; auto; congruence).
  assert (Hself : forall k', strip (c :: k) k' = Some [] -> streq k' (c :: k) = true).
  { intros k' Es. apply strip_some in Es. rewrite app_nil_r in Es. subst. apply streq_refl. }
  assert (Hlong : forall k' a0 r0, strip (c :: k) k' = Some (a0 :: r0) -> streq k' (c :: k) = false).
  { intros k' a0 r0 Es. apply strip_some in Es. apply streq_neq. intros ->.
    apply (f_equal (@length _)) in Es. rewrite app_length in Es. cbn in Es. lia. }
  assert (Hoff : forall k', strip (c :: k) k' = None -> streq k' (c :: k) = false).
  { intros k' Es. apply strip_none in Es. apply streq_neq. intros ->. apply Es, prefix_refl. }
  pose proof (scan_keycmp c k (nkey n) Hnk Hh) as Hk.
  inversion Hk as [E He|a r E He|a r E He|p a ra b rb Hp0 E E' Hab He]; clear Hk;
    rewrite <- He in *; cbv beta iota zeta in Hset, Hsp; [| | |discriminate].
  - set (nn := Node (nkey n) (Some (mdata n ++ vs)) (nsubs n)) in *.
    inversion Hset; subst h'. apply (Hconcl nn); [|exact Hh|].
    { apply (swap_update h l1 n nn l2); auto. split; auto. }
    intros k' Hk' Hc. rewrite !Hother by (assumption || discriminate || reflexivity).
    rewrite E at 2. rewrite nlook_self. rewrite !nlook_cases. cbn [nn nkey ndata nsubs].
    rewrite <- E. destruct (strip (c :: k) k') as [[|a0 r0]|] eqn:Es.
    + now rewrite (Hself _ Es).
    + now rewrite (Hlong _ _ _ Es).
    + now rewrite (Hoff _ Es).
  - set (old := Node (skipn (length (c :: k)) (nkey n)) (ndata n) (nsubs n)) in *.
    set (nn := Node (c :: k) (Some vs) (mkH [old] (TAt 0))) in *.
    assert (Hold : nkey old = a :: r) by (cbn [old nkey]; rewrite E; apply skipn_app_exact).
    assert (Hwold : wff (mkH [old] (TAt 0))).
    { constructor; cbn [hitems htail].
      - reflexivity.
      - cbn. constructor; [easy|constructor].
      - intros m [<-|[]]. rewrite Hold. discriminate.
      - intros m [<-|[]]. exact Hns. }
    destruct (swap_replace h l1 n nn l2) as (h1 & Ea & Hs); auto.
    { split; [discriminate|exact Hwold]. }
    { constructor; [reflexivity|]. intros m [<-|[]]. exact Htn. }
    rewrite Hset in Ea. inversion Ea; subst h1.
    assert (Hn0 : nlook n (c :: k) = None).
    { apply nlook_off. rewrite E. intros (s & Es). apply (f_equal (@length _)) in Es.
      rewrite !app_length in Es. cbn in Es. lia. }
    apply (Hconcl nn Hs); [reflexivity|].
    intros k' Hk' Hc. rewrite !Hother by (assumption || discriminate || reflexivity). rewrite Hn0.
    rewrite !nlook_cases. cbn [nn nkey ndata nsubs].
    rewrite E. destruct (strip (c :: k) k') as [[|a0 r0]|] eqn:Es.
    + now rewrite (Hself _ Es).
    + rewrite (Hlong _ _ _ Es). apply strip_some in Es. subst k'. rewrite strip_app2.
      rewrite look_cons by exact Hwold. cbn [hitems pick find]. unfold head0. rewrite Hold. cbn [char0].
      destruct (Ascii.eqb_spec a a0) as [->|Hne].
      * rewrite nlook_cases. rewrite Hold. cbn [old ndata nsubs]. reflexivity.
      * destruct (strip (a :: r) (a0 :: r0)) as [s|] eqn:Es2; [|reflexivity].
        apply strip_some in Es2. cbn in Es2. congruence.
    + rewrite (Hoff _ Es). apply strip_none in Es.
      destruct (strip ((c :: k) ++ a :: r) k') as [s|] eqn:Es2; [|reflexivity].
      apply strip_some in Es2. exfalso. apply Es. exists ((a :: r) ++ s). now rewrite app_assoc.
  - assert (Hsk : skipn (length (nkey n)) (c :: k) = a :: r) by (rewrite E; apply skipn_app_exact).
    rewrite Hsk in *. apply bind_ok in Hset. destruct Hset as (s & Es0 & Hset). inversion Hset; subst h'.
    assert (Hlen2 : length (a :: r) <= fuel).
    { apply (f_equal (@length _)) in E. rewrite app_length in E. destruct (nkey n); [congruence|]. cbn in *. lia. }
    pose proof (IH (nsubs n) (a :: r) vs s Hns Htn Hlen2 ltac:(discriminate) Hsp Es0) as Hls.
    destruct (mset_sub_spec fuel (nsubs n) (a :: r) vs Hns Htn Hlen2 ltac:(discriminate)) as (s2 & Es2 & Hws & Hts & _).
    rewrite Es0 in Es2. inversion Es2; subst s2.
    set (nn := Node (nkey n) (ndata n) s) in *.
    apply (Hconcl nn); [|exact Hh|].
    { apply (swap_update h l1 n nn l2); auto. split; auto. }
    intros k' Hk' Hc. rewrite !Hother by (assumption || discriminate || reflexivity).
    rewrite E at 2. rewrite nlook_below. rewrite !nlook_cases. cbn [nn nkey ndata nsubs].
    rewrite E. destruct (strip (nkey n) k') as [[|a0 r0]|] eqn:Es.
    + apply strip_some in Es. rewrite app_nil_r in Es. subst k'. rewrite streq_neq; [reflexivity|].
      intros E2. apply (f_equal (@length _)) in E2. rewrite app_length in E2. cbn in E2. lia.
    + apply strip_some in Es. subst k'. rewrite Hls.
      destruct (streq_spec (a0 :: r0) (a :: r)) as [E2|E2].
      * rewrite E2, streq_refl. reflexivity.
      * rewrite streq_neq; [reflexivity|]. intros E3. now apply app_inv_head in E3.
    + apply strip_none in Es. rewrite streq_neq; [reflexivity|]. intros ->. apply Es. now exists (a :: r).
Qed.

(** A split only happens where two keys part at a point that is no key. *)
Lemma msplit_none fuel : forall h k,
  wff h -> full h -> length k <= fuel ->
  (forall s p a ra b rb, look h s <> None -> s = p ++ a :: ra -> k = p ++ b :: rb -> a <> b -> p <> [] ->
     look h p <> None) ->
  msplit fuel h k = false.
Proof.
  induction fuel as [|fuel IH]; intros h k Hw Hfu Hlen Hc; [now destruct k|].
  destruct k as [|c k]; [reflexivity|]. cbn [msplit].
  pose proof (find_child_spec c (hitems h) 0 None) as Hf.
  destruct (find_child c (hitems h) 0 None) as [i n|lz]; [|reflexivity].
  destruct Hf as (l1 & l2 & El & Hi & Hh & Hf). cbn in Hi. subst i.
  assert (Hin : In n (hitems h)) by (rewrite El; apply in_or_app; right; now left).
  pose proof (wff_key _ _ Hw Hin) as Hnk. pose proof (wff_sub _ _ Hw Hin) as Hns.
  assert (Hother : forall k', k' <> [] -> char0 k' = head0 n -> look h k' = nlook n k')
    by (intros; now apply look_in).
  pose proof (scan_keycmp c k (nkey n) Hnk Hh) as Hk.
  inversion Hk as [E He|a r E He|a r E He|p a ra b rb Hp0 E E' Hab He]; clear Hk; cbv beta iota zeta; auto.
  - rewrite E, skipn_app_exact. apply IH; [exact Hns|now apply (full_sub _ _ Hfu)| |].
    { apply (f_equal (@length _)) in E. rewrite app_length in E. destruct (nkey n); [congruence|]. cbn in *. lia. }
    assert (Hb : forall s, s <> [] -> look h (nkey n ++ s) = look (nsubs n) s).
    { intros [|c1 s] Hs; [congruence|]. rewrite Hother.
      - apply nlook_below.
      - destruct (nkey n); discriminate.
      - unfold head0. destruct (nkey n); [congruence|reflexivity]. }
    intros s p a1 ra1 b1 rb1 Hs Es Ek Hne Hp. rewrite <- Hb by exact Hp.
    apply (Hc (nkey n ++ s) (nkey n ++ p) a1 ra1 b1 rb1).
    + rewrite Hb; [exact Hs|]. rewrite Es. destruct p; discriminate.
    + rewrite Es. apply app_assoc.
    + rewrite E, Ek. apply app_assoc.
    + exact Hne.
    + destruct (nkey n); [congruence|discriminate].
  - exfalso. assert (Hl : look h p <> None).
    { apply (Hc (nkey n) p a ra b rb); auto. rewrite Hother by auto. rewrite nlook_self. now apply (full_data _ _ Hfu). }
    apply Hl. rewrite Hother.
    + apply nlook_off. rewrite E. intros (s & Es). apply (f_equal (@length _)) in Es.
      rewrite !app_length in Es. cbn in Es. lia.
    + exact Hp0.
    + unfold head0. rewrite E. destruct p; [congruence|reflexivity].
Qed.

(** ** Whole trees *)
Definition minv t : Prop := wff (mroot t) /\ tight (mroot t) /\ full (mroot t).
Lemma minv_create : minv mt_create.
Proof. split; [apply wff_empty|]. split; [apply tight_empty|apply full_empty]. Qed.
Definition mlook t k : option mlist := look (mroot t) k.
Lemma mt_get_mlook t k : mt_get t k = Ok (mlook t k).
Proof. unfold mt_get. now apply get_sub_look. Qed.

Lemma mt_put_spec t k v : minv t -> k <> [] ->
  exists t', mt_put t k v = Ok t' /\ minv t' /\ mlen t' = (mlen t + 1)%Z /\
    (forall k', oflat (mlook t' k') = oflat (mlook t k') ++ (if streq k' k then vflat v else [])) /\
    (msplit (length k) (mroot t) k = false ->
     forall k', mlook t' k' = if streq k' k then Some (olist (mlook t k) ++ [v]) else mlook t k').
Proof.
  intros (Hw & Ht & Hfu) Hk.
  destruct (mset_sub_spec (length k) (mroot t) k [v] Hw Ht (le_n _) Hk) as (h' & E & Hw' & Ht' & Hl).
  unfold mt_put. rewrite E. cbn [bind]. eexists. split; [reflexivity|].
  split; [split; [exact Hw'|split; [exact Ht'|exact (mset_sub_full _ _ _ _ _ Hfu E)]]|].
  split; [cbn [mlen]; destruct k; congruence|]. split.
  { intros k'. unfold mlook at 1. cbn [mroot]. rewrite Hl. f_equal. destruct (streq k' k); [|reflexivity]. unfold mflat. cbn. apply app_nil_r. }
  intros Hs.
  exact (mset_sub_exact (length k) (mroot t) k [v] h' Hw Ht (le_n _) Hk Hs E).
Qed.

Lemma munset_full fuel : forall h k (b : bool) h' d,
  full h -> munset_sub fuel b h k = Ok (h', d) -> full h'.
Proof.
  induction fuel as [|fuel IH]; intros h k b h' d Hfu E.
  { destruct k; cbn in E; [inversion E; subst; exact Hfu|discriminate]. }
  destruct k as [|c k]; [cbn in E; inversion E; subst; exact Hfu|]. cbn [munset_sub] in E.
  assert (Hupd : forall i nn, ndata nn <> None -> full (nsubs nn) -> full (hs_update h i nn)).
  { intros i nn Hd Hs.
    assert (Hi : forall x, In x (hitems (hs_update h i nn)) -> In x (hitems h) \/ x = nn).
    { unfold hs_update; cbn [hitems]. generalize (hitems h). clear. intros l. revert i.
      induction l as [|y l IHl]; intros [|i] x; cbn; try tauto.
      - intros [<-|H]; auto.
      - intros [<-|H]; auto. apply IHl in H. tauto. }
    constructor; intros x Hx; apply Hi in Hx; destruct Hx as [Hx| ->]; auto;
      [now apply (full_data _ _ Hfu)|now apply (full_sub _ _ Hfu)]. }
  assert (Hrem : forall i, full (hs_remove h i)).
  { intros i. assert (Hx : forall x, In x (hitems (hs_remove h i)) -> In x (hitems h)).
    { intros x Hx. unfold hs_remove in Hx. destruct (i <? length (hitems h)); [|exact Hx].
      cbn [hitems] in Hx. unfold list_del in Hx. apply in_app_or in Hx.
      destruct Hx as [Hx|Hx]; [rewrite <- (firstn_skipn i (hitems h))|rewrite <- (firstn_skipn (S i) (hitems h))];
        apply in_or_app; auto. }
    constructor; intros x H; apply Hx in H; [now apply (full_data _ _ Hfu)|now apply (full_sub _ _ Hfu)]. }
  pose proof (find_child_spec c (hitems h) 0 None) as Hf.
  destruct (find_child c (hitems h) 0 None) as [i n|lz]; [|inversion E; subst; exact Hfu].
  destruct Hf as (l1 & l2 & El & Hi & Hh & Hf).
  assert (Hin : In n (hitems h)) by (rewrite El; apply in_or_app; right; now left).
  pose proof (full_data _ _ Hfu Hin) as Hd. pose proof (full_sub _ _ Hfu Hin) as Hs.
  destruct (scan 1 k (tl (nkey n))) as [| |x|x].
  - set (s' := match htail (nsubs n) with TNull => _ | _ => _ end) in E.
    assert (Hs' : full s').
    { unfold s'. destruct (htail (nsubs n)); [apply Hrem| |]; apply Hupd; try discriminate; exact Hs. }
    destruct b; [inversion E; subst; exact Hs'|]. destruct (htail s'); inversion E; subst; exact Hs'.
  - inversion E; subst; exact Hfu.
  - apply bind_ok in E. destruct E as ([s d'] & Es & E). inversion E; subst.
    apply Hupd; [exact Hd|]. exact (IH _ _ _ _ _ Hs Es).
  - inversion E; subst; exact Hfu.
Qed.

Lemma mt_unset_spec t k : minv t -> k <> [] ->
  match mt_unset t k with
  | NoFuel => False
  | UB => lone (mroot t) k
  | Ok t' => minv t' /\ ~ lone (mroot t) k /\
      (forall k', oflat (mlook t' k') = if streq k' k then [] else oflat (mlook t k')) /\
      mlen t' = (mlen t - Z.of_nat (length (olist (mlook t k))))%Z
  end.
Proof.
  intros (Hw & Ht & Hfu) Hk. unfold mt_unset.
  pose proof (munset_sub_spec (length k) (mroot t) k true Hw Ht (le_n _) Hk) as H.
  destruct (munset_sub (length k) true (mroot t) k) as [[h' d]| |] eqn:E; cbn [bind]; [| |exact H].
  - destruct H as (H1 & H2 & H3 & H4 & H5 & _). split; [|split; [exact H5|split]].
    + split; [exact H1|]. split; [exact H2|]. exact (munset_full _ _ _ _ _ _ Hfu E).
    + exact H3.
    + cbn [mlen fst snd]. now rewrite H4.
  - destruct H as [H|[H _]]; [exact H|discriminate].
Qed.

End Facts.
