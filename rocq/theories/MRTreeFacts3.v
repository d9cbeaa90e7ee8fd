(** Exact effects of storing under, and removing, one key of a multi radix tree. *)
From Verif Require Import CStr CStrFacts HSListModel HSListFacts SetModel SetFacts RTreeModel RTreeFacts
  RTreeFacts2 RTreeFacts3 RTreeFacts4 MRTreeModel MRTreeFacts MRTreeFacts2.

Section Facts.
Context {V : Type}.
Notation mlist := (list (mval V)).
Notation mnode := (node mlist).
Implicit Types (n : mnode) (h : hsl mnode) (k : str) (t : mtree V).

(** Storing under a key appends to exactly that key's list, whatever the other
    keys are; and no key stops being listed. *)
Lemma mset_sub_at fuel : forall h k vs h',
  wff h -> tight h -> length k <= fuel -> k <> [] ->
  mset_sub fuel h k vs = Ok h' ->
  look h' k = Some (olist (look h k) ++ vs) /\ forall k', look h k' <> None -> look h' k' <> None.
Proof.
  induction fuel as [|fuel IH]; intros h k vs h' Hw Ht Hlen Hkne Hset.
  { destruct k; [congruence|cbn in Hlen; lia]. }
  destruct (msplit (S fuel) h k) eqn:Hsp.
  2:{ pose proof (mset_sub_exact (S fuel) h k vs h' Hw Ht Hlen Hkne Hsp Hset) as H. split.
      - now rewrite H, streq_refl.
      - intros k' Hk'. rewrite H. destruct (streq k' k); [discriminate|exact Hk']. }
  destruct k as [|c k]; [congruence|]. cbn [mset_sub msplit] in Hset, Hsp.
  pose proof (find_child_spec c (hitems h) 0 None) as Hf.
  destruct (find_child c (hitems h) 0 None) as [i n|lz]; [|discriminate].
  destruct Hf as (l1 & l2 & El & Hi & Hh & Hf). cbn in Hi. subst i.
  assert (Hin : In n (hitems h)) by (rewrite El; apply in_or_app; right; now left).
  pose proof (wff_key _ _ Hw Hin) as Hnk. pose proof (wff_sub _ _ Hw Hin) as Hns.
  pose proof (tight_sub _ _ Ht Hin) as Htn.
  assert (Hother : forall k', k' <> [] -> char0 k' = c -> look h k' = nlook n k')
    by (intros; apply look_in; auto; congruence).
  assert (Hconcl : forall nn, swapped h h' nn -> head0 nn = c ->
     nlook nn (c :: k) = Some (olist (nlook n (c :: k)) ++ vs) ->
     (forall k', k' <> [] -> char0 k' = c -> nlook n k' <> None -> nlook nn k' <> None) ->
     look h' (c :: k) = Some (olist (look h (c :: k)) ++ vs) /\ forall k', look h k' <> None -> look h' k' <> None).
  { intros nn (Hw' & Ht' & Hl) Hhn H1 H2. split.
    - rewrite Hl by discriminate. rewrite Hhn. cbn [char0]. rewrite Ascii.eqb_refl, Hother by (reflexivity || discriminate). exact H1.
    - intros k' Hk'. destruct k' as [|c' k0]; [now rewrite look_nil in Hk'|]. rewrite Hl by discriminate. rewrite Hhn.
      destruct (Ascii.eqb_spec (char0 (c' :: k0)) c) as [Ec|Ec]; [|exact Hk'].
      apply H2; [discriminate|exact Ec|]. rewrite <- Hother; [exact Hk'|discriminate|exact Ec]. }
  pose proof (scan_keycmp c k (nkey n) Hnk Hh) as Hk.
  inversion Hk as [E He|a r E He|a r E He|p a ra b rb Hp0 E E' Hab He]; clear Hk;
    rewrite <- He in *; cbv beta iota zeta in Hset, Hsp; [discriminate|discriminate| |].
  - assert (Hsk : skipn (length (nkey n)) (c :: k) = a :: r) by (rewrite E; apply skipn_app_exact).
    rewrite Hsk in *. apply bind_ok in Hset. destruct Hset as (s & Es0 & Hset). inversion Hset; subst h'.
    assert (Hlen2 : length (a :: r) <= fuel).
    { apply (f_equal (@length _)) in E. rewrite app_length in E. destruct (nkey n); [congruence|]. cbn in *. lia. }
    destruct (IH (nsubs n) (a :: r) vs s Hns Htn Hlen2 ltac:(discriminate) Es0) as (Hat & Hkeep).
    destruct (mset_sub_spec fuel (nsubs n) (a :: r) vs Hns Htn Hlen2 ltac:(discriminate)) as (s2 & Es2 & Hws & Hts & _).
    rewrite Es0 in Es2. inversion Es2; subst s2.
    set (nn := Node (nkey n) (ndata n) s) in *.
    apply (Hconcl nn); [|exact Hh| |].
    + apply (swap_update h l1 n nn l2); auto. split; auto.
    + rewrite E. rewrite !nlook_cases. cbn [nn nkey ndata nsubs]. rewrite strip_app. exact Hat.
    + intros k' _ _. rewrite !nlook_cases. cbn [nn nkey ndata nsubs].
      destruct (strip (nkey n) k') as [[|a0 r0]|]; auto.
  - assert (Hsk : skipn (length p) (c :: k) = b :: rb) by (rewrite E'; apply skipn_app_exact).
    assert (Hsn : skipn (length p) (nkey n) = a :: ra) by (rewrite E; apply skipn_app_exact).
    assert (Hfn : firstn (length p) (nkey n) = p) by (rewrite E; apply firstn_app_exact).
    rewrite Hsk, Hsn, Hfn in Hset.
    set (old := Node (a :: ra) (Some [MNest (mdata n)]) (nsubs n)) in *.
    set (new := Node (b :: rb) (Some vs) hs_empty : mnode) in *.
    destruct (good_append_all (match strcmp (b :: rb) (a :: ra) with Gt => [old; new] | _ => [new; old] end)
                hs_empty good_empty) as (ch & Ech & Hch & Hg).
    rewrite Ech in Hset. cbn [bind] in Hset. inversion Hset; subst h'. cbn [hs_empty hitems app] in Hch.
    set (nn := Node p (Some []) ch) in *.
    assert (Hin2 : forall x, In x (hitems ch) <-> x = old \/ x = new).
    { intros x. rewrite Hch. destruct (strcmp (b :: rb) (a :: ra)); cbn [In]; intuition congruence. }
    assert (Hwc : wff ch).
    { constructor.
      - now apply good_semi.
      - rewrite Hch. destruct (strcmp (b :: rb) (a :: ra)); cbn; repeat constructor; cbn; intuition congruence.
      - intros x Hx. apply Hin2 in Hx. destruct Hx as [->| ->]; discriminate.
      - intros x Hx. apply Hin2 in Hx. destruct Hx as [->| ->]; [exact Hns|apply wff_empty]. }
    assert (Hhp : char0 p = c).
    { destruct p; [congruence|]. cbn in E'. cbn. congruence. }
    apply (Hconcl nn); [|exact Hhp| |].
    { apply (swap_update h l1 n nn l2); auto.
      - unfold head0 at 1. cbn [nn nkey]. congruence.
      - split; auto.
      - constructor; [exact Hg|]. intros x Hx. apply Hin2 in Hx. destruct Hx as [->| ->]; [exact Htn|apply tight_empty]. }
    + rewrite E'. rewrite (nlook_off n (p ++ b :: rb)).
      2:{ rewrite E. intros (s & Es). rewrite <- app_assoc in Es. apply app_inv_head in Es. cbn in Es. congruence. }
      rewrite nlook_cases. cbn [nn nkey ndata nsubs]. rewrite strip_app.
      rewrite (look_in ch new (b :: rb) Hwc (proj2 (Hin2 new) (or_intror eq_refl))) by (discriminate || reflexivity).
      change (b :: rb) with (nkey new) at 1. now rewrite nlook_self.
    + intros k' Hk' Hc. rewrite (nlook_cases n), E.
      destruct (strip (p ++ a :: ra) k') as [s|] eqn:Es; [|congruence]. intros Hs.
      apply strip_some in Es. rewrite <- app_assoc in Es. cbn [app] in Es. rewrite Es.
      rewrite nlook_cases. cbn [nn nkey ndata nsubs]. rewrite strip_app.
      rewrite (look_in ch old (a :: ra ++ s) Hwc (proj2 (Hin2 old) (or_introl eq_refl))) by (discriminate || reflexivity).
      change (a :: ra ++ s) with ((a :: ra) ++ s). change (a :: ra) with (nkey old). rewrite nlook_app.
      cbn [old ndata nsubs]. destruct s; [discriminate|exact Hs].
Qed.

(** Some other key continues [k]. *)
Definition continued h k : Prop := exists s, s <> [] /\ look h (k ++ s) <> None.

(** Removing a key touches no other key's list; the key itself stays listed,
    with an empty list, exactly if some other key continues it. *)
Lemma munset_exact fuel : forall h k (b : bool) h' d,
  wff h -> tight h -> full h -> length k <= fuel -> k <> [] -> munset_sub fuel b h k = Ok (h', d) ->
  (forall k', k' <> k -> look h' k' = look h k') /\
  (look h' k = None \/ look h' k = Some []) /\
  (look h' k <> None <-> look h k <> None /\ continued h k).
Proof.
  induction fuel as [|fuel IH]; intros h k b h' d Hw Ht Hfu Hlen Hkne HE.
  { destruct k; [congruence|cbn in Hlen; lia]. }
  destruct k as [|c k]; [congruence|]. cbn [munset_sub] in HE.
  assert (Habsent : look h (c :: k) = None -> h' = h ->
    (forall k', k' <> c :: k -> look h' k' = look h k') /\
    (look h' (c :: k) = None \/ look h' (c :: k) = Some []) /\
    (look h' (c :: k) <> None <-> look h (c :: k) <> None /\ continued h (c :: k))).
  { intros Hn ->. split; [reflexivity|]. split; [now left|]. rewrite Hn. intuition. }
  pose proof (find_child_spec c (hitems h) 0 None) as Hf.
  destruct (find_child c (hitems h) 0 None) as [i n|lz].
  2:{ destruct Hf as [Hf _]. apply Habsent; [now apply look_notin|]. congruence. }
  destruct Hf as (l1 & l2 & El & Hi & Hh & Hf). cbn in Hi. subst i.
  assert (Hin : In n (hitems h)) by (rewrite El; apply in_or_app; right; now left).
  pose proof (wff_key _ _ Hw Hin) as Hnk. pose proof (wff_sub _ _ Hw Hin) as Hns.
  pose proof (tight_sub _ _ Ht Hin) as Htn. pose proof (full_sub _ _ Hfu Hin) as Hfn.
  assert (Hother : forall k', k' <> [] -> char0 k' = head0 n -> look h k' = nlook n k')
    by (intros; now apply look_in).
  pose proof (scan_keycmp c k (nkey n) Hnk Hh) as Hk.
  inversion Hk as [E He|a r E He|a r E He|p a ra b0 rb Hp0 E E' Hab He]; clear Hk;
    rewrite <- He in HE; cbv beta iota zeta in HE.
  - rewrite E in *. clear E.
    assert (El0 : look h (nkey n) = ndata n) by (rewrite Hother by auto; apply nlook_self).
    pose proof (full_data _ _ Hfu Hin) as Hd.
    assert (Hcont : forall s, s <> [] -> look h (nkey n ++ s) = look (nsubs n) s).
    { intros s Hs. rewrite Hother.
      - rewrite nlook_app. destruct s; [congruence|reflexivity].
      - intros E2. apply app_eq_nil in E2. tauto.
      - unfold head0. destruct (nkey n); [congruence|reflexivity]. }
    destruct (htail (nsubs n)) as [|j|] eqn:Et.
    + assert (Hnil : hitems (nsubs n) = []) by (apply (tail_null _ (tight_good _ Htn)); exact Et).
      assert (h' = hs_remove h (length l1)) as ->.
      { destruct b; [now inversion HE|]. destruct (htail (hs_remove h (length l1))); now inversion HE. }
      assert (Hnk0 : look (hs_remove h (length l1)) (nkey n) = None).
      { rewrite (look_remove h l1 n l2) by auto. unfold head0. now rewrite Ascii.eqb_refl. }
      split; [|split].
      * intros k' Hne. destruct k' as [|c' k0]; [now rewrite !look_nil|]. set (k' := c' :: k0) in *.
        rewrite (look_remove h l1 n l2) by (auto; discriminate).
        destruct (Ascii.eqb_spec (char0 k') (head0 n)) as [Ec|Ec]; [|reflexivity].
        rewrite (Hother k') by (auto; discriminate).
        rewrite nlook_cases. destruct (strip (nkey n) k') as [[|c1 r1]|] eqn:Es; [| |reflexivity].
        -- apply strip_some in Es. rewrite app_nil_r in Es. congruence.
        -- rewrite look_notin; [reflexivity|exact Hns|]. rewrite Hnil. constructor.
      * now left.
      * rewrite Hnk0. split; [congruence|]. intros (_ & s & Hs & Hls). exfalso. apply Hls. rewrite Hcont by exact Hs.
        apply look_notin; [exact Hns|]. rewrite Hnil. constructor.
    + set (nn := Node (nkey n) (Some []) (nsubs n)) in *.
      assert (h' = hs_update h (length l1) nn) as ->.
      { destruct b; [now inversion HE|]. destruct (htail (hs_update h (length l1) nn)); now inversion HE. }
      assert (Hs : swapped h (hs_update h (length l1) nn) nn).
      { apply (swap_update h l1 n nn l2); auto. split; auto. }
      destruct Hs as (Hw' & Ht' & Hl).
      assert (Hat : look (hs_update h (length l1) nn) (nkey n) = Some []).
      { rewrite Hl by exact Hnk. change (head0 nn) with (head0 n). unfold head0. rewrite Ascii.eqb_refl.
        change (nkey n) with (nkey nn). now rewrite nlook_self. }
      split; [|split].
      * intros k' Hne. destruct k' as [|c' k0]; [now rewrite !look_nil|]. set (k' := c' :: k0) in *.
        rewrite Hl by discriminate. change (head0 nn) with (head0 n).
        destruct (Ascii.eqb_spec (char0 k') (head0 n)) as [Ec|Ec]; [|reflexivity].
        rewrite (Hother k') by (auto; discriminate). rewrite !nlook_cases. cbn [nn nkey ndata nsubs].
        destruct (strip (nkey n) k') as [[|c1 r1]|] eqn:Es; [|reflexivity|reflexivity].
        apply strip_some in Es. rewrite app_nil_r in Es. congruence.
      * now right.
      * rewrite Hat. split; [intros _|discriminate]. rewrite El0. split; [exact Hd|].
        destruct (hitems (nsubs n)) as [|m l] eqn:Em.
        { apply (tail_null _ (tight_good _ Htn)) in Em. congruence. }
        assert (Hm : In m (hitems (nsubs n))) by (rewrite Em; now left).
        exists (nkey m). pose proof (wff_key _ _ Hns Hm) as Hkm. split; [exact Hkm|]. rewrite Hcont by exact Hkm.
        rewrite (look_in (nsubs n) m) by (auto; unfold head0; reflexivity). rewrite nlook_self. now apply (full_data _ _ Hfn).
    + exfalso. pose proof (wff_semi _ Hns) as Hse. unfold semi in Hse. now rewrite Et in Hse.
  - apply Habsent; [|congruence]. rewrite Hother by (auto; discriminate). apply nlook_off. rewrite E. intros (s & Es).
    apply (f_equal (@length _)) in Es. rewrite !app_length in Es. cbn in Es. lia.
  - assert (Hlen2 : length (a :: r) <= fuel).
    { apply (f_equal (@length _)) in E. rewrite app_length in E. destruct (nkey n); [congruence|]. cbn in *. lia. }
    assert (Hsk : skipn (length (nkey n)) (c :: k) = a :: r) by (rewrite E; apply skipn_app_exact).
    rewrite Hsk in HE. apply bind_ok in HE. destruct HE as ([s' d'] & Es0 & HE). inversion HE; subst h' d'. cbn [fst] in *.
    destruct (IH (nsubs n) (a :: r) false s' d Hns Htn Hfn Hlen2 ltac:(discriminate) Es0) as (H1 & H2 & H3).
    pose proof (munset_sub_spec fuel (nsubs n) (a :: r) false Hns Htn Hlen2 ltac:(discriminate)) as Hsp.
    rewrite Es0 in Hsp. destruct Hsp as (Hws & Hts & _).
    set (nn := Node (nkey n) (ndata n) s') in *.
    assert (Hs : swapped h (hs_update h (length l1) nn) nn).
    { apply (swap_update h l1 n nn l2); auto. split; auto. }
    destruct Hs as (Hw' & Ht' & Hl).
    assert (Hbelow : forall q, q <> [] -> look h (nkey n ++ q) = look (nsubs n) q).
    { intros q Hq. rewrite Hother.
      - rewrite nlook_app. destruct q; [congruence|reflexivity].
      - intros E2. apply app_eq_nil in E2. tauto.
      - unfold head0. destruct (nkey n); [congruence|reflexivity]. }
    assert (Hat : look (hs_update h (length l1) nn) (c :: k) = look s' (a :: r)).
    { rewrite Hl by discriminate. change (head0 nn) with (head0 n). rewrite Hh. cbn [char0]. rewrite Ascii.eqb_refl.
      rewrite E. change (nkey n) with (nkey nn). now rewrite nlook_app. }
    split; [|split].
    + intros k' Hne. destruct k' as [|c' k0]; [now rewrite !look_nil|]. set (k' := c' :: k0) in *.
      rewrite Hl by discriminate. change (head0 nn) with (head0 n).
      destruct (Ascii.eqb_spec (char0 k') (head0 n)) as [Ec|Ec]; [|reflexivity].
      rewrite (Hother k') by (auto; discriminate). rewrite !nlook_cases. cbn [nn nkey ndata nsubs].
      destruct (strip (nkey n) k') as [[|c1 r1]|] eqn:Es; [reflexivity| |reflexivity].
      apply H1. apply strip_some in Es. intros E2. apply Hne. now rewrite Es, E2, E.
    + rewrite Hat. exact H2.
    + rewrite Hat, H3. rewrite E at 1. rewrite Hbelow by discriminate.
      split; intros (Ha & s & Hs & Hls); (split; [exact Ha|]); exists s; (split; [exact Hs|]).
      * rewrite E, <- app_assoc. cbn [app]. rewrite Hbelow by discriminate. exact Hls.
      * rewrite E, <- app_assoc in Hls. cbn [app] in Hls. rewrite Hbelow in Hls by discriminate. exact Hls.
  - apply Habsent; [|congruence].
    rewrite Hother by (auto; discriminate). apply nlook_off. intros (s & Es).
    rewrite E, E' in Es. rewrite <- app_assoc in Es. apply app_inv_head in Es. cbn in Es. congruence.
Qed.

(** Whole trees. *)
Lemma mt_put_at t k v : minv t -> k <> [] ->
  exists t', mt_put t k v = Ok t' /\ minv t' /\ mlen t' = (mlen t + 1)%Z /\
    mlook t' k = Some (olist (mlook t k) ++ [v]) /\
    (forall k', k' <> k -> oflat (mlook t' k') = oflat (mlook t k')) /\
    (forall k', mlook t k' <> None -> mlook t' k' <> None).
Proof.
  intros Hi Hk. destruct (mt_put_spec t k v Hi Hk) as (t' & E & Hi' & Hlen & Hl & _).
  exists t'. split; [exact E|]. split; [exact Hi'|]. split; [exact Hlen|].
  destruct Hi as (Hw & Ht & Hfu). unfold mt_put in E. apply bind_ok in E. destruct E as (s & Es & E). inversion E; subst t'.
  destruct (mset_sub_at _ _ _ _ _ Hw Ht (le_n _) Hk Es) as (H1 & H2).
  split; [exact H1|]. split; [|exact H2]. intros k' Hne. rewrite Hl, streq_neq by exact Hne. apply app_nil_r.
Qed.
Lemma mt_put_null_at t k : minv t -> k <> [] ->
  exists t', mt_put_null t k = Ok t' /\ minv t' /\ mlen t' = (mlen t + 1)%Z /\
    mlook t' k = Some (olist (mlook t k)) /\
    (forall k', k' <> k -> oflat (mlook t' k') = oflat (mlook t k')) /\
    (forall k', mlook t k' <> None -> mlook t' k' <> None).
Proof.
  intros (Hw & Ht & Hfu) Hk. unfold mt_put_null.
  destruct (mset_sub_spec (length k) (mroot t) k [] Hw Ht (le_n _) Hk) as (h' & E & Hw' & Ht' & Hl).
  rewrite E. cbn [bind]. eexists. split; [reflexivity|].
  destruct (mset_sub_at _ _ _ _ _ Hw Ht (le_n _) Hk E) as (H1 & H2).
  split; [split; [exact Hw'|split; [exact Ht'|exact (mset_sub_full _ _ _ _ _ Hfu E)]]|].
  split; [cbn [mlen]; destruct k; congruence|]. split; [unfold mlook; cbn [mroot]; now rewrite H1, app_nil_r|].
  split; [|exact H2]. intros k' Hne. unfold mlook at 1. cbn [mroot]. rewrite Hl, streq_neq by exact Hne. apply app_nil_r.
Qed.
Lemma put_all_at l : forall t k, minv t -> k <> [] ->
  exists t', put_all t k l = Ok t' /\ minv t' /\ mlen t' = (mlen t + Z.of_nat (length l))%Z /\
    mlook t' k = (match l with [] => mlook t k | _ => Some (olist (mlook t k) ++ l) end) /\
    (forall k', k' <> k -> oflat (mlook t' k') = oflat (mlook t k')) /\
    (forall k', mlook t k' <> None -> mlook t' k' <> None).
Proof.
  induction l as [|v l IH]; intros t k Ht Hk; cbn [put_all].
  - exists t. split; [reflexivity|]. split; [exact Ht|]. split; [cbn [length]; lia|]. split; [reflexivity|]. split; [reflexivity|]. intros k' H; exact H.
  - destruct (mt_put_at t k v Ht Hk) as (t1 & -> & Ht1 & Hlen & H1 & H2 & H3). cbn [bind].
    destruct (IH t1 k Ht1 Hk) as (t2 & E & Ht2 & Hlen2 & G1 & G2 & G3). exists t2. split; [exact E|]. split; [exact Ht2|].
    split; [cbn [length]; lia|]. split; [|split].
    + rewrite G1, H1. destruct l as [|w l]; [reflexivity|]. cbn [olist]. now rewrite <- app_assoc.
    + intros k' Hne. rewrite G2, H2 by exact Hne. reflexivity.
    + auto.
Qed.
Lemma mt_unset_at t k t' : minv t -> k <> [] -> mt_unset t k = Ok t' ->
  (forall k', k' <> k -> mlook t' k' = mlook t k') /\
  (mlook t' k = None \/ mlook t' k = Some []) /\
  (mlook t' k <> None <-> mlook t k <> None /\ exists s, s <> [] /\ mlook t (k ++ s) <> None).
Proof.
  intros (Hw & Ht & Hfu) Hk E. unfold mt_unset in E. apply bind_ok in E. destruct E as ([h' d] & E & E2).
  inversion E2; subst t'. exact (munset_exact _ _ _ _ _ _ Hw Ht Hfu (le_n _) Hk E).
Qed.
End Facts.
