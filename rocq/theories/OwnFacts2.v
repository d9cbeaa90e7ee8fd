(** Histories of the dictionaries: what is destroyed, what is lost. *)
From Coq Require Import Permutation.
From Verif Require Import CStr CStrFacts HSListModel HSListFacts RTreeModel RTreeFacts RTreeFacts2 RTreeFacts3 RTreeFacts4
  OwnModel OwnFacts.

Section Facts.
Context {V : Type}.
Notation node := (node V).
Implicit Types (n : node) (l : list node) (h : hsl node) (k : str) (d : option V) (kd : kind).

(** set destroys exactly the value the key had. *)
Lemma own_set_events kd : forall fuel h k d h' ev,
  own_set kd fuel h k (length k) d = Ok (h', ev) ->
  exists v, get_sub fuel h k = Ok v /\ somes ev = olist v.
Proof.
  induction fuel as [|fuel IH]; intros h k d h' ev E.
  { destruct k; [|discriminate]. cbn in *. inversion E. exists None. split; reflexivity. }
  destruct k as [|c k]; [cbn in *; inversion E; exists None; split; reflexivity|].
  cbn [own_set get_sub length] in *. rewrite firstn_all in E.
  destruct (find_child c (hitems h) 0 None) as [i n|lz]; [|inversion E; exists None; split; reflexivity].
  destruct (scan 1 k (tl (nkey n))) as [| |x|x].
  - apply bind_ok in E. destruct E as (ev0 & Er & E). inversion E; subst. exists (ndata n). split; [reflexivity|].
    exact (release_somes _ _ _ Er).
  - apply bind_ok in E. destruct E as (s' & _ & E). inversion E. exists None. split; reflexivity.
  - apply bind_ok in E. destruct E as ([hs ev0] & Er & E). inversion E; subst. cbn [snd].
    apply (IH (nsubs n) (skipn x (c :: k)) d hs). rewrite skipn_length. exact Er.
  - apply bind_ok in E. destruct E as (s' & _ & E). inversion E. exists None. split; reflexivity.
Qed.

Lemma ents_mid l1 n l2 : Permutation (ents (l1 ++ n :: l2)) (nents n ++ ents (l1 ++ l2)).
Proof. unfold ents. rewrite !flat_map_app. cbn [flat_map]. apply Permutation_app_swap_app. Qed.

(** unset destroys exactly the entries that it removes. *)
Lemma own_unset_spec kd : owning kd -> forall fuel isroot h k h' ev,
  wff h -> own_unset kd fuel isroot h k = Ok (h', ev) ->
  exists dk, Permutation (ents (hitems h') ++ dk) (ents (hitems h)) /\ map snd dk = somes ev /\
    (forall k' v, In (k', v) dk -> prefix k k').
Proof.
  intros Ho. induction fuel as [|fuel IH]; intros isroot h k h' ev Hw E.
  { destruct k; [|discriminate]. cbn in E. inversion E; subst. exists []. rewrite app_nil_r.
    split; [reflexivity|]. split; [reflexivity|]. intros k' v []. }
  destruct k as [|c k].
  { cbn in E. inversion E; subst. exists []. rewrite app_nil_r.
    split; [reflexivity|]. split; [reflexivity|]. intros k' v []. }
  assert (Hnone : Ok (h, @nil (option V)) = Ok (h', ev) ->
    exists dk, Permutation (ents (hitems h') ++ dk) (ents (hitems h)) /\ map snd dk = somes ev /\
    (forall k' v, In (k', v) dk -> prefix (c :: k) k')).
  { intros E0. inversion E0; subst. exists []. rewrite app_nil_r.
    split; [reflexivity|]. split; [reflexivity|]. intros k' v []. }
  cbn [own_unset] in E.
  pose proof (find_child_spec c (hitems h) 0 None) as Hf.
  destruct (find_child c (hitems h) 0 None) as [i n|lz]; [|exact (Hnone E)].
  destruct Hf as (l1 & l2 & El & Hi & Hh & Hf). cbn in Hi. subst i.
  assert (Hin : In n (hitems h)) by (rewrite El; apply in_or_app; right; now left).
  pose proof (wff_key _ _ Hw Hin) as Hnk. pose proof (wff_sub _ _ Hw Hin) as Hns.
  assert (Hup : forall n', hitems (hs_update h (length l1) n') = l1 ++ n' :: l2).
  { intros n'. unfold hs_update. cbn [hitems]. rewrite El. apply list_upd_app. }
  pose proof (hs_remove_items h l1 n l2 El) as Erem.
  pose proof (scan_keycmp c k (nkey n) Hnk Hh) as Hk.
  destruct (scan 1 k (tl (nkey n))) as [| |x|x]; try exact (Hnone E).
  - inversion Hk as [Ek| | |].
    assert (Hall : forall k' v, In (k', v) (nents n) -> prefix (c :: k) k').
    { intros k' v H. rewrite nents_eq in H. apply in_app_or in H. destruct H as [H|H].
      - unfold own in H. destruct (ndata n); [|easy]. destruct H as [H|[]]. injection H as <- _. rewrite Ek. apply prefix_refl.
      - apply in_eprefix in H. destruct H as (r & -> & _). rewrite Ek. now exists r. }
    apply bind_ok in E. destruct E as (r & Er & E).
    assert (Er' : r = (h', ev)).
    { destruct isroot; [now inversion E|]. destruct (htail (fst r)); now inversion E. }
    subst r. clear E.
    destruct (htail (nsubs n)) eqn:Et.
    + inversion Er; subst h' ev. exists (nents n). rewrite Erem, El. split; [|split].
      * rewrite ents_mid. apply Permutation_app_comm.
      * symmetry. rewrite node_destroy_somes by exact Ho. reflexivity.
      * exact Hall.
    + apply bind_ok in Er. destruct Er as (ev0 & Er & E). inversion E; subst h' ev0.
      exists (OwnModel.olist (option_map (pair (nkey n)) (ndata n))). rewrite Hup, El. split; [|split].
      * rewrite !ents_mid, !nents_eq. unfold own. cbn [ndata nsubs nkey].
        destruct (ndata n); cbn [option_map olist app]; [|now rewrite app_nil_r].
        symmetry. apply Permutation_cons_append.
      * rewrite (release_somes _ _ _ Er). destruct (ndata n); reflexivity.
      * intros k' v H. destruct (ndata n); cbn in H; [|easy]. destruct H as [H|[]]. injection H as <- _.
        rewrite Ek. apply prefix_refl.
    + pose proof (wff_semi _ Hns) as Hsm. unfold semi in Hsm. now rewrite Et in Hsm.
  - inversion Hk as [| |a r Ek Ex|]; subst x.
    apply bind_ok in E. destruct E as ([hs ev0] & Er & E). inversion E; subst h' ev. clear E. cbn [fst snd].
    assert (Hskip : skipn (length (nkey n)) (c :: k) = a :: r) by (rewrite Ek; apply skipn_app_exact).
    rewrite Hskip in Er. destruct (IH _ _ _ _ _ Hns Er) as (dk & Hp & Hv & Hpre).
    exists (eprefix (nkey n) dk). rewrite Hup, El. split; [|split].
    + rewrite !ents_mid, !nents_eq. cbn [ndata nsubs nkey].
      assert (Eo : own (Node (nkey n) (ndata n) hs) = own n) by reflexivity. rewrite Eo.
      rewrite <- !app_assoc. apply Permutation_app_head.
      rewrite (Permutation_app_comm (ents (l1 ++ l2))), app_assoc. apply Permutation_app_tail.
      rewrite <- eprefix_app. unfold eprefix. now apply Permutation_map.
    + rewrite eprefix_vals. exact Hv.
    + intros k' v H. apply in_eprefix in H. destruct H as (q & -> & H). apply Hpre in H.
      destruct H as (q' & ->). rewrite Ek. exists q'. now rewrite <- app_assoc.
Qed.

(** unset keeps the invariant that makes later sets harmless. *)
Lemma at_path_remove l1 n l2 q m : at_path (l1 ++ l2) q m -> at_path (l1 ++ n :: l2) q m.
Proof. apply at_path_incl. intros x Hx. apply in_app_or in Hx. apply in_or_app. cbn. tauto. Qed.
Lemma remove_null h i : semi h -> htail (hs_remove h i) = TNull -> htail h = TNull \/ hitems (hs_remove h i) = [].
Proof.
  intros Hs Ht. destruct (htail h) as [|j|] eqn:E; [now left|right|unfold semi in Hs; now rewrite E in Hs].
  exact (hs_remove_nonnull h i j Hs E Ht).
Qed.
Lemma unset_sub_paths fuel : forall isroot h k h' q m,
  wff h -> unset_sub fuel isroot h k = Ok h' -> at_path (hitems h') q m ->
  exists m0, at_path (hitems h) q m0.
Proof.
  induction fuel as [|fuel IH]; intros isroot h k h' q m Hw E Hp.
  { destruct k; [|discriminate]. cbn in E. inversion E; subst. eauto. }
  destruct k as [|c k]; [cbn in E; inversion E; subst; eauto|].
  cbn [unset_sub] in E.
  pose proof (find_child_spec c (hitems h) 0 None) as Hf.
  destruct (find_child c (hitems h) 0 None) as [i n|lz]; [|inversion E; subst; eauto].
  destruct Hf as (l1 & l2 & El & Hi & Hh & Hf). cbn in Hi. subst i.
  assert (Hin : In n (hitems h)) by (rewrite El; apply in_or_app; right; now left).
  pose proof (wff_sub _ _ Hw Hin) as Hns.
  assert (Hup : forall n', hitems (hs_update h (length l1) n') = l1 ++ n' :: l2).
  { intros n'. unfold hs_update. cbn [hitems]. rewrite El. apply list_upd_app. }
  pose proof (hs_remove_items h l1 n l2 El) as Erem.
  assert (Hsame : forall n', nkey n' = nkey n ->
    (forall q' m', at_path (hitems (nsubs n')) q' m' -> exists m0, at_path (hitems (nsubs n)) q' m0) ->
    at_path (l1 ++ n' :: l2) q m -> exists m0, at_path (hitems h) q m0).
  { intros n' Hk Hsub H. rewrite El. apply at_path_inv in H. destruct H as (x & Hx & Hc).
    apply in_app_or in Hx. cbn in Hx.
    assert (Hx' : x = n' \/ In x (l1 ++ n :: l2)) by (rewrite in_app_iff; cbn; intuition).
    destruct Hx' as [->|Hx'].
    - assert (Hn : In n (l1 ++ n :: l2)) by (apply in_or_app; right; now left).
      destruct Hc as [[-> ->]|(q' & -> & Hq')]; rewrite Hk.
      + exists n. now constructor.
      + destruct (Hsub _ _ Hq') as (m0 & Hm0). exists m0. now apply AP_below.
    - destruct Hc as [[-> ->]|(q' & -> & Hq')]; [exists x; now constructor|exists m; now apply AP_below]. }
  destruct (scan 1 k (tl (nkey n))) as [| |x|x]; try (inversion E; subst; eauto; fail).
  - set (s' := match htail (nsubs n) with TNull => _ | _ => _ end) in E.
    assert (E' : h' = s') by (destruct isroot; [now inversion E|]; destruct (htail s'); now inversion E).
    subst h'. unfold s' in Hp. clear E s'. destruct (htail (nsubs n)).
    + rewrite Erem in Hp. rewrite El. exists m. now apply at_path_remove.
    + rewrite Hup in Hp. revert Hp. apply Hsame; [reflexivity|]. cbn [nsubs]. eauto.
    + rewrite Hup in Hp. revert Hp. apply Hsame; [reflexivity|]. cbn [nsubs]. eauto.
  - apply bind_ok in E. destruct E as (hs & Er & E). inversion E; subst h'. rewrite Hup in Hp.
    revert Hp. apply Hsame; [reflexivity|]. cbn [nsubs]. intros q' m' H'. exact (IH _ _ _ _ _ _ Hns Er H').
Qed.
Lemma unset_sub_tn fuel : forall isroot h k h' (S : str -> Prop),
  wff h -> tn S h -> unset_sub fuel isroot h k = Ok h' -> tn S h'.
Proof.
  induction fuel as [|fuel IH]; intros isroot h k h' S Hw Ht E.
  { destruct k; [|discriminate]. cbn in E. now inversion E; subst. }
  destruct k as [|c k]; [cbn in E; now inversion E; subst|].
  pose proof (fun q m => unset_sub_paths (Datatypes.S fuel) isroot h (c :: k) h' q m Hw E) as Hpaths.
  cbn [unset_sub] in E.
  pose proof (find_child_spec c (hitems h) 0 None) as Hf.
  destruct (find_child c (hitems h) 0 None) as [i n|lz]; [|now inversion E; subst].
  destruct Hf as (l1 & l2 & El & Hi & Hh & Hf). cbn in Hi. subst i.
  assert (Hin : In n (hitems h)) by (rewrite El; apply in_or_app; right; now left).
  pose proof (wff_sub _ _ Hw Hin) as Hns.
  assert (Hup : forall n', hitems (hs_update h (length l1) n') = l1 ++ n' :: l2).
  { intros n'. unfold hs_update. cbn [hitems]. rewrite El. apply list_upd_app. }
  pose proof (hs_remove_items h l1 n l2 El) as Erem.
  inversion Ht as [S0 h0 Ht1 Ht2]; subst.
  assert (Hsame : forall n', nkey n' = nkey n -> tn (fun r => S (nkey n ++ r)) (nsubs n') ->
      h' = hs_update h (length l1) n' -> tn S h').
  { intros n' Hk Hn ->. constructor.
    - intros E0 q m Hq. destruct (Hpaths q m Hq) as (m0 & Hm0). exact (Ht1 E0 q m0 Hm0).
    - intros x Hx. rewrite Hup in Hx. apply in_app_or in Hx. cbn in Hx.
      assert (Hx' : x = n' \/ In x (hitems h)) by (rewrite El, in_app_iff; cbn; intuition).
      destruct Hx' as [->|Hx']; [rewrite Hk; exact Hn|now apply Ht2]. }
  destruct (scan 1 k (tl (nkey n))) as [| |x|x]; try (now inversion E; subst).
  - set (s' := match htail (nsubs n) with TNull => _ | _ => _ end) in E.
    assert (E' : h' = s') by (destruct isroot; [now inversion E|]; destruct (htail s'); now inversion E).
    unfold s' in E'. clear E s'. destruct (htail (nsubs n)).
    + subst h'. constructor.
      * intros E0 q m Hq. destruct (remove_null h (length l1) (wff_semi _ Hw) E0) as [E1|E1].
        -- destruct (Hpaths q m Hq) as (m0 & Hm0). exact (Ht1 E1 q m0 Hm0).
        -- rewrite E1 in Hq. apply at_path_inv in Hq. destruct Hq as (x & [] & _).
      * intros x Hx. apply Ht2. rewrite Erem in Hx. rewrite El. apply in_app_or in Hx. apply in_or_app. cbn. tauto.
    + apply (Hsame (Node (nkey n) None (nsubs n))); [reflexivity|exact (Ht2 n Hin)|exact E'].
    + apply (Hsame (Node (nkey n) None (nsubs n))); [reflexivity|exact (Ht2 n Hin)|exact E'].
  - apply bind_ok in E. destruct E as (hs & Er & E). inversion E; subst h'.
    apply (Hsame (Node (nkey n) (ndata n) hs)); [reflexivity| |reflexivity].
    cbn [nsubs]. exact (IH _ _ _ _ _ Hns (Ht2 n Hin) Er).
Qed.
End Facts.
