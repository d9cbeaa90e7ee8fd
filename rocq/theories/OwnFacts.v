(** Facts about the ownership model. *)
From Coq Require Import Permutation.
From Verif Require Import CStr CStrFacts HSListModel HSListFacts RTreeModel RTreeFacts RTreeFacts2 OwnModel.

Section Facts.
Context {V : Type}.
Notation node := (node V).
Implicit Types (n : node) (l : list node) (h : hsl node) (k : str) (d : option V) (kd : kind).

Definition owning kd : Prop := kd <> Plain false.
(** The values among the destructor calls. *)
Definition somes (l : list (option V)) : list V := flat_map olist l.
Lemma somes_app (l1 l2 : list (option V)) : somes (l1 ++ l2) = somes l1 ++ somes l2.
Proof. apply flat_map_app. Qed.

(** All values of a tree. *)
Definition vals l : list V := map snd (ents l).
Definition nvals n : list V := map snd (nents n).
Lemma eprefix_vals p (e : list (str * V)) : map snd (eprefix p e) = map snd e.
Proof. unfold eprefix. rewrite map_map. reflexivity. Qed.
Lemma nvals_eq n : nvals n = olist (ndata n) ++ vals (hitems (nsubs n)).
Proof.
  unfold nvals, vals. rewrite nents_eq, map_app, eprefix_vals. unfold own. now destruct (ndata n).
Qed.
Lemma vals_nil : vals [] = []. Proof. reflexivity. Qed.
Lemma vals_cons n l : vals (n :: l) = nvals n ++ vals l.
Proof. unfold vals, nvals. cbn [ents flat_map]. apply map_app. Qed.
Lemma vals_app l1 l2 : vals (l1 ++ l2) = vals l1 ++ vals l2.
Proof. unfold vals, ents. now rewrite flat_map_app, map_app. Qed.
Lemma vals_mid l1 n l2 : Permutation (vals (l1 ++ n :: l2)) (nvals n ++ vals (l1 ++ l2)).
Proof. rewrite !vals_app, vals_cons. apply Permutation_app_swap_app. Qed.

Lemma dispose_somes kd d : owning kd -> somes (dispose kd d) = olist d.
Proof. intros H. destruct kd as [[|]|], d; cbn; try reflexivity; now destruct H. Qed.
Lemma node_destroy_eq kd n : node_destroy kd n = dispose kd (ndata n) ++ list_destroy kd (nsubs n).
Proof. destruct n as [k d [l t]]. reflexivity. Qed.
Lemma node_destroy_somes kd : owning kd -> forall n, somes (node_destroy kd n) = nvals n.
Proof.
  intros H. apply node_ind'. intros k d l0 t IH. set (h := mkH l0 t) in *.
  rewrite node_destroy_eq, nvals_eq, somes_app, dispose_somes by exact H. cbn [ndata nsubs]. f_equal.
  unfold list_destroy. cbn [h hitems]. clear h.
  induction IH as [|n l Hn _ IHl]; [reflexivity|].
  cbn [flat_map]. rewrite somes_app, vals_cons. congruence.
Qed.
Lemma list_destroy_somes kd h : owning kd -> somes (list_destroy kd h) = vals (hitems h).
Proof.
  intros H. unfold list_destroy. induction (hitems h) as [|n l IH]; [reflexivity|].
  cbn [flat_map]. rewrite somes_app, vals_cons, node_destroy_somes, IH by exact H. reflexivity.
Qed.
Lemma release_somes kd d ev : release kd d = Ok ev -> somes ev = olist d.
Proof. destruct kd as [[|]|]; cbn; intros E; inversion E; destruct d; reflexivity. Qed.
Lemma release_ok kd d : owning kd -> exists ev, release kd d = Ok ev.
Proof. intros H. destruct kd as [[|]|]; cbn; eauto. now destruct H. Qed.

(** ** Same trees as RTreeModel *)
Lemma rmap_bind {A B C} (f : B -> C) (x : res A) (g : A -> res B) :
  rmap f (bind x g) = bind x (fun a => rmap f (g a)).
Proof. now destruct x. Qed.
Lemma own_set_tree kd : owning kd -> forall fuel h k d,
  rmap fst (own_set kd fuel h k (length k) d) = rmap fst (set_sub fuel h k d).
Proof.
  intros Ho. induction fuel as [|fuel IH]; intros h k d; destruct k as [|c k]; try reflexivity.
  cbn [own_set set_sub length]. rewrite firstn_all.
  destruct (find_child c (hitems h) 0 None) as [i n|lz].
  2:{ destruct kd; [reflexivity|]. cbn [firstn]. rewrite firstn_all. reflexivity. }
  destruct (scan 1 k (tl (nkey n))) as [| |x|x].
  - destruct (release_ok kd (ndata n) Ho) as (ev & ->). reflexivity.
  - change (firstn (S (length k)) (c :: k)) with (c :: firstn (length k) k). rewrite firstn_all.
    destruct (hs_append _ _); reflexivity.
  - specialize (IH (nsubs n) (skipn x (c :: k)) d). rewrite skipn_length in IH. cbn [length] in IH.
    destruct (own_set kd fuel (nsubs n) (skipn x (c :: k)) (S (length k) - x) d) as [[]| |],
             (set_sub fuel (nsubs n) (skipn x (c :: k)) d) as [[]| |]; cbn in *; congruence.
  - destruct (hs_append_all _ _); reflexivity.
Qed.
Lemma own_unset_tree kd : owning kd -> forall fuel isroot h k,
  rmap fst (own_unset kd fuel isroot h k) = unset_sub fuel isroot h k.
Proof.
  intros Ho. induction fuel as [|fuel IH]; intros isroot h k; destruct k as [|c k]; try reflexivity.
  cbn [own_unset unset_sub].
  destruct (find_child c (hitems h) 0 None) as [i n|lz]; [|reflexivity].
  destruct (scan 1 k (tl (nkey n))) as [| |x|x]; try reflexivity.
  - destruct (htail (nsubs n)) eqn:Et; try destruct (release_ok kd (ndata n) Ho) as (ev & ->);
      cbn [bind fst]; destruct isroot; try reflexivity;
      match goal with |- context [htail ?a] => destruct (htail a) end; reflexivity.
  - rewrite <- IH. destruct (own_unset kd fuel false (nsubs n) (skipn x (c :: k))); reflexivity.
Qed.

(** ** A length argument amounts to one of two keys *)
Lemma scan_E1 (nk : str) a r : forall x, scan x (nk ++ a :: r) nk = E1 (x + length nk).
Proof.
  induction nk as [|c nk IH]; intros x; cbn [app scan length]; [f_equal; lia|].
  rewrite Ascii.eqb_refl, IH. f_equal. lia.
Qed.
Lemma scan_E0 (p : str) a ra b rb : a <> b -> forall x, scan x (p ++ b :: rb) (p ++ a :: ra) = E0 (x + length p).
Proof.
  intros Hab. induction p as [|c p IH]; intros x; cbn [app scan length].
  - destruct (Ascii.eqb_spec b a); [congruence|]. f_equal. lia.
  - rewrite Ascii.eqb_refl, IH. f_equal. lia.
Qed.
Lemma own_set_fuel kd : forall f1 f2 h k m d,
  wff h -> m <= f1 -> m <= f2 -> own_set kd f1 h k m d = own_set kd f2 h k m d.
Proof.
  induction f1 as [|f1 IH]; intros f2 h k m d Hw H1 H2.
  { destruct m; [|lia]. destruct f2; reflexivity. }
  destruct m as [|m]; [destruct f2; reflexivity|]. destruct f2 as [|f2]; [lia|].
  destruct k as [|c k]; [reflexivity|]. cbn [own_set].
  pose proof (find_child_spec c (hitems h) 0 None) as Hf.
  destruct (find_child c (hitems h) 0 None) as [i n|lz]; [|reflexivity].
  destruct Hf as (l1 & l2 & El & _ & Hh & _).
  assert (Hin : In n (hitems h)) by (rewrite El; apply in_or_app; right; now left).
  pose proof (wff_key _ _ Hw Hin) as Hnk. pose proof (wff_sub _ _ Hw Hin) as Hns.
  pose proof (scan_keycmp c (firstn m k) (nkey n) Hnk Hh) as Hk.
  destruct (scan 1 (firstn m k) (tl (nkey n))) as [| |x|x]; try reflexivity.
  inversion Hk; subst x. rewrite (IH f2); [reflexivity|exact Hns| |]; destruct (nkey n); cbn [length]; try congruence; lia.
Qed.
Lemma firstn_skipn_comm' {A} (m x : nat) (l : list A) : firstn (m - x) (skipn x l) = skipn x (firstn m l).
Proof.
  revert m l. induction x as [|x IH]; intros m l; [now rewrite Nat.sub_0_r|].
  destruct m as [|m], l as [|a l]; cbn [skipn firstn]; try reflexivity.
  - now rewrite firstn_nil.
  - exact (IH m l).
Qed.

Lemma own_set_n kd : forall fuel h k m d,
  wff h -> 0 < m -> m <= length k -> m <= fuel ->
  exists k', (k' = k \/ k' = firstn m k) /\
    own_set kd fuel h k m d = own_set kd (length k') h k' (length k') d.
Proof.
  induction fuel as [|fuel IH]; intros h k m d Hw Hm Hle Hf; [lia|].
  destruct m as [|m]; [lia|]. destruct k as [|c k]; [cbn in Hle; lia|].
  assert (Hfm : firstn (S m) (c :: k) = c :: firstn m k) by reflexivity.
  assert (Hlm : length (firstn m k) = m) by (rewrite firstn_length; cbn in Hle; lia).
  cbn [own_set].
  pose proof (find_child_spec c (hitems h) 0 None) as Hfc.
  destruct (find_child c (hitems h) 0 None) as [i n|lz] eqn:Efc.
  2:{ destruct kd.
    - exists (c :: k). split; [now left|]. cbn [own_set length]. rewrite Efc. reflexivity.
    - exists (c :: firstn m k). split; [now right|]. cbn [own_set length]. rewrite Efc.
      rewrite Hfm. cbn [firstn]. rewrite firstn_all. reflexivity. }
  destruct Hfc as (l1 & l2 & El & _ & Hh & _).
  assert (Hin : In n (hitems h)) by (rewrite El; apply in_or_app; right; now left).
  pose proof (wff_key _ _ Hw Hin) as Hnk. pose proof (wff_sub _ _ Hw Hin) as Hns.
  pose proof (scan_keycmp c (firstn m k) (nkey n) Hnk Hh) as Hk.
  destruct (scan 1 (firstn m k) (tl (nkey n))) as [| |x|x] eqn:Esc.
  - exists (c :: firstn m k). split; [now right|]. cbn [own_set length]. rewrite Efc, firstn_all, Esc. reflexivity.
  - exists (c :: firstn m k). split; [now right|]. cbn [own_set length]. rewrite Efc, firstn_all, Esc, Hlm.
    cbn [firstn]. rewrite firstn_firstn, Nat.min_id. reflexivity.
  - inversion Hk as [| |a r Ek Ex|]; subst x; clear Hk.
    assert (Hlen : S m = length (nkey n) + S (length r)).
    { apply (f_equal (@length _)) in Ek. rewrite app_length in Ek. cbn [length] in Ek. lia. }
    assert (Hpre : c :: k = nkey n ++ skipn (length (nkey n)) (c :: k)).
    { rewrite <- (firstn_skipn (length (nkey n)) (c :: k)) at 1. f_equal.
      assert (E : firstn (length (nkey n)) (firstn (S m) (c :: k)) = nkey n).
      { rewrite Hfm, Ek. apply firstn_app_exact. }
      rewrite firstn_firstn in E. rewrite Nat.min_l in E by lia. exact E. }
    set (s := skipn (length (nkey n)) (c :: k)) in *.
    assert (Hls : length s = length (c :: k) - length (nkey n)) by apply skipn_length.
    destruct (IH (nsubs n) s (S m - length (nkey n)) d Hns) as (k2 & Hk2 & E2).
    { lia. } { cbn [length] in *. lia. } { destruct (nkey n); [congruence|]. cbn [length] in *. lia. }
    exists (nkey n ++ k2). split.
    + destruct Hk2 as [->| ->]; [left; now rewrite <- Hpre|right].
      unfold s. rewrite firstn_skipn_comm', Hfm, Ek, skipn_app_exact. reflexivity.
    + rewrite E2.
      assert (Hk2c : k2 = a :: tl k2).
      { assert (Es : firstn (S m - length (nkey n)) s = a :: r)
          by (unfold s; rewrite firstn_skipn_comm', Hfm, Ek; apply skipn_app_exact).
        destruct Hk2 as [->| ->]; [|now rewrite Es]. destruct s; [now rewrite firstn_nil in Es|].
        destruct (S m - length (nkey n)); cbn in Es |- *; congruence. }
      destruct (nkey n) as [|c0 nk0] eqn:Enk; [congruence|]. unfold head0 in Hh. rewrite Enk in Hh. cbn in Hh. subst c0.
      rewrite Hk2c. remember (own_set kd (length (a :: tl k2)) (nsubs n) (a :: tl k2) (length (a :: tl k2)) d) as R eqn:ER.
      cbn [app length own_set]. rewrite Efc, firstn_all, Enk. cbn [tl]. rewrite scan_E1.
      cbn [Nat.add skipn]. rewrite skipn_app_exact.
      replace (S (length (nk0 ++ a :: tl k2)) - S (length nk0)) with (length (a :: tl k2))
        by (rewrite app_length; cbn [length]; lia).
      rewrite (own_set_fuel kd (length (nk0 ++ a :: tl k2)) (length (a :: tl k2))); try exact Hns;
        try (rewrite ?app_length; cbn [length]; lia).
      rewrite <- ER. reflexivity.
  - inversion Hk as [| | |p a ra b rb Hp0 Ek Ek' Hab Ex]; subst x; clear Hk.
    exists (c :: k). split; [now left|]. cbn [own_set length]. rewrite Efc, firstn_all.
    destruct p as [|c0 p]; [congruence|]. cbn in Ek'. injection Ek' as Ec Ek'. subst c0.
    assert (Ekk : k = p ++ b :: (rb ++ skipn m k)).
    { rewrite <- (firstn_skipn m k) at 1. rewrite Ek', <- app_assoc. reflexivity. }
    assert (Esc2 : scan 1 k (tl (nkey n)) = E0 (length (c :: p))).
    { rewrite Ek, Ekk. cbn [app tl]. rewrite scan_E0 by exact Hab. reflexivity. }
    rewrite Esc2. reflexivity.
Qed.

(** ** set: what happens to the values *)
Lemma own_set_spec kd : owning kd -> forall fuel h k d h' ev,
  wff h -> own_set kd fuel h k (length k) d = Ok (h', ev) ->
  exists lost, Permutation (vals (hitems h') ++ somes ev ++ lost) (olist d ++ vals (hitems h)) /\
    (k <> [] -> clob fuel h k = false -> lost = []).
Proof.
  intros Ho. induction fuel as [|fuel IH]; intros h k d h' ev Hw E.
  { destruct k; [|discriminate]. cbn in E. inversion E; subst. exists (olist d). split; [|congruence].
    cbn. apply Permutation_app_comm. }
  destruct k as [|c k].
  { cbn in E. inversion E; subst. exists (olist d). split; [|congruence]. cbn. apply Permutation_app_comm. }
  cbn [own_set length clob] in *. rewrite firstn_all in E.
  pose proof (find_child_spec c (hitems h) 0 None) as Hf.
  destruct (find_child c (hitems h) 0 None) as [i n|lz].
  2:{ destruct Hf as [Hf Hlz]. set (key := match kd with Plain _ => _ | _ => _ end) in E.
    set (nn := Node key d hs_empty) in E. inversion E as [[E1 E2]]. clear E. exists []. split; [|auto].
    rewrite app_nil_r. cbn [somes flat_map]. rewrite ?app_nil_r.
    assert (Hsplit : exists l1 l2, hitems h = l1 ++ l2 /\ hitems h' = l1 ++ nn :: l2).
    { subst h'. destruct Hlz as [->|(j & -> & Hj)].
      - exists [], (hitems h). split; reflexivity.
      - destruct (list_ins_split (hitems h) (S j) nn) as (l1 & l2 & F1 & F2); [lia|].
        exists l1, l2. split; [exact F1|exact F2]. }
    destruct Hsplit as (l1 & l2 & El & El'). rewrite E1, El, El', vals_mid.
    rewrite nvals_eq. cbn [nn ndata nsubs hs_empty hitems]. rewrite vals_nil, app_nil_r. reflexivity. }
  destruct Hf as (l1 & l2 & El & Hi & Hh & Hf). cbn in Hi. subst i.
  assert (Hin : In n (hitems h)) by (rewrite El; apply in_or_app; right; now left).
  pose proof (wff_key _ _ Hw Hin) as Hnk. pose proof (wff_sub _ _ Hw Hin) as Hns.
  assert (Hup : forall n', hitems (hs_update h (length l1) n') = l1 ++ n' :: l2).
  { intros n'. unfold hs_update. cbn [hitems]. rewrite El. apply list_upd_app. }
  assert (Hget : Permutation (vals (hitems h)) (nvals n ++ vals (l1 ++ l2))) by (rewrite El; apply vals_mid).
  pose proof (scan_keycmp c k (nkey n) Hnk Hh) as Hk.
  inversion Hk as [Ek He|a r Ek He|a r Ek He|p a ra b rb Hp0 Ek Ek' Hab He]; clear Hk;
    rewrite <- He in E; try rewrite <- He; clear He; cbv beta iota zeta in E |- *.
  - (* replacement *)
    apply bind_ok in E. destruct E as (ev0 & Er & E). inversion E; subst h' ev0; clear E.
    exists []. split; [|auto]. rewrite Hup, app_nil_r, vals_mid, Hget, (release_somes _ _ _ Er), !nvals_eq.
    cbn [ndata nsubs]. rewrite <- !app_assoc. apply Permutation_app_head.
    rewrite (Permutation_app_comm (olist (ndata n))). rewrite <- !app_assoc. reflexivity.
  - (* the key ends inside the node key *)
    change (firstn (S (length k)) (c :: k)) with (c :: firstn (length k) k) in E. rewrite firstn_all in E.
    set (old := Node (skipn (S (length k)) (nkey n)) (ndata n) (nsubs n)) in E.
    set (nn := Node (c :: k) d (mkH [old] (TAt 0))) in E.
    pose proof (hs_remove_items h l1 n l2 El) as Erem.
    pose proof (semi_remove h (length l1) (wff_semi _ Hw)) as Hsrem.
    assert (Hnn : nvals nn = olist d ++ nvals n).
    { rewrite nvals_eq. cbn [nn ndata nsubs hitems]. rewrite vals_cons, vals_nil, app_nil_r. f_equal.
      rewrite !nvals_eq. reflexivity. }
    apply bind_ok in E. destruct E as (s' & Es & E). inversion E; subst h' ev; clear E.
    unfold hs_append in Es. destruct (htail (hs_remove h (length l1))) as [|j|] eqn:Et; [| |discriminate].
    + inversion Es; subst s'; clear Es. exists (vals (l1 ++ l2)). split.
      * cbn [hitems somes flat_map app]. rewrite vals_cons, vals_nil, app_nil_r, Hnn, Hget, <- app_assoc. reflexivity.
      * intros _ Hclob. destruct (htail h) as [|j|] eqn:Eth.
        -- apply Nat.ltb_ge in Hclob. rewrite El, app_length in Hclob. cbn in Hclob.
           assert (l1 = []) as -> by (apply length_zero_iff_nil; lia).
           assert (l2 = []) as -> by (apply length_zero_iff_nil; lia). reflexivity.
        -- rewrite (hs_remove_nonnull h (length l1) j (wff_semi _ Hw) Eth Et) in Erem. rewrite <- Erem. reflexivity.
        -- pose proof (wff_semi _ Hw) as Hsm. unfold semi in Hsm. now rewrite Eth in Hsm.
    + unfold semi in Hsrem. rewrite Et, Erem in Hsrem. rewrite Erem, firstn_all2 in Es by lia.
      inversion Es; subst s'; clear Es. exists []. split; [|auto].
      cbn [hitems somes flat_map app]. rewrite app_nil_r, (vals_app (l1 ++ l2)), vals_cons, vals_nil, app_nil_r, Hnn, Hget.
      rewrite Permutation_app_comm, <- app_assoc. reflexivity.
  - (* descend *)
    apply bind_ok in E. destruct E as ([hs ev0] & Er & E). inversion E; subst h' ev; clear E.
    cbn [fst snd] in *. rewrite Hup.
    assert (Hskip : skipn (length (nkey n)) (c :: k) = a :: r) by (rewrite Ek; apply skipn_app_exact).
    rewrite Hskip in *.
    replace (S (length k) - length (nkey n)) with (length (a :: r)) in Er.
    2:{ apply (f_equal (@length _)) in Ek. rewrite app_length in Ek. cbn [length] in *. lia. }
    destruct (IH _ _ _ _ _ Hns Er) as (lost & Hp & Hl). exists lost. split.
    + rewrite vals_mid, Hget, !nvals_eq. cbn [ndata nsubs].
      rewrite <- !app_assoc. rewrite (Permutation_app_comm (vals (l1 ++ l2))), <- !app_assoc.
      rewrite (app_assoc (olist d)), (Permutation_app_comm (olist d)), <- !app_assoc. apply Permutation_app_head.
      rewrite 2!app_assoc. rewrite <- (app_assoc (vals (hitems hs))). rewrite Hp, <- !app_assoc. reflexivity.
    + intros _ Hc. apply Hl; [discriminate|exact Hc].
  - (* split *)
    apply bind_ok in E. destruct E as (ch & Ech & E). inversion E; subst h' ev; clear E. rewrite Hup.
    set (old := Node (skipn (length p) (nkey n)) (ndata n) (nsubs n)) in Ech.
    set (new := Node (skipn (length p) (c :: k)) d hs_empty) in Ech.
    destruct (good_append_all (match strcmp (skipn (length p) (c :: k)) (skipn (length p) (nkey n)) with
                               | Gt => [old; new] | _ => [new; old] end) hs_empty good_empty) as (ch' & Ech' & Hch & _).
    rewrite Ech in Ech'. injection Ech' as <-. cbn [hs_empty hitems app] in Hch.
    exists []. split; [|auto]. cbn [somes flat_map app]. rewrite app_nil_r, vals_mid, Hget, (nvals_eq (Node _ _ ch)).
    cbn [ndata nsubs olist app]. rewrite Hch.
    assert (Ho' : nvals old = nvals n) by (rewrite !nvals_eq; reflexivity).
    assert (Hn' : nvals new = olist d).
    { rewrite nvals_eq. cbn [new ndata nsubs hs_empty hitems]. now rewrite vals_nil, app_nil_r. }
    rewrite app_assoc. apply Permutation_app_tail.
    destruct (strcmp _ _); rewrite !vals_cons, vals_nil, app_nil_r, Ho', Hn'; try reflexivity. apply Permutation_app_comm.
Qed.
End Facts.
