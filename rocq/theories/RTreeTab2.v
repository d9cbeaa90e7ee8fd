(** Removal in the object dictionary as seen on the table of paths, and the
    machine on tables that every history of the dictionary follows. *)
From Coq Require Import Permutation.
From Verif Require Import CStr CStrFacts HSListModel HSListFacts RTreeModel RTreeFacts RTreeFacts2 RTreeFacts3 RTreeFacts4 MDictFacts MDictSpec RTreeTab.

Section Tab.
Context {V : Type}.
Notation node := (node V).
Notation cell := (option V * bool)%type.
Notation pmap := (str -> option cell).
Implicit Types (n m : node) (l : list node) (h : hsl node) (k p q r s : str) (d : option V) (T : pmap) (w b : bool).

(** ** Removing *)
Definition only_below T p k : Prop := forall q, T q <> None -> proper_prefix p q -> prefix k q.
(** [top]: the empty path is the dictionary itself and not a node. *)
Definition unsets (top : bool) T k d0 h (o : res (hsl node)) : Prop :=
  match T k with
  | None => o = Ok h
  | Some (_, w) =>
      exists p dp wp wp', base T k p /\ T p = Some (dp, wp) /\ (wp' = true <-> wp = true \/ w = true /\ only_below T p k) /\
      ((wp' = true /\ (p <> [] \/ top = false) /\ o = UB) \/
       (~ (wp' = true /\ (p <> [] \/ top = false)) /\ exists h', o = Ok h' /\ wff h' /\
          forall q, cells d0 h' q = if w && starts k q then None else if streq q k then Some (None, false) else if streq q p then Some (dp, wp') else T q))
  end.
Lemma only_below_lift T T1 x p k : (forall r, T (x ++ r) = T1 r) -> (only_below T (x ++ p) (x ++ k) <-> only_below T1 p k).
Proof.
  intros Hx. split; intros H q Hq Hp.
  - rewrite <- Hx in Hq. assert (P : prefix (x ++ k) (x ++ q)) by (apply H; [exact Hq|now apply pp_app]). destruct P as (u & E). rewrite <- app_assoc in E. apply app_inv_head in E. now exists u.
  - pose proof (proper_prefix_prefix _ _ Hp) as (u & ->). rewrite <- app_assoc in Hq, Hp |- *. rewrite Hx in Hq. apply (proj1 (pp_app x p (p ++ u))) in Hp.
    destruct (H _ Hq Hp) as (z & E). exists z. now rewrite E, app_assoc.
Qed.

Lemma unset_cells fuel : forall h k d0 (top : bool), wff h -> length k <= fuel -> k <> [] ->
  unsets top (cells d0 h) k d0 h (unset_sub fuel top h k).
Proof.
  induction fuel as [|fuel IH]; intros h k d0 top Hw Hlen Hk; [destruct k; [congruence|cbn in Hlen; lia]|].
  destruct k as [|c k]; [congruence|]. cbn [unset_sub]. pose proof (find_child_spec c (hitems h) 0 None) as Hf.
  destruct (find_child c (hitems h) 0 None) as [i n|lz].
  2:{ destruct Hf as [Hf _]. unfold unsets. rewrite cells_notin; [reflexivity|exact Hw|discriminate|exact Hf]. }
  destruct Hf as (l1 & l2 & El & Hi & Hh & Hf). cbn in Hi. subst i.
  assert (Hin : In n (hitems h)) by (rewrite El; apply in_or_app; right; now left).
  pose proof (wff_key _ _ Hw Hin) as Hnk. pose proof (wff_sub _ _ Hw Hin) as Hns.
  assert (Hoth : forall q, q <> [] -> char0 q = head0 n -> cells d0 h q = ncells n q) by (intros; now apply cells_in).
  pose proof (scan_keycmp c k (nkey n) Hnk Hh) as Hkc. set (K := c :: k) in *.
  assert (HcK : char0 K = head0 n) by now rewrite Hh. assert (HK : K <> []) by discriminate. clearbody K.
  inversion Hkc as [E He|a r E He|a r E He|p a ra b rb Hp0 E E' Hab He]; clear Hkc He; cbv beta iota zeta.
  - (* the node itself *)
    assert (H1 : cells d0 h (nkey n) = Some (ndata n, weakh (nsubs n))) by (rewrite <- (app_nil_r (nkey n)), cells_app by auto; reflexivity).
    unfold unsets. rewrite E, H1.
    assert (Hb : base (cells d0 h) (nkey n) []).
    { split; [discriminate|]. split; [destruct (nkey n) as [|y u]; [congruence|now exists y, u]|]. intros q Hq Hp. destruct q as [|y q]; [auto|]. exfalso. apply Hq.
      rewrite Hoth; [|discriminate|unfold head0; symmetry; apply prefix_head; [discriminate|now apply proper_prefix_prefix]].
      apply ncells_off. intros Hx. apply prefix_length in Hx. apply proper_prefix_length in Hp. lia. }
    assert (Hob : only_below (cells d0 h) [] (nkey n) <-> l1 ++ l2 = []).
    { split.
      - intros H. destruct (l1 ++ l2) as [|m u] eqn:Eu; [reflexivity|]. exfalso.
        assert (Hm : In m (l1 ++ l2)) by (rewrite Eu; now left). assert (Hm' : In m (hitems h)) by (rewrite El; apply in_app_or in Hm; apply in_or_app; cbn; tauto).
        pose proof (wff_key _ _ Hw Hm') as Hmk. assert (P : prefix (nkey n) (nkey m)).
        { apply H; [rewrite <- (app_nil_r (nkey m)), cells_app by auto; discriminate|destruct (nkey m) as [|y z]; [congruence|now exists y, z]]. }
        apply prefix_head in P; [|exact Hnk]. pose proof (wff_nodup _ Hw) as Hn. rewrite El, map_app in Hn. cbn in Hn. apply NoDup_remove_2 in Hn.
        apply Hn. rewrite <- map_app. unfold head0 at 1. rewrite <- P. now apply (in_map head0).
      - intros Hn q Hq Hp. apply app_eq_nil in Hn. destruct Hn as [-> ->]. assert (Hqn : q <> []) by (destruct Hp as (y & z & ->); discriminate).
        destruct (cells_some d0 h q Hw Hqn Hq) as (m & Hm & _ & Hpm). rewrite El in Hm. destruct Hm as [<-|[]]. exact Hpm. }
    assert (Hdone : forall h' wp', wff h' -> weakh h' = wp' -> (wp' = true <-> weakh h = true \/ weakh (nsubs n) = true /\ only_below (cells d0 h) [] (nkey n)) ->
      (forall q, q <> [] -> cells d0 h' q = if weakh (nsubs n) && starts (nkey n) q then None else if streq q (nkey n) then Some (None, false) else cells d0 h q) ->
      exists p dp wp wp', base (cells d0 h) (nkey n) p /\ cells d0 h p = Some (dp, wp) /\ (wp' = true <-> wp = true \/ weakh (nsubs n) = true /\ only_below (cells d0 h) p (nkey n)) /\
      ((wp' = true /\ (p <> [] \/ top = false) /\ (if top then Ok h' else match htail h' with TNull => UB | _ => Ok h' end) = UB) \/
       (~ (wp' = true /\ (p <> [] \/ top = false)) /\ exists h1, (if top then Ok h' else match htail h' with TNull => UB | _ => Ok h' end) = Ok h1 /\ wff h1 /\
          forall q, cells d0 h1 q = if weakh (nsubs n) && starts (nkey n) q then None else if streq q (nkey n) then Some (None, false) else if streq q p then Some (dp, wp') else cells d0 h q))).
    { intros h' wp' Hw' Ewp Hwp Hc. exists [], d0, (weakh h), wp'. split; [exact Hb|]. split; [reflexivity|]. split; [exact Hwp|].
      assert (Hall : forall q, cells d0 h' q = if weakh (nsubs n) && starts (nkey n) q then None else if streq q (nkey n) then Some (None, false) else if streq q [] then Some (d0, wp') else cells d0 h q).
      { intros q. destruct q as [|y q].
        - rewrite cells_nil, Ewp. assert (Es : starts (nkey n) [] = false) by (destruct (nkey n); [congruence|reflexivity]). rewrite Es, Bool.andb_false_r. rewrite streq_neq by congruence. reflexivity.
        - rewrite (streq_neq (y :: q) []) by discriminate. apply Hc. discriminate. }
      unfold weakh in Ewp. destruct top.
      - right. split; [intros [_ [?|?]]; congruence|]. exists h'. split; [reflexivity|]. split; [exact Hw'|exact Hall].
      - destruct (htail h'); [left; subst wp'; split; [reflexivity|]; split; [now right|reflexivity]| |]; (right; split; [intros [? _]; congruence|]; exists h'; split; [reflexivity|]; split; [exact Hw'|exact Hall]). }
    assert (Ews : weakh (nsubs n) = match htail (nsubs n) with TNull => true | _ => false end) by reflexivity.
    destruct (htail (nsubs n)) as [|j|] eqn:Et; rewrite Ews in *.
    + (* no tail: the node goes with everything below *)
      apply (Hdone _ _ (wff_remove h l1 n l2 Hw El) eq_refl).
      * rewrite Hob. pose proof (hs_remove_items h l1 n l2 El) as Er. pose proof (wff_semi _ Hw) as Hsm. unfold weakh. destruct (htail h) as [|j|] eqn:Eth.
        -- rewrite (hs_remove_null h (length l1) Hsm Eth). tauto.
        -- pose proof (semi_remove h (length l1) Hsm) as Hsr. unfold semi in Hsr. rewrite Er in Hsr. split.
           ++ intros H. right. split; [reflexivity|]. rewrite <- Er. apply (hs_remove_nonnull h (length l1) j Hsm Eth). now destruct (htail (hs_remove h (length l1))).
           ++ intros [H|[_ H]]; [discriminate|]. rewrite H in Hsr. destruct (htail (hs_remove h (length l1))); [reflexivity|cbn in Hsr; discriminate|contradiction].
        -- unfold semi in Hsm. now rewrite Eth in Hsm.
      * intros q Hq. rewrite (patch_remove d0 h l1 n l2) by auto. cbn [andb]. destruct (Ascii.eqb_spec (char0 q) (head0 n)) as [Ec|Ec].
        -- destruct (starts (nkey n) q) eqn:Es; [reflexivity|]. assert (Hn : ~ prefix (nkey n) q) by (rewrite <- starts_spec; congruence).
           rewrite streq_neq by (intros ->; apply Hn, prefix_refl). rewrite Hoth by auto. symmetry. now apply ncells_off.
        -- destruct (starts (nkey n) q) eqn:Es; [apply starts_spec in Es; exfalso; apply Ec, prefix_head; auto|]. rewrite streq_neq; [reflexivity|]. intros ->. now apply Ec.
    + set (nn := Node (nkey n) None (nsubs n)). destruct (patch_update d0 h l1 n nn l2 Hw El eq_refl) as (Hw' & Hp); [now split|].
      apply (Hdone _ _ Hw' eq_refl).
      * unfold weakh, hs_update. cbn [htail]. split; [now left|]. intros [H|[H _]]; [exact H|discriminate].
      * intros q Hq. cbn [andb]. rewrite Hp by exact Hq. change (head0 nn) with (head0 n). destruct (Ascii.eqb_spec (char0 q) (head0 n)) as [Ec|Ec].
        -- rewrite Hoth by auto. unfold ncells. cbn [nn nkey ndata nsubs]. destruct (strip (nkey n) q) as [[|z u]|] eqn:Es.
           ++ apply strip_some in Es. rewrite app_nil_r in Es. rewrite Es, streq_refl. cbn. unfold weakh. now rewrite Et.
           ++ apply strip_some in Es. rewrite streq_neq; [reflexivity|]. intros E2. rewrite E2 in Es. apply (f_equal (@length _)) in Es. rewrite app_length in Es. cbn in Es. lia.
           ++ rewrite streq_neq; [reflexivity|]. intros E2. rewrite E2 in Es. apply strip_none in Es. apply Es, prefix_refl.
        -- rewrite streq_neq; [reflexivity|]. intros ->. now apply Ec.
    + pose proof (wff_semi _ Hns) as Hse. unfold semi in Hse. now rewrite Et in Hse.
  - unfold unsets. rewrite Hoth by auto. rewrite ncells_off; [reflexivity|]. rewrite E. intros Hx. apply prefix_length in Hx. rewrite app_length in Hx. cbn in Hx. lia.
  - (* below *)
    rewrite E. rewrite skipn_app_exact. assert (Hlr : length (a :: r) <= fuel).
    { rewrite E, app_length in Hlen. destruct (nkey n); [congruence|]. cbn in *. lia. }
    specialize (IH (nsubs n) (a :: r) (ndata n) false Hns Hlr ltac:(discriminate)). unfold unsets in IH |- *. rewrite cells_app by auto.
    assert (Hx : forall u, cells d0 h (nkey n ++ u) = cells (ndata n) (nsubs n) u) by (intros; now apply cells_app).
    destruct (cells (ndata n) (nsubs n) (a :: r)) as [[dk w]|]; [|rewrite IH; cbn [bind]; rewrite node_eta; now rewrite (hs_update_same h l1 n l2)].
    destruct IH as (p & dp & wp & wp' & Hb & Ep & Hwp & H). exists (nkey n ++ p), dp, wp, wp'. split; [now apply (base_lift _ _ _ _ _ Hx)|]. rewrite Hx. split; [exact Ep|].
    rewrite (only_below_lift _ _ _ _ _ Hx). split; [exact Hwp|].
    assert (Hne : nkey n ++ p <> []) by (destruct (nkey n); [congruence|discriminate]).
    destruct H as [(H1 & H2 & ->)|(H1 & s' & -> & Hws & Hc)].
    + left. split; [exact H1|]. split; [now left|reflexivity].
    + right. split; [intros [H2 _]; apply H1; split; [exact H2|now right]|]. cbn [bind].
      set (nn := Node (nkey n) (ndata n) s'). destruct (patch_update d0 h l1 n nn l2 Hw El eq_refl) as (Hw' & Hp); [now split|].
      exists (hs_update h (length l1) nn). split; [reflexivity|]. split; [exact Hw'|]. intros q. destruct (prefix_dec (nkey n) q) as [(u & ->)|Hn].
      * rewrite !streq_app, starts_app, Hx. rewrite <- Hc. apply (cells_app d0 _ nn u Hw'). unfold hs_update. cbn [hitems]. rewrite El, list_upd_app. apply in_or_app. right. now left.
      * rewrite starts_off, !streq_off by exact Hn. rewrite Bool.andb_false_r. destruct q as [|y q]; [reflexivity|]. rewrite Hp by discriminate. change (head0 nn) with (head0 n).
        destruct (Ascii.eqb_spec (char0 (y :: q)) (head0 n)) as [Ec|]; [|reflexivity]. rewrite (Hoth (y :: q)) by (auto; discriminate). now rewrite !ncells_off.
  - unfold unsets. rewrite Hoth by auto. rewrite ncells_off; [reflexivity|]. rewrite E, E'. intros (z & Ez). rewrite <- app_assoc in Ez. apply app_inv_head in Ez. cbn in Ez. congruence.
Qed.
End Tab.
