(** Removal from radix trees; reachable trees. *)
From Coq Require Import Permutation.
From Verif Require Import CStr CStrFacts HSListModel HSListFacts SetModel RTreeModel RTreeFacts RTreeFacts2 RTreeFacts3.

Section Facts.
Context {V : Type}.
Notation node := (node V).
Notation rtree := (rtree V).
Implicit Types (n m : node) (l : list node) (h : hsl node) (k : str) (t : rtree).

Lemma wff_remove h l1 n l2 :
  wff h -> hitems h = l1 ++ n :: l2 -> wff (hs_remove h (length l1)).
Proof.
  intros Hw El. pose proof (hs_remove_items h l1 n l2 El) as Er.
  constructor.
  - apply semi_remove, (wff_semi _ Hw).
  - rewrite Er. pose proof (wff_nodup _ Hw) as H. rewrite El in H. rewrite map_app in *. cbn in H.
    now apply NoDup_remove_1 in H.
  - intros m Hm. rewrite Er in Hm. apply (wff_key _ _ Hw). rewrite El.
    apply in_app_or in Hm. apply in_or_app. destruct Hm; [now left|right; now right].
  - intros m Hm. rewrite Er in Hm. apply (wff_sub _ _ Hw). rewrite El.
    apply in_app_or in Hm. apply in_or_app. destruct Hm; [now left|right; now right].
Qed.

Lemma look_remove h l1 n l2 k :
  wff h -> hitems h = l1 ++ n :: l2 -> k <> [] ->
  look (hs_remove h (length l1)) k = if Ascii.eqb (char0 k) (head0 n) then None else look h k.
Proof.
  intros Hw El Hk. pose proof (wff_remove h l1 n l2 Hw El) as Hw'.
  pose proof (hs_remove_items h l1 n l2 El) as Er.
  destruct (Ascii.eqb_spec (char0 k) (head0 n)) as [E|E].
  - apply look_notin; [exact Hw'|]. rewrite Er, E. apply Forall_forall. intros m Hm Eh.
    pose proof (wff_nodup _ Hw) as H. rewrite El, map_app in H. cbn in H. apply NoDup_remove_2 in H.
    apply H. rewrite <- map_app, <- Eh. now apply in_map.
  - rewrite (look_splice _ h l1 n l2 k Hw' Hw Er El Hk).
    destruct (Ascii.eqb_spec (char0 k) (head0 n)); [contradiction|reflexivity].
Qed.

(** Every list of the tree has a correct tail pointer. *)
Inductive tight : hsl node -> Prop :=
| tight_intro h : good h -> (forall n, In n (hitems h) -> tight (nsubs n)) -> tight h.
Lemma tight_good h : tight h -> good h.
Proof. now destruct 1. Qed.
Lemma tight_sub h n : tight h -> In n (hitems h) -> tight (nsubs n).
Proof. destruct 1; auto. Qed.

Lemma prefix_char0 k k' : k <> [] -> prefix k k' -> char0 k' = char0 k.
Proof. intros Hk (r & ->). destruct k; [congruence|reflexivity]. Qed.

Lemma unset_sub_spec fuel : forall h k (isroot : bool),
  wff h -> length k <= fuel ->
  match unset_sub fuel isroot h k with
  | NoFuel => False
  | UB => True
  | Ok h' => wff h' /\
      (k <> [] -> look h' k = None) /\
      (forall k', ~ prefix k k' -> look h' k' = look h k') /\
      (forall k', look h' k' = None \/ look h' k' = look h k') /\
      (tight h -> forall k', k' <> k -> look h' k' = look h k')
  end.
Proof.
  induction fuel as [|fuel IH]; intros h k isroot Hw Hlen.
  { destruct k; [|cbn in Hlen; lia]. cbn. split; [exact Hw|]. repeat split; auto; congruence. }
  destruct k as [|c k]. { cbn. split; [exact Hw|]. repeat split; auto; congruence. }
  cbn [unset_sub].
  pose proof (find_child_spec c (hitems h) 0 None) as Hf.
  destruct (find_child c (hitems h) 0 None) as [i n|lz].
  2:{ split; [exact Hw|]. destruct Hf as [Hf _]. repeat split; auto.
      intros _. now apply look_notin. }
  destruct Hf as (l1 & l2 & El & Hi & Hh & Hf). cbn in Hi. subst i.
  assert (Hin : In n (hitems h)) by (rewrite El; apply in_or_app; right; now left).
  pose proof (wff_key _ _ Hw Hin) as Hnk. pose proof (wff_sub _ _ Hw Hin) as Hns.
  assert (Hother : forall k', k' <> [] -> char0 k' = head0 n -> look h k' = nlook n k')
    by (intros; now apply look_in).
  pose proof (scan_keycmp c k (nkey n) Hnk Hh) as Hk.
  inversion Hk as [E He|a r E He|a r E He|p a ra b rb Hp0 E E' Hab He]; clear Hk He; cbv beta iota zeta.
  - (* the node of the key *)
    rewrite E in *.
    set (h' := match htail (nsubs n) with
               | TNull => hs_remove h (length l1)
               | _ => hs_update h (length l1) (Node (nkey n) None (nsubs n))
               end).
    assert (Hmain : wff h' /\
      (nkey n <> [] -> look h' (nkey n) = None) /\
      (forall k', ~ prefix (nkey n) k' -> look h' k' = look h k') /\
      (forall k', look h' k' = None \/ look h' k' = look h k') /\
      (tight h -> forall k', k' <> nkey n -> look h' k' = look h k')).
    { set (n' := Node (nkey n) None (nsubs n)) in *.
      assert (Hw' : wff (hs_update h (length l1) n')).
      { apply (wff_update h l1 n n' l2); auto. split; auto. }
      assert (Hu : forall k', look (hs_update h (length l1) n') k' =
                     if streq k' (nkey n) then None else look h k').
      { intros k'. destruct k' as [|c' k0]; [destruct (streq [] (nkey n)); reflexivity|]. set (k' := c' :: k0).
        rewrite (look_update h l1 n n' l2) by (auto; discriminate).
        destruct (Ascii.eqb_spec (char0 k') (head0 n)) as [Ec|Ec].
        - rewrite (Hother k') by (auto; discriminate). unfold nlook. cbn [n' nkey ndata nsubs].
          destruct (strip (nkey n) k') as [[|c1 r1]|] eqn:Es.
          + apply strip_some in Es. rewrite app_nil_r in Es. now rewrite Es, streq_refl.
          + apply strip_some in Es. rewrite streq_neq; [reflexivity|]. intros E2. rewrite E2 in Es.
            apply (f_equal (@length _)) in Es. rewrite app_length in Es; cbn in Es; lia.
          + rewrite streq_neq; [reflexivity|]. intros E2. rewrite E2 in Es.
            apply strip_none in Es. apply Es, prefix_refl.
        - rewrite streq_neq; [reflexivity|]. intros E2. apply Ec. rewrite E2. reflexivity. }
      assert (Hr : forall k', k' <> [] -> look (hs_remove h (length l1)) k' =
                     if Ascii.eqb (char0 k') (head0 n) then None else look h k').
      { intros k' Hk'. now apply (look_remove h l1 n l2). }
      unfold h'. destruct (htail (nsubs n)) as [|j|] eqn:Et.
      - split; [now apply (wff_remove h l1 n l2)|]. split; [|split; [|split]].
        + intros _. rewrite Hr by assumption. unfold head0. now rewrite Ascii.eqb_refl.
        + intros k' Hp. destruct k' as [|c' k0]; [reflexivity|]. rewrite Hr by discriminate.
          destruct (Ascii.eqb_spec (char0 (c' :: k0)) (head0 n)) as [Ec|]; [|reflexivity].
          rewrite Hother by (auto; discriminate). now rewrite nlook_off.
        + intros k'. destruct k' as [|c' k0]; [now left|]. rewrite Hr by discriminate.
          destruct (Ascii.eqb _ _); auto.
        + intros Ht k' Hne. destruct k' as [|c' k0]; [reflexivity|]. rewrite Hr by discriminate.
          destruct (Ascii.eqb_spec (char0 (c' :: k0)) (head0 n)) as [Ec|]; [|reflexivity].
          rewrite Hother by (auto; discriminate).
          assert (Hnil : hitems (nsubs n) = []).
          { pose proof (tight_good _ (tight_sub _ _ Ht Hin)) as Hg. unfold good in Hg. now rewrite Et in Hg. }
          unfold nlook. destruct (strip (nkey n) (c' :: k0)) as [[|c1 r1]|] eqn:Es; [|symmetry|reflexivity].
          * apply strip_some in Es. rewrite app_nil_r in Es. congruence.
          * apply look_notin; [exact Hns|]. rewrite Hnil. constructor.
      - split; [exact Hw'|]. split; [|split; [|split]].
        + intros _. now rewrite Hu, streq_refl.
        + intros k' Hp. rewrite Hu, streq_neq; [reflexivity|]. intros ->. apply Hp, prefix_refl.
        + intros k'. rewrite Hu. destruct (streq _ _); auto.
        + intros _ k' Hne. now rewrite Hu, streq_neq.
      - exfalso. pose proof (wff_semi _ Hns) as Hse. unfold semi in Hse. now rewrite Et in Hse. }
    destruct isroot; [exact Hmain|]. destruct (htail h'); [exact I|exact Hmain|exact Hmain].
  - split; [exact Hw|]. split; [|split; [|split]]; auto. intros _.
    rewrite Hother by (auto; discriminate). apply nlook_off. rewrite E. intros (s & Es).
    apply (f_equal (@length _)) in Es. rewrite !app_length in Es. cbn in Es. lia.
  - (* below *)
    rewrite E in Hlen |- *. rewrite app_length in Hlen. cbn in Hlen.
    assert (0 < length (nkey n)) by (destruct (nkey n); [congruence|cbn; lia]).
    rewrite skipn_app_exact.
    specialize (IH (nsubs n) (a :: r) false Hns ltac:(cbn; lia)).
    destruct (unset_sub fuel false (nsubs n) (a :: r)) as [s'| |]; cbn [bind]; [|exact I|exact IH].
    destruct IH as (Hws & H1 & H2 & H3 & H4).
    set (n' := Node (nkey n) (ndata n) s').
    assert (Hw' : wff (hs_update h (length l1) n')).
    { apply (wff_update h l1 n n' l2); auto. split; auto. }
    assert (Hu : forall k', k' <> [] -> look (hs_update h (length l1) n') k' =
                     if Ascii.eqb (char0 k') (head0 n) then
                       match strip (nkey n) k' with Some [] => ndata n | Some q => look s' q | None => None end
                     else look h k').
    { intros k' Hk'. now rewrite (look_update h l1 n n' l2) by auto. }
    split; [exact Hw'|]. split; [|split; [|split]].
    + intros _. rewrite Hu by (destruct (nkey n); discriminate).
      replace (char0 (nkey n ++ a :: r)) with (head0 n) by (unfold head0; destruct (nkey n); [congruence|reflexivity]).
      rewrite Ascii.eqb_refl, strip_app. apply H1. discriminate.
    + intros k' Hp. destruct k' as [|c' k0]; [reflexivity|]. rewrite Hu by discriminate.
      destruct (Ascii.eqb_spec (char0 (c' :: k0)) (head0 n)) as [Ec|]; [|reflexivity].
      rewrite (Hother (c' :: k0)) by (auto; discriminate). unfold nlook.
      destruct (strip (nkey n) (c' :: k0)) as [[|c1 r1]|] eqn:Es; [reflexivity| |reflexivity].
      apply H2. intros (s & Es'). apply Hp. apply strip_some in Es. rewrite Es, Es'. exists s. now rewrite <- app_assoc.
    + intros k'. destruct k' as [|c' k0]; [now left|]. rewrite Hu by discriminate.
      destruct (Ascii.eqb_spec (char0 (c' :: k0)) (head0 n)) as [Ec|]; [|now right].
      rewrite (Hother (c' :: k0)) by (auto; discriminate). unfold nlook.
      destruct (strip (nkey n) (c' :: k0)) as [[|c1 r1]|]; auto.
    + intros Ht k' Hne. destruct k' as [|c' k0]; [reflexivity|]. rewrite Hu by discriminate.
      destruct (Ascii.eqb_spec (char0 (c' :: k0)) (head0 n)) as [Ec|]; [|reflexivity].
      rewrite (Hother (c' :: k0)) by (auto; discriminate). unfold nlook.
      destruct (strip (nkey n) (c' :: k0)) as [[|c1 r1]|] eqn:Es; [reflexivity| |reflexivity].
      apply (H4 (tight_sub _ _ Ht Hin)). intros E1. apply Hne. apply strip_some in Es. now rewrite Es, E1.
  - split; [exact Hw|]. split; [|split; [|split]]; auto. intros _.
    rewrite Hother by (auto; discriminate). apply nlook_off. intros (s & Es).
    rewrite E, E' in Es. rewrite <- app_assoc in Es. apply app_inv_head in Es. cbn in Es. congruence.
Qed.

(** Without nested keys, removal is total and exact. *)
Definition flat h : Prop := forall n, In n (hitems h) -> nsubs n = hs_empty.
(** Keys with pairwise different first characters. *)
Definition distinct_heads (ks : list str) : Prop :=
  forall a b, In a ks -> In b ks -> char0 a = char0 b -> a = b.

Definition keys_in h (ks : list str) : Prop := forall n, In n (hitems h) -> In (nkey n) ks.

Lemma look_flat h k v : wff h -> flat h -> look h k = Some v -> exists n, In n (hitems h) /\ nkey n = k /\ ndata n = Some v.
Proof.
  intros Hw Hfl E. destruct k as [|c k]; [discriminate|]. rewrite look_cons in E by assumption.
  destruct (pick c (hitems h)) as [n|] eqn:Ep; [|discriminate]. apply pick_some in Ep. destruct Ep as [Hin Eh].
  unfold nlook in E. destruct (strip (nkey n) (c :: k)) as [[|a r]|] eqn:Es; [| |discriminate].
  - apply strip_some in Es. rewrite app_nil_r in Es. exists n. auto.
  - rewrite (Hfl n Hin) in E. now rewrite look_empty in E.
Qed.

Lemma flat_set ks h k d fuel :
  wff h -> flat h -> keys_in h ks -> distinct_heads ks -> In k ks -> k <> [] -> length k <= fuel ->
  exists h' b, set_sub fuel h k d = Ok (h', b) /\ wff h' /\ flat h' /\ keys_in h' ks /\
    forall k', look h' k' = if streq k' k then d else look h k'.
Proof.
  intros Hw Hfl Hki Hd Hk Hne Hlen.
  destruct (set_sub_spec fuel h k d Hw Hlen) as (h' & b & E & Hw' & Hl).
  exists h', b. split; [exact E|]. split; [exact Hw'|].
  assert (Hclob : clob fuel h k = false).
  { destruct fuel; [destruct k; reflexivity|]. destruct k as [|c k]; [congruence|]. cbn [clob].
    pose proof (find_child_spec c (hitems h) 0 None) as Hf.
    destruct (find_child c (hitems h) 0 None) as [i n|lz]; [|reflexivity].
    destruct Hf as (l1 & l2 & El & Hi & Hh & Hf).
    assert (Hin : In n (hitems h)) by (rewrite El; apply in_or_app; right; now left).
    assert (En : nkey n = c :: k) by (apply Hd; auto).
    pose proof (scan_keycmp c k (nkey n) (wff_key _ _ Hw Hin) Hh) as Hkc. rewrite En in Hkc |- *. cbn [tl] in *.
    inversion Hkc as [E0 He|a r E0 He|a r E0 He|p a ra b0 rb Hp0 E0 E' Hab He]; try reflexivity.
    - apply (f_equal (@length _)) in E0. rewrite app_length in E0. cbn in E0. lia.
    - apply (f_equal (@length _)) in E0. rewrite app_length in E0. cbn in E0. lia. }
  destruct fuel; [destruct k; cbn in Hlen; [congruence|lia]|]. destruct k as [|c k]; [congruence|]. cbn [set_sub] in E.
  pose proof (find_child_spec c (hitems h) 0 None) as Hf.
  destruct (find_child c (hitems h) 0 None) as [i n|lz].
  - destruct Hf as (l1 & l2 & El & Hi & Hh & Hf). cbn in Hi. subst i.
    assert (Hin : In n (hitems h)) by (rewrite El; apply in_or_app; right; now left).
    assert (En : nkey n = c :: k) by (apply Hd; auto).
    pose proof (scan_keycmp c k (nkey n) (wff_key _ _ Hw Hin) Hh) as Hkc.
    inversion Hkc as [E0 He|a r E0 He|a r E0 He|p a ra b0 rb Hp0 E0 E' Hab He].
    + rewrite <- He in E. inversion E; subst h' b.
      assert (Hit : forall m, In m (hitems (hs_update h (length l1) (Node (nkey n) d (nsubs n)))) ->
                m = Node (nkey n) d (nsubs n) \/ In m (hitems h)).
      { intros m. unfold hs_update. cbn [hitems]. rewrite El, list_upd_app. intros Hm. apply in_app_or in Hm.
        destruct Hm as [Hm|[<-|Hm]]; [right|now left|right]; apply in_or_app; auto. right; now right. }
      split; [|split].
      * intros m Hm. destruct (Hit m Hm) as [->|Hm']; [cbn; now apply Hfl|now apply Hfl].
      * intros m Hm. destruct (Hit m Hm) as [->|Hm']; [cbn; now apply Hki|now apply Hki].
      * intros k'. now apply Hl.
    + exfalso. rewrite En in E0. apply (f_equal (@length _)) in E0. rewrite app_length in E0. cbn in E0. lia.
    + exfalso. rewrite En in E0. apply (f_equal (@length _)) in E0. rewrite app_length in E0. cbn in E0. lia.
    + exfalso. rewrite En, E' in E0. apply app_inv_head in E0. congruence.
  - destruct Hf as [Hf Hlz]. set (nn := Node (c :: k) d hs_empty) in *. inversion E as [[E1 E2]]. subst b.
    assert (Hit : forall m, In m (hitems h') -> m = nn \/ In m (hitems h)).
    { intros m Hm. rewrite <- E1 in Hm. destruct Hlz as [->|(j & -> & Hj)].
      - cbn in Hm. destruct Hm; auto.
      - destruct (list_ins_split (hitems h) (S j) nn) as (a1 & a2 & Ea & Eb); [lia|].
        unfold hs_insert_after in Hm. cbn [hitems] in Hm. rewrite Eb in Hm. rewrite Ea.
        apply in_app_or in Hm. destruct Hm as [Hm|[<-|Hm]]; [right|now left|right]; apply in_or_app; auto. }
    rewrite E1. split; [|split].
    + intros m Hm. destruct (Hit m Hm) as [->|Hm']; [reflexivity|now apply Hfl].
    + intros m Hm. destruct (Hit m Hm) as [->|Hm']; [exact Hk|now apply Hki].
    + intros k'. now apply Hl.
Qed.

Lemma flat_unset ks h k fuel :
  wff h -> flat h -> keys_in h ks -> k <> [] -> length k <= fuel ->
  exists h', unset_sub fuel true h k = Ok h' /\ wff h' /\ flat h' /\ keys_in h' ks /\
    forall k', look h' k' = if streq k' k then None else look h k'.
Proof.
  intros Hw Hfl Hki Hne Hlen.
  pose proof (unset_sub_spec fuel h k true Hw Hlen) as Hs.
  destruct fuel; [destruct k; cbn in Hlen; [congruence|lia]|]. destruct k as [|c k]; [congruence|]. cbn [unset_sub] in *.
  pose proof (find_child_spec c (hitems h) 0 None) as Hf.
  assert (Hnop : look h (c :: k) = None ->
     wff h /\ flat h /\ keys_in h ks /\
     forall k', look h k' = if streq k' (c :: k) then None else look h k').
  { intros H0. split; [exact Hw|]. split; [exact Hfl|]. split; [exact Hki|]. intros k'.
    destruct (streq_spec k' (c :: k)) as [->|]; auto. }
  destruct (find_child c (hitems h) 0 None) as [i n|lz].
  2:{ exists h. split; [reflexivity|]. apply Hnop. apply Hs. discriminate. }
  destruct Hf as (l1 & l2 & El & Hi & Hh & Hf). cbn in Hi. subst i.
  assert (Hin : In n (hitems h)) by (rewrite El; apply in_or_app; right; now left).
  pose proof (scan_keycmp c k (nkey n) (wff_key _ _ Hw Hin) Hh) as Hkc.
  destruct (scan 1 k (tl (nkey n))) as [| |y|y] eqn:Esc.
  - rewrite (Hfl n Hin) in *. cbn [hs_empty htail] in *.
    exists (hs_remove h (length l1)). split; [reflexivity|].
    pose proof (hs_remove_items h l1 n l2 El) as Er.
    assert (Hsub : forall m, In m (hitems (hs_remove h (length l1))) -> In m (hitems h)).
    { intros m Hm. rewrite Er in Hm. rewrite El. apply in_app_or in Hm. apply in_or_app. destruct Hm; auto. right; now right. }
    split; [apply Hs|]. split; [intros m Hm; auto|]. split; [intros m Hm; auto|].
    intros k'. destruct k' as [|c' k0]; [reflexivity|].
    rewrite (look_remove h l1 n l2) by (auto; discriminate).
    inversion Hkc as [E0| | |]. destruct (streq_spec (c' :: k0) (c :: k)) as [->|Hk'].
    + cbn [char0]. rewrite Hh, Ascii.eqb_refl. reflexivity.
    + destruct (Ascii.eqb_spec (char0 (c' :: k0)) (head0 n)) as [Ec|]; [|reflexivity].
      rewrite (look_in h n _ Hw Hin); [|discriminate|exact Ec].
      unfold nlook. destruct (strip (nkey n) (c' :: k0)) as [[|a r]|] eqn:Es; [| |reflexivity].
      * apply strip_some in Es. rewrite app_nil_r in Es. congruence.
      * rewrite (Hfl n Hin). symmetry. apply look_empty.
  - exists h. split; [reflexivity|]. apply Hnop. apply Hs. discriminate.
  - rewrite (Hfl n Hin) in *.
    assert (He : unset_sub fuel false (@hs_empty node) (skipn y (c :: k)) = Ok hs_empty).
    { assert (Hl : length (skipn y (c :: k)) <= fuel).
      { inversion Hkc as [| |a r E0 He|]. subst y. rewrite skipn_length. cbn [length] in *.
        assert (0 < length (nkey n)) by (pose proof (wff_key _ _ Hw Hin); destruct (nkey n); [congruence|cbn; lia]). lia. }
      destruct (skipn y (c :: k)); [destruct fuel; reflexivity|]. destruct fuel; [cbn in Hl; lia|reflexivity]. }
    rewrite He in *. cbn [bind] in *.
    assert (Eh : hs_update h (length l1) (Node (nkey n) (ndata n) hs_empty) = h).
    { unfold hs_update. rewrite El, list_upd_app. destruct h as [hl ht]. cbn [hitems htail] in *. f_equal.
      rewrite El. f_equal. f_equal. rewrite <- (Hfl n Hin). now destruct n. }
    rewrite Eh in *. exists h. split; [reflexivity|]. apply Hnop. apply Hs. discriminate.
  - exists h. split; [reflexivity|]. apply Hnop. apply Hs. discriminate.
Qed.

(** Histories of sets and unsets. *)
Inductive dop := DSet (k : str) (v : V) | DUnset (k : str).
Definition dkey (o : dop) : str := match o with DSet k _ | DUnset k => k end.
Definition dstep t (o : dop) : res rtree :=
  match o with DSet k v => rt_set t k (Some v) | DUnset k => rt_unset t k end.
Fixpoint drun t (os : list dop) : res rtree :=
  match os with [] => Ok t | o :: r => t' <- dstep t o ;; drun t' r end.
(** The abstract map. *)
Definition amap := str -> option V.
Definition mstep (m : amap) (o : dop) : amap :=
  fun k' => match o with
            | DSet k v => if streq k' k then Some v else m k'
            | DUnset k => if streq k' k then None else m k'
            end.
Definition mrun (m : amap) (os : list dop) : amap := fold_left mstep os m.

Lemma flat_run ks os : forall t,
  wft t -> flat (troot t) -> keys_in (troot t) ks -> distinct_heads ks -> ~ In [] ks ->
  (forall o, In o os -> In (dkey o) ks) ->
  exists t', drun t os = Ok t' /\ wft t' /\ flat (troot t') /\ keys_in (troot t') ks /\
    forall k (m : amap), (forall k', m k' = look (troot t) k') -> look (troot t') k = mrun m os k.
Proof.
  induction os as [|o os IH]; intros t Hw Hfl Hki Hd Hne Hos.
  - exists t. split; [reflexivity|]. split; [exact Hw|]. split; [exact Hfl|]. split; [exact Hki|].
    intros k m Hm. cbn. now rewrite Hm.
  - assert (Ho : In (dkey o) ks) by (apply Hos; now left).
    assert (Hk : dkey o <> []) by (intros E; apply Hne; rewrite <- E; exact Ho).
    assert (Hstep : exists t1, dstep t o = Ok t1 /\ wft t1 /\ flat (troot t1) /\ keys_in (troot t1) ks /\
              forall k (m : amap), (forall k', m k' = look (troot t) k') -> look (troot t1) k = mstep m o k).
    { destruct o as [k v|k]; cbn [dkey dstep] in *.
      - destruct (flat_set ks (troot t) k (Some v) (length k) Hw Hfl Hki Hd Ho Hk (le_n _))
          as (h' & b & E & Hw' & Hfl' & Hki' & Hl).
        unfold rt_set. rewrite E. cbn [bind]. eexists; split; [reflexivity|]. cbn [troot fst].
        split; [exact Hw'|]. split; [exact Hfl'|]. split; [exact Hki'|]. intros k0 m Hm. rewrite Hl. cbn.
        destruct (streq k0 k); [reflexivity|]. now rewrite Hm.
      - destruct (flat_unset ks (troot t) k (length k) Hw Hfl Hki Hk (le_n _)) as (h' & E & Hw' & Hfl' & Hki' & Hl).
        unfold rt_unset. rewrite E. cbn [bind]. eexists; split; [reflexivity|]. cbn [troot].
        split; [exact Hw'|]. split; [exact Hfl'|]. split; [exact Hki'|]. intros k0 m Hm. rewrite Hl. cbn.
        destruct (streq k0 k); [reflexivity|]. now rewrite Hm. }
    destruct Hstep as (t1 & E1 & Hw1 & Hfl1 & Hki1 & Hl1).
    destruct (IH t1 Hw1 Hfl1 Hki1 Hd Hne) as (t2 & E2 & Hw2 & Hfl2 & Hki2 & Hl2).
    { intros o' Ho'. apply Hos. now right. }
    exists t2. cbn [drun]. rewrite E1. cbn [bind]. split; [exact E2|]. split; [exact Hw2|]. split; [exact Hfl2|].
    split; [exact Hki2|]. intros k m Hm. cbn. apply Hl2. intros k'. symmetry. now apply Hl1.
Qed.

(** ** Reachable trees *)
Inductive reach (cp : V -> V) : rtree -> Prop :=
| R_create : reach cp rt_create
| R_set t k v t' : reach cp t -> rt_set t k v = Ok t' -> reach cp t'
| R_unset t k t' : reach cp t -> rt_unset t k = Ok t' -> reach cp t'
| R_clear t : reach cp t -> reach cp (rt_clear t)
| R_clone t : reach cp t -> reach cp (rt_clone cp t)
| R_copy t : reach cp t -> reach cp (rt_copy cp t)
| R_shallow t : reach cp t -> reach cp (rt_copy_shallow t)
| R_unite t1 t2 t : reach cp t1 -> reach cp t2 -> rt_unite t1 t2 = Ok t -> reach cp t
| R_union t1 t2 t : reach cp t1 -> reach cp t2 -> rt_union cp t1 t2 = Ok t -> reach cp t.

Lemma set_wft t k d t' : wft t -> rt_set t k d = Ok t' -> wft t'.
Proof. intros Hw E. destruct (rt_set_ok t k d Hw) as (t2 & E2 & Hw2). congruence. Qed.
Lemma rt_sets_wft kvs : forall t t', wft t -> rt_sets t kvs = Ok t' -> wft t'.
Proof.
  induction kvs as [|[k v] kvs IH]; intros t t' Hw E; cbn in E.
  - congruence.
  - apply bind_ok in E. destruct E as (t1 & E1 & E). eapply IH; [|exact E]. eapply set_wft; eauto.
Qed.
Lemma unset_wft t k t' : wft t -> rt_unset t k = Ok t' -> wft t'.
Proof.
  intros Hw E. pose proof (unset_sub_spec (length k) (troot t) k true Hw (le_n _)) as H.
  unfold rt_unset in E. apply bind_ok in E. destruct E as (s & E1 & E). rewrite E1 in H. inversion E. apply H.
Qed.
Lemma reach_wft cp t : reach cp t -> wft t.
Proof.
  induction 1 as [|t k v t' _ IH E|t k t' _ IH E|t _ IH|t _ IH|t _ IH|t _ IH|t1 t2 t _ IH1 _ IH2 E|t1 t2 t _ IH1 _ IH2 E].
  - apply wft_create.
  - exact (set_wft _ _ _ _ IH E).
  - exact (unset_wft _ _ _ IH E).
  - apply wff_empty.
  - now apply clone_wff.
  - now apply clone_wff.
  - now apply clone_wff.
  - destruct (rt_unite_sets t1 t2 IH2) as (kvs & E' & _). rewrite E' in E. exact (rt_sets_wft _ _ _ IH1 E).
  - destruct (rt_union_spec cp t1 t2 IH1 IH2) as (t' & E' & Hw & _). congruence.
Qed.

(** Dictionary operations at tree level. *)
Lemma rt_unset_spec t k :
  wft t ->
  match rt_unset t k with
  | NoFuel => False
  | UB => True
  | Ok t' => wft t' /\ (k <> [] -> look (troot t') k = None) /\
      (forall k', ~ prefix k k' -> look (troot t') k' = look (troot t) k') /\
      (forall k', look (troot t') k' = None \/ look (troot t') k' = look (troot t) k') /\
      (tight (troot t) -> forall k', k' <> k -> look (troot t') k' = look (troot t) k')
  end.
Proof.
  intros Hw. pose proof (unset_sub_spec (length k) (troot t) k true Hw (le_n _)) as H.
  unfold rt_unset. destruct (unset_sub (length k) true (troot t) k); cbn [bind]; exact H.
Qed.

Lemma clone_tight (cp : V -> V) h : wff h -> tight (clone_sub cp h).
Proof.
  induction 1 as [h Hs Hnd Hk Hsub IH]. constructor; [apply clone_good|].
  intros n Hn. rewrite clone_items in Hn. apply in_map_iff in Hn. destruct Hn as (m & <- & Hm).
  rewrite clone_node_eq. cbn [nsubs]. now apply IH.
Qed.
End Facts.
