(** Facts about comps_bradix.c. *)
From Coq Require Import Permutation.
From Verif Require Import CStr CStrFacts HSListModel HSListFacts RTreeModel RTreeFacts RTreeFacts2 RTreeFacts3 RTreeFacts4
  OwnModel OwnFacts OwnFacts2 OwnFacts3 BRadixModel.

(** ** The key callbacks *)
Lemma kcmp_scan : forall len x r1 r2, length r2 < len ->
  kcmp len x r1 r2 = match scan (S x) r2 r1 with
                     | E3 => (S x + length r1, 3)
                     | E2 => (S x + length r2, 2)
                     | E1 y => (y, 1)
                     | E0 y => (y, 0)
                     end.
Proof.
  induction len as [|len IH]; intros x r1 r2 Hl; [lia|]. cbn [kcmp].
  destruct r1 as [|a r1], r2 as [|b r2]; cbn [scan length].
  - f_equal; lia.
  - reflexivity.
  - f_equal; lia.
  - rewrite (Ascii.eqb_sym a b). destruct (Ascii.eqb b a); [|reflexivity]. rewrite IH by (cbn in Hl; lia).
    destruct (scan (S (S x)) r2 r1); cbn [length]; f_equal; lia.
Qed.
Lemma kcmp_one (nk : str) c r : fst (kcmp 1 0 nk (c :: r)) =? 2 = match nk with a :: _ => Ascii.eqb a c | [] => false end.
Proof. destruct nk as [|a nk]; [reflexivity|]. cbn. destruct (Ascii.eqb a c); reflexivity. Qed.

Section Facts.
Context {V : Type}.
Notation node := (node V).
Implicit Types (n m : node) (l : list node) (h : hsl node) (k : str) (d : option V).

Lemma b_find_spec c r l i : (forall n, In n l -> nkey n <> []) ->
  match b_find (c :: r) l i with
  | Some (j, n) => exists l1 l2, l = l1 ++ n :: l2 /\ j = i + length l1 /\ head0 n = c
  | None => Forall (fun m => head0 m <> c) l
  end.
Proof.
  revert i; induction l as [|n l IH]; intros i Hk; cbn [b_find]; [constructor|].
  rewrite kcmp_one. assert (Hn : nkey n <> []) by (apply Hk; now left).
  destruct (nkey n) as [|a nk] eqn:En; [congruence|]. destruct (Ascii.eqb_spec a c) as [->|Hne].
  - exists [], l. cbn. repeat split; auto. unfold head0. now rewrite En.
  - specialize (IH (S i) (fun m H => Hk m (or_intror H))). destruct (b_find (c :: r) l (S i)) as [[j m]|].
    + destruct IH as (l1 & l2 & -> & -> & Hh). exists (n :: l1), l2. cbn. repeat split; auto.
    + constructor; [|exact IH]. unfold head0. now rewrite En.
Qed.

Lemma subkey_ok (k : str) a b : a <= b -> b <= length k -> subkey k a b = Ok (firstn (b - a) (skipn a k)).
Proof. intros H1 H2. unfold subkey. now rewrite (proj2 (Nat.leb_le _ _) H1), (proj2 (Nat.leb_le _ _) H2). Qed.
Lemma subkey_rest (p s : str) : subkey (p ++ s) (length p) (length (p ++ s)) = Ok s.
Proof.
  rewrite subkey_ok by (rewrite ?app_length; lia). rewrite skipn_app_exact, app_length.
  replace (length p + length s - length p) with (length s) by lia. now rewrite firstn_all.
Qed.

(** ** get *)
Lemma b_get_look : forall fuel h pre k, wff h -> length k <= fuel ->
  b_get fuel h (pre ++ k) (length pre) = Ok (look h k).
Proof.
  induction fuel as [|fuel IH]; intros h pre k Hw Hf.
  { destruct k; [|cbn in Hf; lia]. cbn [b_get]. now rewrite app_nil_r, Nat.ltb_irrefl. }
  cbn [b_get]. destruct k as [|c k]; [now rewrite app_nil_r, Nat.ltb_irrefl|].
  rewrite (proj2 (Nat.ltb_lt _ _)) by (rewrite app_length; cbn; lia). rewrite skipn_app_exact.
  pose proof (b_find_spec c k (hitems h) 0 (fun n Hn => wff_key _ _ Hw Hn)) as Hfi.
  destruct (b_find (c :: k) (hitems h) 0) as [[j n]|].
  2:{ now rewrite look_notin. }
  destruct Hfi as (l1 & l2 & El & -> & Hh).
  assert (Hin : In n (hitems h)) by (rewrite El; apply in_or_app; right; now left).
  pose proof (wff_key _ _ Hw Hin) as Hnk.
  replace (skipn (length pre + 1) (pre ++ c :: k)) with k.
  2:{ replace (pre ++ c :: k) with ((pre ++ [c]) ++ k) by now rewrite <- app_assoc.
      replace (length pre + 1) with (length (pre ++ [c])) by (rewrite app_length; reflexivity). now rewrite skipn_app_exact. }
  rewrite kcmp_scan by (rewrite app_length; cbn; lia).
  replace (skipn 1 (nkey n)) with (tl (nkey n)) by (destruct (nkey n); reflexivity).
  rewrite (look_in h n (c :: k)) by (auto; discriminate).
  pose proof (scan_keycmp c k (nkey n) Hnk Hh) as Hk.
  inversion Hk as [E He|a r E He|a r E He|p a ra b rb Hp0 E E' Hab He]; clear Hk He; cbn [fst snd].
  - rewrite E. now rewrite nlook_self.
  - rewrite nlook_off; [reflexivity|]. rewrite E. intros (s & Es). apply (f_equal (@length _)) in Es.
    rewrite !app_length in Es. cbn in Es. lia.
  - rewrite E. rewrite nlook_below. rewrite app_assoc. rewrite <- app_length. apply IH; [now apply (wff_sub h)|].
    apply (f_equal (@length _)) in E. rewrite app_length in E. cbn in E, Hf. cbn.
    assert (0 < length (nkey n)) by (destruct (nkey n); [congruence|cbn; lia]). lia.
  - rewrite nlook_off; [reflexivity|]. rewrite E, E'. intros (s & Es). rewrite <- app_assoc in Es.
    apply app_inv_head in Es. cbn in Es. congruence.
Qed.

(** ** set *)
Definition covered (S : str -> Prop) h : Prop := forall q m, at_path (hitems h) q m -> exists s, S s /\ prefix q s.

Lemma at_path_head h q m : wff h -> at_path (hitems h) q m -> exists n, In n (hitems h) /\ head0 n = char0 q /\ prefix (nkey n) q.
Proof.
  intros Hw H. destruct (at_path_inv _ _ _ H) as (n & Hin & [[-> ->]|(q' & -> & _)]); exists n; (split; [exact Hin|]).
  - split; [reflexivity|apply prefix_refl].
  - split; [|now exists q']. unfold head0. pose proof (wff_key _ _ Hw Hin). destruct (nkey n); [congruence|reflexivity].
Qed.
Lemma same_node h n n' : wff h -> In n (hitems h) -> In n' (hitems h) -> head0 n = head0 n' -> n = n'.
Proof.
  intros Hw H1 H2 E. pose proof (wff_nodup _ Hw) as Hn.
  pose proof (pick_in (head0 n') _ n Hn H1 E) as P1. pose proof (pick_in (head0 n') _ n' Hn H2 eq_refl) as P2. congruence.
Qed.
Lemma tight_items h (P : good h) : (forall n, In n (hitems h) -> tight (nsubs n)) -> tight h.
Proof. now constructor. Qed.
Lemma tight_empty : tight (@hs_empty node).
Proof. constructor; [reflexivity|intros n []]. Qed.
Lemma wff_tight_update h l1 n n' l2 : tight h -> hitems h = l1 ++ n :: l2 -> tight (nsubs n') -> tight (hs_update h (length l1) n').
Proof.
  intros Ht El Hn'. pose proof (tight_good _ Ht) as Hg. constructor.
  - unfold good, hs_update in *. cbn [hitems htail]. rewrite El in *. rewrite list_upd_app.
    destruct (htail h); auto.
    + now destruct l1.
    + rewrite !app_length in *. exact Hg.
  - unfold hs_update. cbn [hitems]. rewrite El, list_upd_app. intros m Hm. apply in_app_or in Hm.
    destruct Hm as [Hm|[<-|Hm]]; auto; apply (tight_sub h); auto; rewrite El; apply in_or_app; [now left|right; now right].
Qed.

Lemma at_path_app l1 l2 q m : at_path (l1 ++ l2) q m -> at_path l1 q m \/ at_path l2 q m.
Proof.
  intros H. destruct (at_path_inv _ _ _ H) as (n & Hin & Hc). apply in_app_or in Hin.
  destruct Hin as [Hin|Hin]; [left|right]; destruct Hc as [[-> ->]|(q' & -> & Hq)]; constructor; auto.
Qed.
Lemma at_path_one n q m : at_path [n] q m -> (q = nkey n /\ m = n) \/ exists q', q = nkey n ++ q' /\ at_path (hitems (nsubs n)) q' m.
Proof. intros H. destruct (at_path_inv _ _ _ H) as (n' & [<-|[]] & Hc). exact Hc. Qed.
Lemma at_path_nil (q : str) m : ~ at_path [] q m.
Proof. intros H. destruct (at_path_inv _ _ _ H) as (n' & [] & _). Qed.
Lemma prefix_app_l (p q s : str) : prefix q s -> prefix (p ++ q) (p ++ s).
Proof. intros (r & ->). exists r. now rewrite app_assoc. Qed.
Lemma prefix_of_app (p s : str) : prefix p (p ++ s).
Proof. now exists s. Qed.

(** What [set] must achieve on a list. *)
Definition set_done (S : str -> Prop) h k d h' (ev : list (option V)) : Prop :=
  wff h' /\ tight h' /\ covered (fun s => S s \/ s = k) h' /\
  (forall q m, at_path (hitems h) q m -> exists m', at_path (hitems h') q m') /\
  (exists m, at_path (hitems h') k m) /\
  (forall k', look h' k' = if streq k' k then d else look h k') /\
  somes ev = olist (look h k).

(** Replacing a child by one with the same head, at the same place or at the end. *)
Lemma swap_child S h l1 n l2 n' h' k d ev :
  wff h -> tight h -> covered S h -> hitems h = l1 ++ n :: l2 -> head0 n = char0 k -> k <> [] ->
  head0 n' = head0 n -> wfn n' -> tight (nsubs n') -> tight h' ->
  (hitems h' = l1 ++ n' :: l2 \/ hitems h' = (l1 ++ l2) ++ [n']) ->
  (forall q m, at_path [n'] q m -> prefix q k \/ exists s, S s /\ prefix q s) ->
  (forall q m, at_path [n] q m -> exists m', at_path [n'] q m') ->
  (exists m, at_path [n'] k m) ->
  (forall k', k' <> [] -> nlook n' k' = if streq k' k then d else nlook n k') ->
  somes ev = olist (nlook n k) ->
  set_done S h k d h' ev.
Proof.
  intros Hw Ht Hcov El Hc Hk Hh Hn' Htn' Ht' Ei Hp1 Hp2 Hp3 Hl He.
  assert (Hin : In n (hitems h)) by (rewrite El; apply in_or_app; right; now left).
  assert (Hmem : forall x, In x (hitems h') <-> x = n' \/ In x l1 \/ In x l2).
  { intros x. destruct Ei as [-> | ->]; rewrite ?in_app_iff; cbn; rewrite ?in_app_iff; intuition auto. }
  assert (Hold : forall x, In x (hitems h) <-> x = n \/ In x l1 \/ In x l2).
  { intros x. rewrite El, in_app_iff. cbn. intuition auto. }
  assert (Hnot : forall x, In x l1 \/ In x l2 -> head0 x <> head0 n').
  { intros x Hx E. pose proof (wff_nodup _ Hw) as Hnd. rewrite El, map_app in Hnd. cbn in Hnd. apply NoDup_remove_2 in Hnd.
    apply Hnd. rewrite <- map_app, <- Hh, <- E. apply in_map, in_or_app. exact Hx. }
  assert (Hw' : wff h').
  { constructor.
    - apply good_semi, tight_good, Ht'.
    - pose proof (wff_nodup _ Hw) as Hnd. rewrite El, map_app in Hnd. cbn in Hnd. rewrite <- Hh in Hnd.
      destruct Ei as [-> | ->]; rewrite ?map_app in *; cbn in *; [exact Hnd|].
      rewrite <- map_app. apply (Permutation_NoDup (l := head0 n' :: map head0 (l1 ++ l2))).
      + rewrite map_app. apply Permutation_cons_append.
      + constructor; [rewrite map_app; now apply NoDup_remove_2 in Hnd|rewrite map_app; now apply NoDup_remove_1 in Hnd].
    - intros x Hx. apply Hmem in Hx. destruct Hx as [-> |Hx]; [apply Hn'|]. apply (wff_key h); auto. apply Hold. now right.
    - intros x Hx. apply Hmem in Hx. destruct Hx as [-> |Hx]; [apply Hn'|]. apply (wff_sub h); auto. apply Hold. now right. }
  assert (Hpath : forall q m, at_path (hitems h') q m <-> at_path [n'] q m \/ exists x, (In x l1 \/ In x l2) /\ at_path [x] q m).
  { intros q m. split.
    - intros H. destruct (at_path_inv _ _ _ H) as (x & Hx & Hq). apply Hmem in Hx.
      assert (Hx1 : at_path [x] q m).
      { destruct Hq as [[-> ->]|(q' & -> & Hq')]; constructor; auto; now left. }
      destruct Hx as [-> |Hx]; [now left|right; eauto].
    - intros [H|(x & Hx & H)].
      + apply (at_path_incl [n']); auto. intros y [<-|[]]. apply Hmem. now left.
      + apply (at_path_incl [x]); auto. intros y [<-|[]]. apply Hmem. now right. }
  assert (Hpath0 : forall q m, at_path (hitems h) q m -> at_path [n] q m \/ exists x, (In x l1 \/ In x l2) /\ at_path [x] q m).
  { intros q m H. destruct (at_path_inv _ _ _ H) as (x & Hx & Hq). apply Hold in Hx.
    assert (Hx1 : at_path [x] q m).
    { destruct Hq as [[-> ->]|(q' & -> & Hq')]; constructor; auto; now left. }
    destruct Hx as [-> |Hx]; [now left|right; eauto]. }
  split; [exact Hw'|]. split; [exact Ht'|]. split; [|split; [|split; [|split]]].
  - intros q m H. apply Hpath in H. destruct H as [H|(x & Hx & H)].
    + destruct (Hp1 _ _ H) as [Hq|(s & Hs & Hq)]; [exists k; auto|exists s; auto].
    + destruct (Hcov q m) as (s & Hs & Hq); [|exists s; auto]. apply (at_path_incl [x]); auto.
      intros y [<-|[]]. apply Hold. now right.
  - intros q m H. apply Hpath0 in H. destruct H as [H|(x & Hx & H)].
    + destruct (Hp2 _ _ H) as (m' & Hm'). exists m'. apply Hpath. now left.
    + exists m. apply Hpath. right. eauto.
  - destruct Hp3 as (m & Hm). exists m. apply Hpath. now left.
  - intros k'. destruct k' as [|c' k0].
    { rewrite !look_nil. destruct (streq_spec [] k); [congruence|reflexivity]. }
    set (k' := c' :: k0). destruct (Ascii.eqb_spec (char0 k') (head0 n)) as [Ec|Ec].
    + rewrite (look_in h' n' k') by (auto; try discriminate; try congruence; apply Hmem; now left).
      rewrite (look_in h n k') by (auto; discriminate). apply Hl. discriminate.
    + rewrite streq_neq by congruence.
      unfold k'. rewrite !look_cons by auto.
      destruct (pick c' (hitems h)) as [x|] eqn:Ex.
      * apply pick_some in Ex. destruct Ex as [Hx1 Hx2]. apply Hold in Hx1.
        destruct Hx1 as [-> |Hx1]; [exfalso; apply Ec; cbn; congruence|].
        rewrite (pick_in c' (hitems h') x); auto; [now apply wff_nodup|apply Hmem; now right].
      * apply pick_none_inv in Ex. rewrite pick_none; [reflexivity|]. apply Forall_forall. intros x Hx.
        apply Hmem in Hx. destruct Hx as [-> |Hx]; [rewrite Hh; cbn in Ec; congruence|].
        rewrite Forall_forall in Ex. apply Ex, Hold. now right.
  - rewrite He. f_equal. symmetry. apply look_in; auto.
Qed.

Lemma b_set_spec : forall fuel h pre k d (S : str -> Prop),
  wff h -> tight h -> covered S h -> k <> [] -> length k <= fuel ->
  ((exists m, at_path (hitems h) k m) \/ forall s, S s -> ~ proper_prefix k s) ->
  exists h' ev, b_set true fuel h (pre ++ k) (length pre) d = Ok (h', ev) /\ set_done S h k d h' ev.
Proof.
  induction fuel as [|fuel IH]; intros h pre k d S Hw Ht Hcov Hk Hf Hok.
  { destruct k; [congruence|cbn in Hf; lia]. }
  cbn [b_set]. destruct k as [|c k]; [congruence|].
  rewrite (proj2 (Nat.ltb_lt _ _)) by (rewrite app_length; cbn; lia). rewrite skipn_app_exact.
  pose proof (b_find_spec c k (hitems h) 0 (fun n Hn => wff_key _ _ Hw Hn)) as Hfi.
  destruct (b_find (c :: k) (hitems h) 0) as [[j n]|].
  2:{ rewrite subkey_rest. cbn [bind]. set (n' := Node (c :: k) d hs_empty).
      destruct (good_append h n' (tight_good _ Ht)) as (h' & -> & Ei & Hg). cbn [bind]. exists h', []. split; [reflexivity|].
      assert (Hw' : wff h').
      { apply (wff_splice h h' (hitems h) n' []); auto using good_semi; rewrite ?app_nil_r; auto. apply wfn_leaf. discriminate. }
      split; [exact Hw'|]. split; [|split; [|split; [|split; [|split]]]].
      - constructor; [exact Hg|]. rewrite Ei. intros x Hx. apply in_app_or in Hx. destruct Hx as [Hx|[<-|[]]].
        + now apply (tight_sub h).
        + apply tight_empty.
      - intros q m H. rewrite Ei in H. apply at_path_app in H. destruct H as [H|H].
        + destruct (Hcov _ _ H) as (s & Hs & Hq). eauto.
        + apply at_path_one in H. exists (c :: k). split; [now right|].
          destruct H as [[-> _]|(q' & -> & Hq)]; [apply prefix_refl|]. cbn in Hq. destruct (at_path_nil _ _ Hq).
      - intros q m H. exists m. rewrite Ei. apply (at_path_incl (hitems h)); auto. intros x Hx. apply in_or_app. now left.
      - exists n'. rewrite Ei. apply (AP_here _ n'). apply in_or_app. right. now left.
      - intros k'. destruct k' as [|c' k0]; [reflexivity|].
        rewrite (look_splice h h' (hitems h) n' []) by (rewrite ?app_nil_r; auto; discriminate).
        destruct (Ascii.eqb_spec (char0 (c' :: k0)) (head0 n')) as [Ec|Ec].
        + unfold n'. rewrite nlook_leaf. destruct (streq_spec (c' :: k0) (c :: k)) as [E|E]; [reflexivity|]. symmetry. apply look_notin; auto. cbn in Ec. cbn. now rewrite Ec.
        + rewrite streq_neq; [reflexivity|]. intros E. apply Ec. rewrite E. reflexivity.
      - rewrite look_notin; auto. }
  destruct Hfi as (l1 & l2 & El & -> & Hh). cbn [Nat.add].
  assert (Hin : In n (hitems h)) by (rewrite El; apply in_or_app; right; now left).
  pose proof (wff_key _ _ Hw Hin) as Hnk. pose proof (wff_sub _ _ Hw Hin) as Hws. pose proof (tight_sub _ _ Ht Hin) as Hts.
  replace (skipn (length pre + 1) (pre ++ c :: k)) with k.
  2:{ replace (pre ++ c :: k) with ((pre ++ [c]) ++ k) by now rewrite <- app_assoc.
      replace (length pre + 1) with (length (pre ++ [c])) by (rewrite app_length; reflexivity). now rewrite skipn_app_exact. }
  rewrite kcmp_scan by (rewrite app_length; cbn; lia).
  replace (skipn 1 (nkey n)) with (tl (nkey n)) by (destruct (nkey n); reflexivity).
  assert (Hcn : forall q m, at_path [n] q m -> exists s, S s /\ prefix q s).
  { intros q m H. apply (Hcov q m). apply (at_path_incl [n]); auto. intros x [<-|[]]. exact Hin. }
  pose proof (scan_keycmp c k (nkey n) Hnk Hh) as Hkc.
  inversion Hkc as [E He|a r E He|a r E He|p a ra b rb Hp0 E E' Hab He]; clear Hkc; cbn [fst snd].
  - (* the node of the key *)
    cbn [release bind]. set (n' := Node (nkey n) d (nsubs n)).
    exists (hs_update h (length l1) n'), [ndata n]. split; [reflexivity|].
    apply (swap_child S h l1 n l2 n'); auto; try discriminate.
    + split; auto.
    + apply (wff_tight_update h l1 n n' l2); auto.
    + left. unfold hs_update. cbn [hitems]. now rewrite El, list_upd_app.
    + intros q m H. apply at_path_one in H. destruct H as [[-> _]|(q' & -> & Hq)].
      * left. cbn [n' nkey]. rewrite E. apply prefix_refl.
      * right. apply (Hcn (nkey n ++ q') m). apply (AP_below _ n); [now left|exact Hq].
    + intros q m H. apply at_path_one in H. destruct H as [[-> _]|(q' & -> & Hq)].
      * exists n'. apply (AP_here _ n'). now left.
      * exists m. apply (AP_below _ n'); [now left|exact Hq].
    + exists n'. rewrite E. apply (AP_here _ n'). now left.
    + intros k' Hk'. unfold nlook. cbn [n' nkey ndata nsubs]. rewrite E.
      destruct (strip (nkey n) k') as [[|c1 r1]|] eqn:Es.
      * apply strip_some in Es. rewrite app_nil_r in Es. now rewrite Es, streq_refl.
      * rewrite streq_neq; [reflexivity|]. intros E2. apply strip_some in Es. rewrite E2 in Es.
        apply (f_equal (@length _)) in Es. rewrite app_length in Es. cbn in Es. lia.
      * rewrite streq_neq; [reflexivity|]. intros E2. rewrite E2 in Es. apply strip_none in Es. apply Es, prefix_refl.
    + rewrite E, nlook_self. cbn. destruct (ndata n); reflexivity.
  - (* excluded *)
    exfalso. destruct Hok as [(m & Hm)|Hok].
    + destruct (at_path_head h _ m Hw Hm) as (n0 & Hin0 & Hh0 & Hp0).
      assert (n0 = n) as -> by (apply (same_node h); auto; rewrite Hh0, Hh; reflexivity).
      destruct Hp0 as (s & Hs). rewrite E in Hs. apply (f_equal (@length _)) in Hs. rewrite !app_length in Hs. cbn in Hs. lia.
    + destruct (Hcn (nkey n) n) as (s & Hs & (t & Ht')); [apply (AP_here _ n); now left|].
      apply (Hok s Hs). exists a, (r ++ t). rewrite Ht', E, <- app_assoc. reflexivity.
  - (* deeper *)
    assert (Hlen : 0 < length (nkey n)) by (destruct (nkey n); [congruence|cbn; lia]).
    rewrite E. rewrite app_assoc. rewrite <- app_length.
    destruct (IH (nsubs n) (pre ++ nkey n) (a :: r) d (fun s => S (nkey n ++ s))) as (h1 & ev & Es & Hd); auto; try discriminate.
    + intros q m H. destruct (Hcn (nkey n ++ q) m) as (s & Hs & (t & Et)); [apply (AP_below _ n); [now left|exact H]|].
      exists (q ++ t). rewrite app_assoc, <- Et. split; [exact Hs|now exists t].
    + apply (f_equal (@length _)) in E. rewrite app_length in E. cbn in E, Hf |- *. lia.
    + destruct Hok as [(m & Hm)|Hok].
      * left. destruct (at_path_through h n c k m Hw Hin Hh Hm) as [[E2 _]|(q' & E2 & Hq)].
        -- exfalso. rewrite E2 in E. apply (f_equal (@length _)) in E. rewrite app_length in E. cbn in E. lia.
        -- rewrite E in E2. apply app_inv_head in E2. rewrite E2. eauto.
      * right. intros s Hs Hp. apply (Hok _ Hs). rewrite E. destruct Hp as (c1 & r1 & ->). exists c1, r1. now rewrite <- app_assoc.
    + rewrite Es. cbn [bind fst snd]. destruct Hd as (Hw1 & Ht1 & Hc1 & Hpp & (m0 & Hm0) & Hl1 & Hev).
      set (n' := Node (nkey n) (ndata n) h1). exists (hs_update h (length l1) n'), ev. split; [reflexivity|]. rewrite <- E.
      apply (swap_child S h l1 n l2 n'); auto; try discriminate.
      * split; auto.
      * apply (wff_tight_update h l1 n n' l2); auto.
      * left. unfold hs_update. cbn [hitems]. now rewrite El, list_upd_app.
      * intros q m H. apply at_path_one in H. destruct H as [[-> _]|(q' & -> & Hq)].
        -- right. apply (Hcn (nkey n) n). apply (AP_here _ n). now left.
        -- destruct (Hc1 _ _ Hq) as (s & [Hs|Hs] & Hp).
           ++ right. exists (nkey n ++ s). split; [exact Hs|now apply prefix_app_l].
           ++ left. rewrite E, <- Hs. now apply prefix_app_l.
      * intros q m H. apply at_path_one in H. destruct H as [[-> _]|(q' & -> & Hq)].
        -- exists n'. apply (AP_here _ n'). now left.
        -- destruct (Hpp _ _ Hq) as (m' & Hm'). exists m'. apply (AP_below _ n'); [now left|exact Hm'].
      * exists m0. rewrite E. apply (AP_below _ n'); [now left|exact Hm0].
      * intros k' Hk'. unfold nlook. cbn [n' nkey ndata nsubs].
        destruct (strip (nkey n) k') as [[|c1 r1]|] eqn:Est.
        -- rewrite streq_neq; [reflexivity|]. intros E2. apply strip_some in Est. rewrite app_nil_r in Est. rewrite Est, E in E2.
           apply (f_equal (@length _)) in E2. rewrite app_length in E2. cbn in E2. lia.
        -- rewrite Hl1. apply strip_some in Est. rewrite Est, E.
           destruct (streq_spec (c1 :: r1) (a :: r)) as [E2|E2]; [now rewrite E2, streq_refl|].
           rewrite streq_neq; [reflexivity|]. intros E3. apply app_inv_head in E3. congruence.
        -- rewrite streq_neq; [reflexivity|]. intros E2. rewrite E2, E in Est. apply strip_none in Est. apply Est, prefix_of_app.
      * rewrite Hev, E, nlook_below. reflexivity.
  - (* the keys part *)
    assert (Hx : 1 + length (tl p) = length p) by (destruct p; [congruence|reflexivity]).
    rewrite E'. rewrite app_assoc. rewrite <- app_length. rewrite subkey_rest. cbn [bind].
    rewrite E, subkey_rest. cbn [bind]. rewrite firstn_app_exact.
    set (n' := Node p None (mkH [Node (b :: rb) d hs_empty; Node (a :: ra) (ndata n) (nsubs n)] (TAt 1))).
    destruct (good_append (hs_remove h (length l1)) n' (good_remove h (length l1) (tight_good _ Ht))) as (h' & -> & Ei & Hg).
    cbn [bind]. exists h', []. split; [reflexivity|]. rewrite (hs_remove_items h l1 n l2 El) in Ei.
    assert (Htn : tight (nsubs n')).
    { constructor; [reflexivity|]. intros x [<-|[<-|[]]]; [apply tight_empty|exact Hts]. }
    assert (Hwn : wff (nsubs n')).
    { constructor; cbn.
      - reflexivity.
      - constructor; [|constructor; [intros []|constructor]]. cbn. intros [E2|[]]. congruence.
      - intros x [<-|[<-|[]]]; discriminate.
      - intros x [<-|[<-|[]]]; [apply wff_empty|exact Hws]. }
    assert (Hhp : head0 n' = head0 n) by (unfold head0; rewrite E; cbn; destruct p; [congruence|reflexivity]).
    rewrite <- E'.
    apply (swap_child S h l1 n l2 n'); auto; try discriminate.
    + split; auto.
    + constructor; [exact Hg|]. rewrite Ei. intros x Hx0. apply in_app_or in Hx0. destruct Hx0 as [Hx0|[<-|[]]]; [|exact Htn].
      apply (tight_sub h); auto. rewrite El. apply in_app_or in Hx0. apply in_or_app. destruct Hx0; [now left|right; now right].
    + intros q m H. apply at_path_one in H. destruct H as [[-> _]|(q' & -> & Hq)]; cbn [n' nkey nsubs hitems] in *.
      * left. rewrite E'. apply prefix_of_app.
      * destruct (at_path_inv _ _ _ Hq) as (x & [<-|[<-|[]]] & Hc2).
        -- left. rewrite E'. destruct Hc2 as [[-> _]|(q2 & -> & Hq2)]; [apply prefix_refl|]. destruct (at_path_nil _ _ Hq2).
        -- right. destruct Hc2 as [[-> _]|(q2 & -> & Hq2)]; cbn [nkey nsubs] in *.
           ++ rewrite <- E. apply (Hcn (nkey n) n). apply (AP_here _ n). now left.
           ++ rewrite app_assoc, <- E. apply (Hcn (nkey n ++ q2) m). apply (AP_below _ n); [now left|exact Hq2].
    + intros q m H. apply at_path_one in H. destruct H as [[-> _]|(q' & -> & Hq)]; rewrite E.
      * exists (Node (a :: ra) (ndata n) (nsubs n)). apply (AP_below _ n'); [now left|].
        apply (AP_here _ (Node (a :: ra) (ndata n) (nsubs n))). right. now left.
      * exists m. rewrite <- app_assoc. apply (AP_below _ n'); [now left|].
        apply (AP_below _ (Node (a :: ra) (ndata n) (nsubs n))); [right; now left|exact Hq].
    + exists (Node (b :: rb) d hs_empty). rewrite E'. apply (AP_below _ n'); [now left|].
      apply (AP_here _ (Node (b :: rb) d hs_empty)). now left.
    + intros k' Hk'. unfold nlook. cbn [n' nkey ndata nsubs] in *. rewrite E'.
      destruct (strip p k') as [[|c1 r1]|] eqn:Es.
      * apply strip_some in Es. rewrite app_nil_r in Es. rewrite streq_neq.
        2:{ intros E2. rewrite Es in E2. apply (f_equal (@length _)) in E2. rewrite app_length in E2. cbn in E2. lia. }
        rewrite E, Es. rewrite (proj2 (strip_none _ _)); [reflexivity|]. intros (s & Es2). apply (f_equal (@length _)) in Es2.
        rewrite !app_length in Es2. cbn in Es2. lia.
      * apply strip_some in Es. rewrite Es.
        destruct (Ascii.eqb_spec c1 b) as [->|Hb].
        -- rewrite (look_in _ (Node (b :: rb) d hs_empty)) by (auto; try discriminate; now left). rewrite nlook_leaf.
           destruct (streq_spec (b :: r1) (b :: rb)) as [E2|E2]; [now rewrite E2, streq_refl|].
           rewrite streq_neq by (intros E3; apply app_inv_head in E3; congruence).
           rewrite E. rewrite strip_app2. cbn. destruct (Ascii.eqb_spec a b); [congruence|reflexivity].
        -- rewrite streq_neq by (intros E3; apply app_inv_head in E3; congruence).
           rewrite E, strip_app2.
           destruct (Ascii.eqb_spec c1 a) as [->|Ha].
           ++ rewrite (look_in _ (Node (a :: ra) (ndata n) (nsubs n))) by (auto; try discriminate; right; now left).
              unfold nlook. cbn [nkey ndata nsubs]. reflexivity.
           ++ rewrite look_notin; auto.
              ** cbn. destruct (Ascii.eqb_spec a c1); [congruence|reflexivity].
              ** cbn. constructor; [cbn; congruence|constructor; [cbn; congruence|constructor]].
      * rewrite streq_neq.
        2:{ intros E2. rewrite E2 in Es. apply strip_none in Es. apply Es, prefix_of_app. }
        rewrite (proj2 (strip_none _ _)); [reflexivity|]. intros (s & Es2). apply strip_none in Es. apply Es.
        rewrite Es2, E, <- app_assoc. apply prefix_of_app.
    + rewrite nlook_off; [reflexivity|]. rewrite E, E'. intros (s & Es). rewrite <- app_assoc in Es. apply app_inv_head in Es.
      cbn in Es. congruence.
Qed.
End Facts.
