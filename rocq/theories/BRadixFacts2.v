(** Histories of a comps_bradix.c tree. *)
From Coq Require Import Permutation.
From Verif Require Import CStr CStrFacts HSListModel HSListFacts RTreeModel RTreeFacts RTreeFacts2 RTreeFacts3 RTreeFacts4
  OwnModel OwnFacts OwnFacts2 OwnFacts3 BRadixModel BRadixFacts.

Section Facts.
Context {V : Type}.
Notation node := (node V).
Implicit Types (n m : node) (l : list node) (h : hsl node) (k : str) (d : option V).

(** ** unset *)
Lemma tight_remove0 h i : tight h -> tight (hs_remove h i).
Proof.
  intros Ht. constructor; [apply good_remove, (tight_good _ Ht)|].
  intros m Hm. apply (tight_sub _ _ Ht). unfold hs_remove in Hm. destruct (i <? length (hitems h)); [|exact Hm].
  cbn [hitems] in Hm. unfold list_del in Hm. apply in_app_or in Hm.
  destruct Hm as [Hm|Hm]; [rewrite <- (firstn_skipn i (hitems h))|rewrite <- (firstn_skipn (S i) (hitems h))];
    apply in_or_app; auto.
Qed.
Lemma look_nil_subs n k : hitems (nsubs n) = [] -> nlook n k = if streq k (nkey n) then ndata n else None.
Proof.
  intros E. unfold nlook. destruct (strip (nkey n) k) as [[|a r]|] eqn:Es.
  - apply strip_some in Es. rewrite app_nil_r in Es. now rewrite Es, streq_refl.
  - apply strip_some in Es. rewrite streq_neq; [|intros E2; rewrite Es in E2; apply (f_equal (@length _)) in E2; rewrite app_length in E2; cbn in E2; lia].
    unfold look. cbn [length get_sub]. now rewrite E.
  - rewrite streq_neq; [reflexivity|]. intros E2. rewrite E2 in Es. apply strip_none in Es. apply Es, prefix_refl.
Qed.

Definition unset_done (S : str -> Prop) h k h' (ev : list (option V)) : Prop :=
  wff h' /\ tight h' /\ covered S h' /\
  ((h' = h /\ ev = []) \/
   exists k0, length k0 = length k /\ k0 <> [] /\
     (forall k', look h' k' = if streq k' k0 then None else look h k') /\ somes ev = olist (look h k0)).

Lemma b_unset_spec : forall fuel isroot h pre k (S : str -> Prop) h' ev,
  wff h -> tight h -> covered S h ->
  b_unset true fuel isroot h (pre ++ k) (length pre) = Ok (h', ev) -> unset_done S h k h' ev.
Proof.
  induction fuel as [|fuel IH]; intros isroot h pre k S h' ev Hw Ht Hcov E.
  { destruct k as [|c k]; cbn [b_unset] in E.
    - rewrite app_nil_r, Nat.ltb_irrefl in E. injection E as <- <-. split; [|split; [|split]]; auto.
    - rewrite (proj2 (Nat.ltb_lt _ _)) in E by (rewrite app_length; cbn; lia). discriminate. }
  destruct k as [|c k]; cbn [b_unset] in E.
  { rewrite app_nil_r, Nat.ltb_irrefl in E. injection E as <- <-. split; [|split; [|split]]; auto. }
  assert (Hsame : Ok (h, @nil (option V)) = Ok (h', ev) -> unset_done S h (c :: k) h' ev).
  { intros E0. injection E0 as <- <-. split; [|split; [|split]]; auto. }
  rewrite (proj2 (Nat.ltb_lt _ _)) in E by (rewrite app_length; cbn; lia).
  destruct (hitems h) as [|n l] eqn:El; [exact (Hsame E)|].
  assert (Hin : In n (hitems h)) by (rewrite El; now left).
  pose proof (wff_key _ _ Hw Hin) as Hnk. pose proof (wff_sub _ _ Hw Hin) as Hws. pose proof (tight_sub _ _ Ht Hin) as Hts.
  destruct (nkey n) as [|c0 nk0] eqn:Enk; [congruence|]. rewrite <- Enk in *.
  replace (skipn (length pre + 1) (pre ++ c :: k)) with k in E.
  2:{ replace (pre ++ c :: k) with ((pre ++ [c]) ++ k) by now rewrite <- app_assoc.
      replace (length pre + 1) with (length (pre ++ [c])) by (rewrite app_length; reflexivity). now rewrite skipn_app_exact. }
  rewrite kcmp_scan in E by (rewrite app_length; cbn; lia).
  replace (skipn 1 (nkey n)) with (tl (nkey n)) in E by (destruct (nkey n); reflexivity).
  assert (Hh : char0 (nkey n) = c0) by now rewrite Enk.
  assert (El' : hitems h = [] ++ n :: l) by exact El.
  assert (Hrem : hitems (hs_remove h 0) = l) by exact (hs_remove_items h [] n l El').
  assert (Hlrem : forall k', k' <> [] -> look (hs_remove h 0) k' = if Ascii.eqb (char0 k') (head0 n) then None else look h k')
    by (intros k'; exact (look_remove h [] n l k' Hw El')).
  assert (Hlup : forall n' k', wfn n' -> head0 n' = head0 n -> k' <> [] ->
    look (hs_update h 0 n') k' = if Ascii.eqb (char0 k') (head0 n) then nlook n' k' else look h k')
    by (intros n' k' H1 H2 H3; exact (look_update h [] n n' l k' Hw (wff_update h [] n n' l Hw El' H2 H1) El' H2 H3)).
  assert (Hcn : forall q m, at_path [n] q m -> exists s, S s /\ prefix q s).
  { intros q m H. apply (Hcov q m). apply (at_path_incl [n]); auto. intros x [<-|[]]. exact Hin. }
  pose proof (scan_keycmp c0 k (nkey n) Hnk Hh) as Hkc.
  inversion Hkc as [Ek He|a r Ek He|a r Ek He|p a ra b rb Hp0 Ek Ek' Hab He]; clear Hkc; rewrite <- He in E; cbn [fst snd] in E;
    try exact (Hsame E).
  - (* this node *)
    assert (Hcase : match htail (nsubs n) with
                    | TNull => (hs_remove h 0, node_destroy (Plain true) n)
                    | _ => (hs_update h 0 (Node (nkey n) None (nsubs n)), [ndata n])
                    end = (h', ev)).
    { destruct isroot; destruct (htail (nsubs n)); cbn [fst] in E;
        try (injection E as E1 E2; congruence);
        match type of E with context [htail ?x] => destruct (htail x) end; try discriminate;
        injection E as E1 E2; congruence. }
    clear E.
    assert (Hlen : length (nkey n) = length (c :: k)) by (rewrite <- Ek; reflexivity).
    assert (Hlk : look h (nkey n) = ndata n).
    { rewrite (look_in h n (nkey n)) by auto. apply nlook_self. }
    destruct (htail (nsubs n)) as [|j|] eqn:Etl.
    + injection Hcase as <- <-. assert (Hns : hitems (nsubs n) = []) by (pose proof (tight_good _ Hts) as Hg; unfold good in Hg; now rewrite Etl in Hg).
      split; [exact (wff_remove h [] n l Hw El')|]. split; [now apply tight_remove0|]. split.
      * intros q m H. rewrite Hrem in H. apply (Hcov q m).
        rewrite El. apply (at_path_incl l); auto. intros x Hx. now right.
      * right. exists (nkey n). split; [exact Hlen|]. split; [exact Hnk|]. split.
        -- intros k'. destruct k' as [|c' k1]; [now rewrite !look_nil; destruct (streq [] (nkey n))|].
           rewrite Hlrem by discriminate.
           destruct (Ascii.eqb_spec (char0 (c' :: k1)) (head0 n)) as [Ec|Ec].
           ++ rewrite (look_in h n (c' :: k1)) by (auto; discriminate). rewrite look_nil_subs by exact Hns.
              now destruct (streq (c' :: k1) (nkey n)).
           ++ rewrite streq_neq; [reflexivity|]. intros E2. apply Ec. rewrite E2. reflexivity.
        -- rewrite Hlk, node_destroy_somes by discriminate. rewrite nvals_eq, Hns. apply app_nil_r.
    + injection Hcase as <- <-. set (n' := Node (nkey n) None (nsubs n)).
      assert (Hu : hitems (hs_update h 0 n') = n' :: l) by (unfold hs_update; cbn [hitems]; rewrite El; reflexivity).
      assert (Hw' : wff (hs_update h 0 n')) by (apply (wff_update h [] n n' l); auto; split; auto).
      split; [exact Hw'|]. split; [apply (wff_tight_update h [] n n' l); auto|]. split.
      * intros q m H. rewrite Hu in H. apply (at_path_app [n'] l) in H. destruct H as [H|H].
        -- apply at_path_one in H. destruct H as [[-> _]|(q' & -> & Hq)].
           ++ apply (Hcn (nkey n) n), (AP_here _ n). now left.
           ++ apply (Hcn _ m), (AP_below _ n); [now left|exact Hq].
        -- apply (Hcov q m). rewrite El. apply (at_path_incl l); auto. intros x Hx. now right.
      * right. exists (nkey n). split; [exact Hlen|]. split; [exact Hnk|]. split; [|now rewrite Hlk; destruct (ndata n)].
        intros k'. destruct k' as [|c' k1]; [now rewrite !look_nil; destruct (streq [] (nkey n))|].
        rewrite Hlup by (try discriminate; try reflexivity; split; auto).
        destruct (Ascii.eqb_spec (char0 (c' :: k1)) (head0 n)) as [Ec|Ec].
        -- rewrite (look_in h n (c' :: k1)) by (auto; discriminate). unfold nlook. cbn [n' nkey ndata nsubs].
           destruct (strip (nkey n) (c' :: k1)) as [[|c1 r1]|] eqn:Es.
           ++ apply strip_some in Es. rewrite app_nil_r in Es. now rewrite Es, streq_refl.
           ++ rewrite streq_neq; [reflexivity|]. intros E2. apply strip_some in Es. rewrite E2 in Es.
              apply (f_equal (@length _)) in Es. rewrite app_length in Es. cbn in Es. lia.
           ++ now destruct (streq (c' :: k1) (nkey n)).
        -- rewrite streq_neq; [reflexivity|]. intros E2. apply Ec. rewrite E2. reflexivity.
    + exfalso. pose proof (tight_good _ Hts) as Hg. unfold good in Hg. now rewrite Etl in Hg.
  - (* below *)
    assert (Ekk : c :: k = (c :: nk0) ++ a :: r).
    { rewrite Enk in Ek. cbn in Ek. injection Ek as Ek. cbn. now rewrite Ek. }
    assert (Hl0 : length (nkey n) = length (c :: nk0)) by now rewrite Enk.
    rewrite Hl0, Ekk in E. rewrite app_assoc in E. rewrite <- app_length in E.
    destruct (b_unset true fuel false (nsubs n) ((pre ++ c :: nk0) ++ a :: r) (length (pre ++ c :: nk0))) as [[h1 ev1]| |] eqn:Eu;
      cbn [bind fst snd] in E; try discriminate.
    injection E as <- <-.
    destruct (IH false (nsubs n) (pre ++ c :: nk0) (a :: r) (fun s => S (nkey n ++ s)) h1 ev1 Hws Hts) as (Hw1 & Ht1 & Hc1 & Hd); auto.
    { intros q m H. destruct (Hcn (nkey n ++ q) m) as (s & Hs & (t & Et)); [apply (AP_below _ n); [now left|exact H]|].
      exists (q ++ t). rewrite app_assoc, <- Et. split; [exact Hs|now exists t]. }
    set (n' := Node (nkey n) (ndata n) h1).
    assert (Hu : hitems (hs_update h 0 n') = n' :: l) by (unfold hs_update; cbn [hitems]; rewrite El; reflexivity).
    assert (Hw' : wff (hs_update h 0 n')) by (apply (wff_update h [] n n' l); auto; split; auto).
    split; [exact Hw'|]. split; [apply (wff_tight_update h [] n n' l); auto|]. split.
    + intros q m H. rewrite Hu in H. apply (at_path_app [n'] l) in H. destruct H as [H|H].
      * apply at_path_one in H. destruct H as [[-> _]|(q' & -> & Hq)].
        -- apply (Hcn (nkey n) n), (AP_here _ n). now left.
        -- destruct (Hc1 _ _ Hq) as (s & Hs & Hp). exists (nkey n ++ s). split; [exact Hs|now apply prefix_app_l].
      * apply (Hcov q m). rewrite El. apply (at_path_incl l); auto. intros x Hx. now right.
    + destruct Hd as [[-> ->]|(k0 & Hk0 & Hne & Hl & Hev)].
      * left. split; [|reflexivity]. unfold hs_update. rewrite El. cbn [list_upd firstn skipn app].
        replace n' with n by (unfold n'; destruct n; reflexivity).
        destruct h as [hi ht]. cbn in *. unfold list_upd. cbn. now rewrite El.
      * right. exists (nkey n ++ k0). split; [rewrite Ekk, !app_length, Hk0, Hl0; reflexivity|].
        split; [destruct (nkey n); [congruence|discriminate]|]. split.
        -- intros k'. destruct k' as [|c' k1].
           { rewrite !look_nil. now destruct (streq [] (nkey n ++ k0)). }
           rewrite Hlup by (try discriminate; try reflexivity; split; auto).
           destruct (Ascii.eqb_spec (char0 (c' :: k1)) (head0 n)) as [Ec|Ec].
           ++ rewrite (look_in h n (c' :: k1)) by (auto; discriminate). unfold nlook. cbn [n' nkey ndata nsubs].
              destruct (strip (nkey n) (c' :: k1)) as [[|c1 r1]|] eqn:Es.
              ** apply strip_some in Es. rewrite app_nil_r in Es. rewrite streq_neq; [reflexivity|].
                 intros E2. rewrite Es in E2. apply (f_equal (@length _)) in E2. rewrite app_length, Hk0 in E2. cbn in E2. lia.
              ** rewrite Hl. apply strip_some in Es. rewrite Es.
                 destruct (streq_spec (c1 :: r1) k0) as [E2|E2]; [now rewrite E2, streq_refl|].
                 rewrite streq_neq; [reflexivity|]. intros E3. apply app_inv_head in E3. congruence.
              ** now destruct (streq (c' :: k1) (nkey n ++ k0)).
           ++ rewrite streq_neq; [reflexivity|]. intros E2. apply Ec. rewrite E2.
              unfold head0. destruct (nkey n); [congruence|reflexivity].
        -- assert (H1 : nkey n ++ k0 <> []) by (destruct (nkey n); [congruence|discriminate]).
           assert (H2 : char0 (nkey n ++ k0) = head0 n) by (unfold head0; destruct (nkey n); [congruence|reflexivity]).
           rewrite Hev. f_equal. rewrite (look_in h n (nkey n ++ k0) Hw Hin H1 H2).
           rewrite nlook_app. destruct k0; [congruence|reflexivity].
Qed.

(** ** What a set does to the values *)
Lemma nodup_fst {A B} (l : list (A * B)) : NoDup (map fst l) -> NoDup l.
Proof. apply NoDup_map_inv. Qed.
Lemma ents_perm h (l : list (str * V)) : wff h -> NoDup l ->
  (forall k v, In (k, v) l <-> look h k = Some v) -> Permutation (ents (hitems h)) l.
Proof.
  intros Hw Hl H. apply NoDup_Permutation; [now apply nodup_fst, ents_nodup|exact Hl|].
  intros [k v]. rewrite H. now apply ents_look.
Qed.
Definition opair k d : list (str * V) := match d with Some v => [(k, v)] | None => [] end.
Lemma opair_in k d k' v : In (k', v) (opair k d) <-> k' = k /\ d = Some v.
Proof. destruct d; cbn; split; [intros [E|[]]; injection E as -> ->; auto|intros [-> E]; injection E as ->; now left|easy|intros [_ E]; discriminate]. Qed.
Lemma opair_snd k d : map snd (opair k d) = olist d.
Proof. now destruct d. Qed.
Lemma change_held h h' k d : wff h -> wff h' -> (forall k', look h' k' = if streq k' k then d else look h k') ->
  Permutation (vals (hitems h') ++ olist (look h k)) (olist d ++ vals (hitems h)).
Proof.
  intros Hw Hw' Hl. set (rest := filter (fun e => negb (streq (fst e) k)) (ents (hitems h))).
  assert (Hr : forall k' v, In (k', v) rest <-> k' <> k /\ look h k' = Some v).
  { intros k' v. unfold rest. rewrite filter_In, (ents_look h k' v Hw). cbn. destruct (streq_spec k' k); cbn; intuition congruence. }
  assert (Hnd : NoDup rest) by (apply NoDup_filter, nodup_fst, ents_nodup, Hw).
  assert (Hmk : forall e, NoDup (opair k e ++ rest)).
  { intros e. destruct e as [v|]; cbn; [|exact Hnd]. constructor; [|exact Hnd]. intros Hin. apply Hr in Hin. now destruct Hin. }
  assert (P1 : Permutation (ents (hitems h)) (opair k (look h k) ++ rest)).
  { apply ents_perm; auto. intros k' v. rewrite in_app_iff, opair_in, Hr.
    destruct (str_eq_dec k' k) as [->|Hne]; intuition congruence. }
  assert (P2 : Permutation (ents (hitems h')) (opair k d ++ rest)).
  { apply ents_perm; auto. intros k' v. rewrite in_app_iff, opair_in, Hr, Hl.
    destruct (streq_spec k' k) as [->|Hne]; intuition congruence. }
  unfold vals. rewrite P1, P2. rewrite !map_app, !opair_snd. rewrite <- app_assoc.
  apply Permutation_app_head, Permutation_app_comm.
Qed.

(** ** Programs *)
Definition bset_keys (os : list (bop V)) : list str := flat_map (fun o => match o with BSet k _ => [k] | _ => [] end) os.
Definition bgiven (ctor : option V -> option V) (os : list (bop V)) : list V :=
  flat_map (fun o => match o with BSet _ d => olist (ctor d) | _ => [] end) os.
(** What the tree answers for a key ([None] also after clear). *)
Definition bshows (s : odict V) k : option V :=
  if o_dead s then None else match b_get (length k) (o_root s) k 0 with Ok v => v | _ => None end.
(** A finite map from keys to values, with the answers of the calls and the
    values that are replaced. *)
Fixpoint map_run (ctor : option V -> option V) (f : str -> option V) (os : list (bop V))
  : (str -> option V) * list (option V) * list V :=
  match os with
  | [] => (f, [], [])
  | o :: r =>
      match o with
      | BSet k d =>
          let '(g, a, x) := map_run ctor (fun k' => if streq k' k then ctor d else f k') r in (g, None :: a, olist (f k) ++ x)
      | BGet k => let '(g, a, x) := map_run ctor f r in (g, f k :: a, x)
      | BUnset _ | BClear => let '(g, a, x) := map_run ctor f r in (g, None :: a, x)
      end
  end.

Definition binv (S : str -> Prop) (s : odict V) : Prop :=
  wff (o_root s) /\ tight (o_root s) /\ covered S (o_root s) /\ o_dead s = false.
Lemma covered_mono (S S' : str -> Prop) h : (forall k, S k -> S' k) -> covered S h -> covered S' h.
Proof. intros H Hc q m Hq. destruct (Hc q m Hq) as (s & Hs & Hp). eauto. Qed.
Lemma bget_look s k : binv (fun _ => True) s -> b_get (length k) (o_root s) k 0 = Ok (look (o_root s) k).
Proof. intros (Hw & _). exact (b_get_look (length k) (o_root s) [] k Hw (le_n _)). Qed.
Lemma binv_top S s : binv S s -> binv (fun _ => True) s.
Proof. intros (H1 & H2 & H3 & H4). split; [|split; [|split]]; auto. now apply (covered_mono S). Qed.
Lemma bshows_look S s k : binv S s -> bshows s k = look (o_root s) k.
Proof. intros H. unfold bshows. rewrite (bget_look s k (binv_top _ _ H)). now destruct H as (_ & _ & _ & ->). Qed.
Lemma binv_create : binv (fun _ => False) o_create.
Proof.
  split; [apply wff_empty|]. split; [apply tight_empty|]. split; [|reflexivity].
  intros q m H. destruct (at_path_nil _ _ H).
Qed.
Lemma live_ok (s : odict V) k : o_dead s = false -> live s k = true.
Proof. intros E. unfold live. rewrite E. now destruct k. Qed.

Lemma step_set ctor S s k d : binv S s -> k <> [] ->
  ((exists m, at_path (hitems (o_root s)) k m) \/ forall s0, S s0 -> ~ proper_prefix k s0) ->
  exists s' ev, b_step true ctor s (BSet k d) = Ok (s', mkE [] ev None) /\ o_dead s' = false /\
    set_done S (o_root s) k (ctor d) (o_root s') ev.
Proof.
  intros (Hw & Ht & Hc & Hd) Hk Hok. cbn [b_step]. rewrite (live_ok s k Hd).
  destruct (b_set_spec (length k) (o_root s) [] k (ctor d) S Hw Ht Hc Hk (le_n _) Hok) as (h' & ev & E & Hdone).
  cbn [app length] in E. rewrite E. cbn [bind fst snd]. exists (mkO h' (o_dead s)), ev. split; [reflexivity|]. split; [exact Hd|exact Hdone].
Qed.

Definition ordered (os : list (bop V)) : Prop :=
  forall (l1 : list (bop V)) k d (l2 : list (bop V)), os = l1 ++ BSet k d :: l2 ->
    In k (bset_keys l1) \/ forall k', In k' (bset_keys l1) -> ~ proper_prefix k k'.
Definition only_set_get (os : list (bop V)) : Prop :=
  Forall (fun o => match o with BSet k _ => k <> [] | BGet _ => True | _ => False end) os.

Lemma bset_keys_app a b : bset_keys (a ++ b) = bset_keys a ++ bset_keys b.
Proof. apply flat_map_app. Qed.

Lemma run_ordered ctor : forall os past s f,
  binv (fun k => In k (bset_keys past)) s ->
  (forall k, In k (bset_keys past) -> exists m, at_path (hitems (o_root s)) k m) ->
  (forall k, look (o_root s) k = f k) -> f [] = None ->
  ordered (past ++ os) -> only_set_get os ->
  exists s' effs, b_run true ctor s os = Ok (s', effs) /\
    binv (fun k => In k (bset_keys (past ++ os))) s' /\
    (forall k, look (o_root s') k = fst (fst (map_run ctor f os)) k) /\
    results effs = snd (fst (map_run ctor f os)) /\ destroyed effs = snd (map_run ctor f os) /\
    Permutation (vals (hitems (o_root s')) ++ destroyed effs) (bgiven ctor os ++ vals (hitems (o_root s))).
Proof.
  induction os as [|o os IH]; intros past s f Hi Hp Hf Hf0 Ho Hs.
  { exists s, []. rewrite app_nil_r. cbn [b_run map_run fst snd results destroyed map flat_map bgiven app].
    split; [reflexivity|]. split; [exact Hi|]. split; [exact Hf|]. split; [reflexivity|]. split; [reflexivity|].
    now rewrite app_nil_r. }
  inversion Hs as [|? ? Hso Hs']; subst.
  destruct o as [k d|k|k|]; [| |destruct Hso|destruct Hso].
  - destruct (step_set ctor _ s k d Hi Hso) as (s1 & ev & Es & Hd & Hdone).
    { destruct (Ho past k d os eq_refl) as [Hin|Hn]; [left; now apply Hp|right; exact Hn]. }
    destruct Hdone as (Hw1 & Ht1 & Hc1 & Hpp & Hm & Hl & Hev).
    assert (Eapp : past ++ BSet k d :: os = (past ++ [BSet k d]) ++ os) by now rewrite <- app_assoc.
    destruct (IH (past ++ [BSet k d]) s1 (fun k' => if streq k' k then ctor d else f k')) as (s' & effs & Er & Hi' & Hl' & Hr & Hdes & Hperm); auto.
    + split; [exact Hw1|]. split; [exact Ht1|]. split; [|exact Hd].
      apply (covered_mono _ _ _ (fun q H => eq_ind_r (fun x => In q x) (in_or_app _ [k] q
               (match H with or_introl a => or_introl a | or_intror b => or_intror (or_introl (eq_sym b)) end))
               (bset_keys_app past [BSet k d])) Hc1).
    + intros q Hq. rewrite bset_keys_app in Hq. apply in_app_or in Hq. destruct Hq as [Hq|[<-|[]]]; [|exact Hm].
      destruct (Hp q Hq) as (m & Hm'). exact (Hpp q m Hm').
    + intros k'. rewrite Hl. now destruct (streq k' k).
    + destruct (streq_spec [] k); [congruence|exact Hf0].
    + now rewrite <- Eapp.
    + cbn [b_run]. rewrite Es. cbn [bind fst]. rewrite Er. cbn [bind fst snd]. exists s', (mkE [] ev None :: effs).
      split; [reflexivity|]. rewrite Eapp. split; [exact Hi'|]. cbn [map_run].
      destruct (map_run ctor (fun k' => if streq k' k then ctor d else f k') os) as [[g a] x] eqn:Em. cbn [fst snd] in *.
      split; [exact Hl'|]. split; [cbn [results map e_result]; now rewrite <- Hr|].
      rewrite destroyed_cons. cbn [e_destroyed]. rewrite Hev, Hf, Hdes. split; [reflexivity|].
      rewrite <- Hdes. rewrite <- Hf. cbn [bgiven flat_map]. fold (bgiven ctor os).
      pose proof (change_held (o_root s) (o_root s1) k (ctor d) (proj1 Hi) Hw1 Hl) as Hch.
      rewrite (Permutation_app_comm (olist (look (o_root s) k))), app_assoc, Hperm.
      rewrite <- app_assoc, Hch. rewrite !app_assoc. apply Permutation_app_tail, Permutation_app_comm.
  - assert (Eapp : past ++ BGet k :: os = (past ++ [BGet k]) ++ os) by now rewrite <- app_assoc.
    assert (Ek : bset_keys (past ++ [BGet k]) = bset_keys past) by (rewrite bset_keys_app; apply app_nil_r).
    destruct (IH (past ++ [BGet k]) s f) as (s' & effs & Er & Hi' & Hl' & Hr & Hdes & Hperm); auto; rewrite ?Ek; auto.
    + now rewrite <- Eapp.
    + cbn [b_run b_step]. rewrite (live_ok s k) by apply Hi. rewrite (bget_look s k (binv_top _ _ Hi)). cbn [bind fst snd].
      rewrite Er. cbn [bind fst snd]. exists s', (mkE [] [] (look (o_root s) k) :: effs). split; [reflexivity|].
      rewrite Eapp. split; [exact Hi'|]. cbn [map_run].
      destruct (map_run ctor f os) as [[g a] x] eqn:Em. cbn [fst snd] in *.
      split; [exact Hl'|]. split; [cbn [results map e_result]; rewrite <- Hr; now rewrite Hf|].
      rewrite destroyed_cons. cbn [e_destroyed somes flat_map app]. split; [exact Hdes|exact Hperm].
Qed.

Lemma destroy_all s S ev : binv S s -> o_destroy (Plain true) s = Ok ev -> somes ev = vals (hitems (o_root s)).
Proof.
  intros (_ & _ & _ & Hd). unfold o_destroy. rewrite Hd. intros E. injection E as <-. apply list_destroy_somes. discriminate.
Qed.
End Facts.
