(** Facts about the memory of the document objects: lists, dictionaries, creation,
    setters and getters, and the parts of a document. *)
From Verif Require Import CStr CStrFacts ObjMemModel ObjMemFacts1 ObjMemFacts2 ObjMemFacts3.

(** An object of a kind that callers reach. *)
Definition own (h : mem) (e : list addr) (a : addr) (k : tag) : Prop := via h e a /\ has_kind h a k.
(** [h], with the references [e], after [h0], with the references [e0]. *)
Record ok (X : list addr) (h0 : mem) (e0 : list addr) (h : mem) (e : list addr) : Prop := mkok {
  ok_g0 : G [] h0 e0; ok_g : G X h e; ok_same : same (length h0) h0 h; ok_inc : incl e0 e }.
Lemma ok_id h e : G [] h e -> ok [] h e h e.
Proof. intros I. constructor; auto; [apply same_id|apply incl_refl]. Qed.
Lemma ok_step X X' h0 e0 h e h' e' n : ok X h0 e0 h e -> same n h h' -> length h0 <= n -> G X' h' e' -> incl e0 e' -> ok X' h0 e0 h' e'.
Proof. intros [A B C D] S Hn I Hi. constructor; auto. eapply same_trans; [exact C|]. eapply same_weak; eauto. Qed.
Lemma ok_len X h0 e0 h e : ok X h0 e0 h e -> length h0 <= length h.
Proof. intros O. eapply same_length. apply (ok_same _ _ _ _ _ O). Qed.
Lemma ok_via X h0 e0 h e e' a : ok X h0 e0 h e -> incl e' e0 -> via h0 e' a -> via h e' a.
Proof. intros [A B C D] Hi V. eapply via_same; [exact A|exact Hi|exact C|exact B| |exact V]. intros x Hx. auto. Qed.
Lemma ok_own X h0 e0 h e e' a k : ok X h0 e0 h e -> incl e' e0 -> own h0 e' a k -> own h e' a k.
Proof.
  intros O Hi [V K]. pose proof (ok_via _ _ _ _ _ _ _ O Hi V) as V'. split; [exact V'|]. eapply has_kind_same; [exact K|apply (ok_same _ _ _ _ _ O)|].
  eapply via_live; [apply (ok_g _ _ _ _ _ O)|]. eapply via_mono; [|exact V']. intros x Hx. apply (ok_inc _ _ _ _ _ O). auto.
Qed.
Lemma ok_rb X h0 e0 h e e' a d t : ok X h0 e0 h e -> incl e' e0 -> via h0 e' a -> rb d h0 a = Some t -> rb d h a = Some t.
Proof. intros [A B C D] Hi V H. eapply rb_same; [exact A|exact Hi|exact C|exact B| |exact V|exact H]. intros x Hx. auto. Qed.
Lemma own_mono h e e' a k : incl e e' -> own h e a k -> own h e' a k.
Proof. intros Hi [V K]. split; [eapply via_mono; eauto|exact K]. Qed.
Lemma own_in h e a k : In a e -> has_kind h a k -> own h e a k.
Proof. intros Hi K. split; [now apply via_in|exact K]. Qed.
Lemma own_live h e a k : own h e a k -> live h a.
Proof. intros [_ K]. eapply has_kind_live; eauto. Qed.
Lemma own_step X X' h h' e e' e0 a k : own h e0 a k -> G X h e -> incl e0 e -> same (length h) h h' -> G X' h' e' -> incl e0 e' -> own h' e0 a k.
Proof.
  intros [V K] I Hi S I' Hi'. destruct (via_same _ _ _ _ _ _ _ _ I Hi S I' Hi' V) as (V' & c & c' & H & H' & Kc & _). split; [exact V'|].
  destruct K as (c2 & H2 & K2). exists c'. split; [exact H'|]. congruence.
Qed.
Lemma in_live X h e a : G X h e -> In a e -> live h a.
Proof. intros I H. eapply Inv_ext_live; [apply (g_inv _ _ _ I)|exact H]. Qed.

(** What fits. *)
Definition fit_ref (h : mem) (k : tag) (f : str) (r : ref) : Prop := match r with None => nullable k f | Some b => exists t, has_kind h b t /\ fits k f t end.
Lemma fit_slot h k f r : fit_ref h k f r -> slot_ok h k (f, Ptr r).
Proof. unfold fit_ref, slot_ok. cbn. destruct r as [b|]; auto. intros (t & (c & H & K) & F) cb Hb. assert (cb = c) by congruence. subst. exact F. Qed.
Lemma fit_same n h h' k f r : fit_ref h k f r -> same n h h' -> (forall b, r = Some b -> live h' b) -> fit_ref h' k f r.
Proof. unfold fit_ref. destruct r as [b|]; auto. intros (t & H & F) S L. exists t. split; [|exact F]. eapply has_kind_same; eauto. Qed.
Lemma find_some f ss : In f (map fst ss) -> exists v, find_slot f ss = Some v.
Proof.
  induction ss as [|(k, v) ss IH]; cbn; [intros []|]. destruct (seqb k f) eqn:E; [eauto|]. intros [->|H]; [now rewrite seqb_refl in E|auto].
Qed.
(** A member of a struct. *)
Lemma field X h e e0 a k f : G X h e -> own h e0 a k -> ~ In a X -> In f (layout k) ->
  exists ss r, isres h a k ss /\ find_slot f ss = Some (Ptr r) /\ ~ In Hole (map snd ss) /\ fit_ref h k f r /\ (forall b, r = Some b -> via h e0 b).
Proof.
  intros I [V K] Hx Hf. destruct (has_kind_res _ _ _ K) as (ss & R). pose proof (isres_solid _ _ _ _ _ _ I R Hx) as Hs.
  destruct (isres_shape _ _ _ _ _ _ I R) as [S1 _].
  assert (E : map fst ss = layout k) by (apply S1; intros E; now rewrite E in Hf). rewrite <- E in Hf. destruct (find_some f ss Hf) as (v & Hv).
  pose proof (find_in _ _ _ Hv) as Hin. destruct v as [|r]; [exfalso; apply Hs; apply in_map_iff; eexists; split; [|exact Hin]; reflexivity|].
  exists ss, r. split; [exact R|]. split; [exact Hv|]. split; [exact Hs|]. destruct r as [b|]; cbn.
  - split; [eapply isres_fits; eauto|]. intros b' Hb. injection Hb as <-. eapply isres_via; eauto.
  - split; [eapply isres_null; eauto|discriminate].
Qed.
Lemma wp_field X h e e0 a k f : G X h e -> own h e0 a k -> ~ In a X -> In f (layout k) -> ~ nullable k f ->
  wp (do r <- member a f; follow r) h (fun h' b => h' = h /\ (exists ss, isres h a k ss /\ find_slot f ss = Some (Ptr (Some b))) /\ exists t, own h e0 b t /\ fits k f t).
Proof.
  intros I O Hx Hf Hn. destruct (field _ _ _ _ _ _ _ I O Hx Hf) as (ss & r & R & F & _ & Ft & Hv). destruct r as [b|]; [|contradiction].
  apply wp_bind. eapply wp_member; [exact R|exact F|]. cbn. apply wp_ret. split; [reflexivity|]. split; [eauto|]. destruct Ft as (t & Kt & Ft). exists t. split; [|exact Ft]. split; auto.
Qed.

(** * Lists *)
Lemma reads_ok s : ~ In Hole s -> exists rs, reads s = Some rs /\ map Ptr rs = s.
Proof.
  induction s as [|v s IH]; cbn; intros H; [exists []; auto|]. destruct IH as (rs & E1 & E2); [tauto|]. destruct v as [|r]; [exfalso; apply H; now left|].
  exists (r :: rs). rewrite E1. cbn. now rewrite E2.
Qed.
Definition item_of (h : mem) (e : list addr) (et : ety) (r : ref) : Prop :=
  match r with None => et = LStr | Some x => exists t, own h e x t /\ elem et t end.
Lemma wp_items X h e e0 l et : G X h e -> own h e0 l (KList et) -> ~ In l X ->
  wp (items l) h (fun h' rs => h' = h /\ Forall (item_of h e0 et) rs /\ exists ss, isres h l (KList et) ss /\ map snd ss = map Ptr rs).
Proof.
  intros I [V K] Hx. destruct (has_kind_res _ _ _ K) as (ss & R). pose proof (isres_solid _ _ _ _ _ _ I R Hx) as Hs. destruct (reads_ok _ Hs) as (rs & E1 & E2).
  pose proof R as (c & H & Kc & Es). unfold items. apply wp_bind. eapply wp_look; [exact H|]. rewrite Es, E1. apply wp_ret. split; [reflexivity|]. split; [|eauto].
  apply Forall_forall. intros r Hr. apply (in_map Ptr) in Hr. rewrite E2 in Hr. apply in_map_iff in Hr. destruct Hr as ((f, v) & Ev & Hf). cbn in Ev. subst v.
  unfold item_of. destruct r as [x|].
  - destruct (isres_fits _ _ _ _ _ _ _ _ I R Hf) as (t & Kt & F). exists t. split; [|exact F]. split; [|exact Kt]. eapply isres_via; eauto.
  - pose proof (isres_null _ _ _ _ _ _ _ I R Hf) as N. destruct et; cbn in N; tauto.
Qed.
(** The items of a list that has no NULL. *)
Definition elem_kind (et : ety) : tag := match et with LPkg => KPkg | LGid => KGid | LGroup => KGroup | LCat => KCat | LEnv => KEnv | LStr => KVal (inr 0%Z) end.
Lemma item_objs h e et rs : et <> LStr -> Forall (item_of h e et) rs -> Forall (fun r => exists x, r = Some x /\ own h e x (elem_kind et)) rs.
Proof.
  intros He. apply Forall_impl. intros [x|]; cbn; [|tauto]. intros (t & O & E). exists x. split; [reflexivity|]. destruct et; cbn in *; try (subst t; exact O). tauto.
Qed.
Lemma wp_append_x X h e l et ss r : G X h (somes [r] ++ e) -> isres h l (KList et) ss -> (forall x, r = Some x -> exists t, has_kind h x t /\ elem et t) -> (r = None -> et = LStr) ->
  wp (append_x l r) h (fun h' _ => G X h' e /\ upd l h h' /\ isres h' l (KList et) (ss ++ [item r])).
Proof.
  intros I R Hr Hn. pose proof R as (c & H & K & E). unfold append_x. apply wp_bind. eapply wp_look; [exact H|]. rewrite E.
  destruct (isres_shape _ _ _ _ _ _ I R) as [_ [Sh _]].
  eapply wp_mono; [eapply (wp_rewrite X X h (somes [r] ++ e) e l c); [exact I|exact H| | | |]|].
  - intros x. unfold kids. rewrite E, map_app, refs_app, !count_occ_app. cbn. destruct r; cbn; lia.
  - rewrite K. split; [intros D; now destruct D|]. split; [|discriminate]. apply Forall_app. split; [exact Sh|]. constructor; [|constructor]. apply fit_slot. destruct r as [x|]; cbn; [|now rewrite (Hn eq_refl)].
    destruct (Hr x eq_refl) as (t & Kt & F). eauto.
  - rewrite map_app. intros Hh. apply in_app_or in Hh. destruct Hh as [Hh|[Hh|[]]]; [|discriminate]. eapply g_holes; [exact I|exact H|]. unfold holey. now rewrite E.
  - intros x Hx. now right.
  - cbn. intros h' _ (I' & U & C). split; [exact I'|]. split; [exact U|]. eexists. split; [exact C|]. auto.
Qed.

(** * Dictionaries *)
(** Every object is as it was, counters aside. *)
Definition as_was (h h' : mem) : Prop := forall b k s, isres h b k s -> isres h' b k s.
Lemma wp_incref2 X h ext r : G X h ext -> (forall a, r = Some a -> live h a) ->
  wp (incref r) h (fun h' _ => G X h' (somes [r] ++ ext) /\ same (length h) h h' /\ as_was h h').
Proof.
  intros I Hl. destruct (wp_incref X h ext r I Hl) as (h' & [] & E & I' & S'). exists h', tt. split; [exact E|]. split; [exact I'|]. split; [exact S'|].
  intros b k s (c & Hc & K & Es). unfold incref in E. destruct r as [a|].
  - destruct (Hl a eq_refl) as (ca & Ha). rewrite (peek_ok _ _ _ Ha) in E. cbn in E. injection E as <-. destruct (Nat.eq_dec a b) as [<-|Hne].
    + assert (ca = c) by congruence. subst ca. eexists. split; [apply poke_same; eapply at_lt; eauto|]. cbn. auto.
    + exists c. split; [now rewrite poke_other|auto].
  - injection E as <-. exists c. auto.
Qed.
Lemma wp_new2 X h ext k : G X h ext -> layout k = [] ->
  wp (new k []) h (fun h' n => n = length h /\ G X h' (n :: ext) /\ same (length h) h h' /\ as_was h h' /\ isres h' n k []).
Proof.
  intros I Hl. destruct (wp_new X h ext k [] I ltac:(constructor) ltac:(intros D; now rewrite Hl in D) ltac:(constructor)) as (h' & n & E & -> & _ & I' & S' & C').
  exists h', (length h). split; [exact E|]. split; [reflexivity|]. split; [now apply I'|]. split; [exact S'|]. split; [|eexists; split; [exact C'|]; auto].
  intros b kk s (c & Hc & K & Es). unfold new in E. injection E as <-. exists c. split; [|auto]. rewrite nth_error_app1; [exact Hc|]. eapply at_lt; eauto.
Qed.
Lemma wp_dget_x X h e e0 d kd ss k : G X h e -> isres h d kd ss -> via h e0 d -> ~ In d X ->
  wp (dget_x d k) h (fun h' r => h' = h /\ (find_slot k ss = Some (Ptr r) /\ fit_ref h kd k r \/ find_slot k ss = None /\ r = None) /\
    forall b, r = Some b -> via h e0 b /\ exists t, has_kind h b t /\ fits kd k t).
Proof.
  intros I R V Hx. pose proof R as (c & H & K & E). unfold dget_x. apply wp_bind. eapply wp_look; [exact H|]. rewrite E.
  destruct (find_slot k ss) as [[|r]|] eqn:F.
  - exfalso. apply (isres_solid _ _ _ _ _ _ I R Hx). apply find_in in F. apply in_map_iff. eexists; split; [|exact F]; reflexivity.
  - apply wp_ret. split; [reflexivity|]. apply find_in in F. split.
    + left. split; [reflexivity|]. destruct r as [b|]; cbn; [eapply isres_fits; eauto|eapply isres_null; eauto].
    + intros b ->. split; [eapply isres_via; eauto|eapply isres_fits; eauto].
  - apply wp_ret. split; [reflexivity|]. split; [now right|discriminate].
Qed.
Lemma wp_dget X h e e0 d kd ss k : G X h e -> isres h d kd ss -> via h e0 d -> ~ In d X ->
  wp (dget d k) h (fun h' r => G X h' (somes [r] ++ e) /\ same (length h) h h' /\ as_was h h' /\ (find_slot k ss = Some (Ptr r) /\ fit_ref h kd k r \/ find_slot k ss = None /\ r = None) /\
    forall b, r = Some b -> via h e0 b /\ exists t, has_kind h b t /\ fits kd k t).
Proof.
  intros I R V Hx. unfold dget. eapply wp_seq; [eapply wp_dget_x; eauto|]. cbv beta. intros h' r (-> & F & Hb).
  eapply wp_seq; [apply (wp_incref2 X h e r I)|].
  - intros a ->. destruct (Hb a eq_refl) as (_ & t & K & _). eapply has_kind_live; eauto.
  - cbv beta. intros h1 _ (I1 & S1 & W1). apply wp_ret. auto.
Qed.
Lemma put_new k v ss : find_slot k ss = None -> put_slot k v ss = ss ++ [(k, v)].
Proof. intros F. induction ss as [|(k', w) ss IH]; cbn in *; [reflexivity|]. destruct (seqb k' k); [discriminate|]. now rewrite IH. Qed.
Lemma NoDup_snoc {A} (l : list A) x : NoDup l -> ~ In x l -> NoDup (l ++ [x]).
Proof. intros H Hx. apply (NoDup_Add (a := x) (l := l)); [|split; assumption]. rewrite <- (app_nil_r l) at 1. apply Add_app. Qed.
Lemma find_none_in k ss : find_slot k ss = None -> ~ In k (map fst ss).
Proof. induction ss as [|(k', w) ss IH]; cbn; [tauto|]. destruct (seqb k' k) eqn:E; [discriminate|]. intros F [->|H]; [now rewrite seqb_refl in E|now apply IH]. Qed.
Lemma wp_dset_x X h e d kd ss k r : G X h (somes [r] ++ e) -> isres h d kd ss -> layout kd = [] -> via h e d -> ~ In d X -> incl X e -> fit_ref h kd k r ->
  wp (dset_x d k r) h (fun h' _ => G X h' e /\ isres h' d kd (put_slot k (Ptr r) ss) /\ ((find_slot k ss = None -> upd d h h') /\ forall b kk s, b <> d -> isres h b kk s -> live h' b -> isres h' b kk s) /\
    forall n, n <= d -> same n h h').
Proof.
  intros I R Hl V Hx HX Hr. pose proof R as (c & H & K & E). unfold dset_x. apply wp_bind. eapply wp_look; [exact H|]. rewrite E.
  pose proof (isres_solid _ _ _ _ _ _ I R Hx) as Hs. destruct (isres_shape _ _ _ _ _ _ I R) as [_ [Sh Nd]].
  destruct (find_slot k ss) as [[|old]|] eqn:F.
  - exfalso. apply Hs. apply find_in in F. apply in_map_iff. eexists; split; [|exact F]; reflexivity.
  - eapply wp_seq; [eapply (wp_put X h (somes [r] ++ e) (somes [old] ++ somes [r] ++ e)); [exact I|exact R|exact F| |exact Logic.I]|].
    { intros x. rewrite !count_occ_app. destruct old; cbn; lia. }
    cbn [opened]. intros h1 _ (I1 & U1 & R1). pose proof U1 as (L1 & O1 & _). pose proof (via_self _ _ _ _ O1 V) as V1.
    eapply wp_seq; [apply (wp_release (d :: X) h1 (somes [r] ++ e) old I1)|].
    { intros x [<-|Hin] _; [eapply via_mono; [|exact V1]; inc|]. apply via_in. apply in_or_app. right. now apply HX. }
    cbv beta. intros h2 _ (I2 & S2).
    assert (V2 : via h2 e d) by (eapply reach_shrinks; [apply (g_inv _ _ _ I2)| |exact S2|exact V1]; inc).
    assert (R2 : isres h2 d kd (put_slot k Hole ss)).
    { eapply isres_shrinks; [exact R1|exact S2|]. eapply via_live; [exact I2|]. eapply via_mono; [|exact V2]. inc. }
    assert (S02 : forall n, n <= d -> same n h h2) by (intros n Hn; eapply same_trans; [eapply upd_same; eauto|now apply shrinks_same]).
    eapply wp_mono; [eapply (wp_set_member (d :: X) h2 (somes [r] ++ e) e); [exact I2|exact R2|eapply find_put; eauto| |]|].
    + intros x. rewrite count_occ_app. destruct r; cbn; lia.
    + apply fit_slot. eapply fit_same; [exact Hr|apply (S02 0); lia|]. intros b ->. eapply in_live; [exact I2|]. now left.
    + cbn [opened]. intros h3 _ (I3 & U3 & R3). rewrite put_put in R3. split; [|split; [exact R3|split; [split; [discriminate|]|]]].
      * eapply G_unhole; [exact I3|exact R3|]. intros Hh. apply Hs. eapply put_hole; eauto.
      * intros b kb sb Hb Rb Lb. eapply isres_upd; [|exact U3|exact Hb]. eapply isres_shrinks; [eapply isres_upd; [exact Rb|exact U1|exact Hb]|exact S2|].
        destruct Lb as (cb & Lb). exists cb. destruct U3 as (_ & O3 & _). now rewrite <- (O3 b Hb).
      * intros n Hn. eapply same_trans; [now apply S02|]. eapply upd_same; eauto.
  - rewrite (put_new _ _ _ F). eapply wp_mono; [eapply (wp_rewrite X X h (somes [r] ++ e) e d c); [exact I|exact H| | | |]|].
    + intros x. unfold kids. rewrite E, map_app, refs_app, !count_occ_app. cbn. destruct r; cbn; lia.
    + rewrite K. split; [intros D; now rewrite Hl in D|]. split; [apply Forall_app; split; [exact Sh|]; constructor; [|constructor]; now apply fit_slot|].
      intros D. rewrite map_app. apply NoDup_snoc; [now apply Nd|]. now apply find_none_in.
    + rewrite map_app. intros Hh. apply in_app_or in Hh. destruct Hh as [Hh|[Hh|[]]]; [contradiction|discriminate].
    + intros x Hin. now right.
    + cbv beta. intros h' _ (I' & U & C). split; [exact I'|]. split; [eexists; split; [exact C|]; cbn; auto|]. split; [split; [auto|]; intros b kb sb Hb Rb _; eapply isres_upd; eauto|]. intros n Hn. eapply upd_same; eauto.
Qed.
Lemma wp_dset X h e d kd ss k r : G X h e -> isres h d kd ss -> layout kd = [] -> via h e d -> ~ In d X -> incl X e -> fit_ref h kd k r ->
  wp (dset d k r) h (fun h' _ => G X h' e /\ isres h' d kd (put_slot k (Ptr r) ss) /\ ((find_slot k ss = None -> forall b kk s, b <> d -> isres h b kk s -> isres h' b kk s) /\ forall b kk s, b <> d -> isres h b kk s -> live h' b -> isres h' b kk s) /\
    forall n, n <= d -> same n h h').
Proof.
  intros I R Hl V Hx HX Hr. unfold dset.
  eapply wp_seq; [apply (wp_incref2 X h e r I)|].
  { intros a ->. destruct Hr as (t & Kt & _). eapply has_kind_live; eauto. }
  cbv beta. intros h1 _ (I1 & S1 & W1).
  destruct (via_same _ _ _ _ e _ _ _ I (incl_refl _) S1 I1 (ltac:(inc)) V) as (V1 & _).
  eapply wp_mono; [eapply (wp_dset_x X h1 e d kd ss k r I1 (W1 _ _ _ R) Hl V1 Hx HX)|].
  - eapply fit_same; [exact Hr|exact S1|]. intros b ->. eapply in_live; [exact I1|]. now left.
  - cbv beta. intros h2 _ (I2 & R2 & (U2 & U2') & S2). split; [exact I2|]. split; [exact R2|]. split; [split; [|intros b kk s Hb Rb Lb; apply U2'; auto]|].
    + intros F b kk s Hb Rb. eapply isres_upd; [apply W1; exact Rb|now apply U2|exact Hb].
    + intros n Hn. eapply same_trans; [|apply S2; exact Hn]. eapply same_weak; [|exact S1]. eapply Nat.le_trans; [exact Hn|]. apply Nat.lt_le_incl. eapply isres_lt; eauto.
Qed.

(** * Creation *)
Lemma wp_struct X h e k : G X h e -> layout k <> [] ->
  wp (struct k) h (fun h' n => n = length h /\ G (n :: X) h' (n :: e) /\ same (length h) h h' /\ isres h' n k (map (fun f => (f, Hole)) (layout k))).
Proof.
  intros I Hl. unfold struct. eapply wp_mono; [apply (wp_new X h e k _ I)|].
  - apply Forall_forall. intros x Hx. apply in_map_iff in Hx. now destruct Hx as (y & <- & _).
  - intros _. rewrite map_map. cbn. apply map_id.
  - destruct k; try discriminate. now destruct Hl.
  - cbv beta. intros h' n (-> & I' & _ & S & C). split; [reflexivity|]. split; [exact I'|]. split; [exact S|]. eexists. split; [exact C|]. auto.
Qed.
(** Writing a new object into a member that has no object. *)
Lemma wp_init2 X h e a k ss f kk v0 : G X h e -> isres h a k ss -> find_slot f ss = Some v0 -> sref v0 = [] -> fits k f kk -> layout kk = [] ->
  wp (init a f (new kk [])) h (fun h' _ => exists n, length h <= n /\ G X h' e /\ isres h' a k (put_slot f (Ptr (Some n)) ss) /\ (forall m, m <= a -> same m h h') /\
    isres h' n kk [] /\ forall b kb s, b <> a -> isres h b kb s -> isres h' b kb s).
Proof.
  intros I R F Hv Hf Hl. unfold init. eapply wp_seq; [apply (wp_new2 X h e kk I Hl)|].
  cbv beta. intros h1 n (-> & I1 & S1 & W1 & R1). pose proof (isres_lt _ _ _ _ R) as La.
  eapply wp_mono; [eapply (wp_set_member X h1 (length h :: e) e); [exact I1|apply W1; exact R|exact F| |]|].
  - intros x. rewrite Hv. cbn. destruct (Nat.eq_dec (length h) x); lia.
  - apply fit_slot. exists kk. split; [|exact Hf]. eapply isres_kind; eauto.
  - cbn [opened]. intros h2 _ (I2 & U2 & R2). exists (length h). split; [lia|]. split; [exact I2|]. split; [exact R2|]. split; [|split].
    + intros m Hm. eapply same_trans; [eapply same_weak; [|exact S1]; lia|]. eapply upd_same; eauto.
    + eapply isres_upd; [exact R1|exact U2|lia].
    + intros b kb s Hne Rb. eapply isres_upd; [apply W1; exact Rb|exact U2|exact Hne].
Qed.
Lemma wp_init X h e a k ss f kk v0 : G X h e -> isres h a k ss -> k <> KDict DObjs -> In a e -> find_slot f ss = Some v0 -> sref v0 = [] -> fits k f kk -> layout kk = [] ->
  wp (init a f (new kk [])) h (fun h' _ => exists n, length h <= n /\ G X h' e /\ isres h' a k (put_slot f (Ptr (Some n)) ss) /\ forall m, m <= a -> same m h h').
Proof.
  intros I R _ _ F Hv Hf Hl. eapply wp_mono; [eapply wp_init2; eauto|]. cbv beta. intros h' _ (n & A & B & C & D & _). exists n. auto.
Qed.
Lemma wp_null X h e a k ss f : G X h e -> isres h a k ss -> find_slot f ss = Some Hole -> nullable k f ->
  wp (set_member a f (Ptr None)) h (fun h' _ => G X h' e /\ isres h' a k (put_slot f (Ptr None) ss) /\ upd a h h').
Proof.
  intros I R F N. eapply wp_mono; [eapply (wp_set_member X h e e); [exact I|exact R|exact F|reflexivity|exact N]|]. cbn [opened]. intros h' _ (A & B & C). auto.
Qed.
Definition fresh_item (k : tag) (m : M addr) : Prop := forall h e, G [] h e ->
  wp m h (fun h' n => length h <= n /\ G [] h' (n :: e) /\ same (length h) h h' /\ has_kind h' n k).
Ltac solid := let H := fresh in intros H; vm_compute in H; repeat (destruct H as [H|H]; [discriminate|]); exact H.
Lemma new_pkg_ok : fresh_item KPkg new_pkg.
Proof.
  intros h e I. unfold new_pkg. eapply wp_seq; [apply (wp_struct [] h e KPkg I); discriminate|]. cbv beta. intros h1 n (-> & I1 & S1 & R1).
  do 4 (eapply wp_seq; [eapply wp_null; [eassumption|eassumption|reflexivity|exact Logic.I]|]; cbv beta; intros ? _ (? & ? & ?)).
  apply wp_ret. split; [lia|]. split; [eapply G_unhole; [eassumption|eassumption|solid]|]. split; [|eapply isres_kind; eassumption].
  eapply same_trans; [exact S1|]. do 3 (eapply same_trans; [eapply upd_same; [|eassumption]; lia|]). eapply upd_same; [|eassumption]. lia.
Qed.
Lemma new_gid_ok : fresh_item KGid new_gid.
Proof.
  intros h e I. unfold new_gid. eapply wp_seq; [apply (wp_struct [] h e KGid I); discriminate|]. cbv beta. intros h1 n (-> & I1 & S1 & R1).
  do 2 (eapply wp_seq; [eapply wp_null; [eassumption|eassumption|reflexivity|exact Logic.I]|]; cbv beta; intros ? _ (? & ? & ?)).
  apply wp_ret. split; [lia|]. split; [eapply G_unhole; [eassumption|eassumption|solid]|]. split; [|eapply isres_kind; eassumption].
  eapply same_trans; [exact S1|]. do 1 (eapply same_trans; [eapply upd_same; [|eassumption]; lia|]). eapply upd_same; [|eassumption]. lia.
Qed.
(** A new group, category or environment. *)
Definition rest (k : tag) : list str := match k with KGroup => [f_pkgs] | KCat => [f_gids] | KEnv => [f_groups; f_options] | _ => [] end.
Definition obj_tag (k : tag) : Prop := k = KGroup \/ k = KCat \/ k = KEnv.
Definition slots_of (k : tag) (p n d : slot) (ls : list addr) : list (str * slot) :=
  (f_props, p) :: (f_names, n) :: (f_descs, d) :: combine (rest k) (map (fun l => Ptr (Some l)) ls).
Definition fresh_obj (k : tag) (m : M addr) : Prop := forall h e, G [] h e ->
  wp m h (fun h' r => length h <= r /\ G [] h' (r :: e) /\ same (length h) h h' /\
    exists p n d ls, length ls = length (rest k) /\ Forall (fun x => length h <= x) (p :: n :: d :: ls) /\
      isres h' r k (slots_of k (Ptr (Some p)) (Ptr (Some n)) (Ptr (Some d)) ls) /\
      forall f l, In f (rest k) -> find_slot f (slots_of k (Ptr (Some p)) (Ptr (Some n)) (Ptr (Some d)) ls) = Some (Ptr (Some l)) -> isres h' l (KList (list_of f)) []).
Lemma common_ok k h e : obj_tag k -> G [] h e ->
  wp (new_common k) h (fun h' r => r = length h /\ G [r] h' (r :: e) /\ same (length h) h h' /\
    exists p n d, length h <= p /\ length h <= n /\ length h <= d /\
      isres h' r k ((f_props, Ptr (Some p)) :: (f_names, Ptr (Some n)) :: (f_descs, Ptr (Some d)) :: map (fun f => (f, Hole)) (rest k))).
Proof.
  intros Ht I. unfold new_common. eapply wp_seq; [apply (wp_struct [] h e k I)|]; [destruct Ht as [->|[->| ->]]; discriminate|].
  cbv beta. intros h1 r (-> & I1 & S1 & R1). pose proof (isres_lt _ _ _ _ R1).
  assert (Hd : k <> KDict DObjs) by (destruct Ht as [->|[->| ->]]; discriminate).
  eapply wp_seq; [eapply (wp_init _ h1 _ _ _ _ f_props (KDict DProp) Hole); [exact I1|exact R1|exact Hd|now left| |reflexivity| |reflexivity]|].
  { destruct Ht as [->|[->| ->]]; reflexivity. } { destruct Ht as [->|[->| ->]]; reflexivity. }
  cbv beta. intros h2 _ (p & Lp & I2 & R2 & S2). pose proof (isres_lt _ _ _ _ R2). pose proof (same_length _ _ _ (S2 0 ltac:(lia))).
  eapply wp_seq; [eapply (wp_init _ h2 _ _ _ _ f_names (KDict DLang) Hole); [exact I2|exact R2|exact Hd|now left| |reflexivity| |reflexivity]|].
  { destruct Ht as [->|[->| ->]]; reflexivity. } { destruct Ht as [->|[->| ->]]; reflexivity. }
  cbv beta. intros h3 _ (n & Ln & I3 & R3 & S3). pose proof (same_length _ _ _ (S3 0 ltac:(lia))).
  eapply wp_seq; [eapply (wp_init _ h3 _ _ _ _ f_descs (KDict DLang) Hole); [exact I3|exact R3|exact Hd|now left| |reflexivity| |reflexivity]|].
  { destruct Ht as [->|[->| ->]]; reflexivity. } { destruct Ht as [->|[->| ->]]; reflexivity. }
  cbv beta. intros h4 _ (d & Ld & I4 & R4 & S4). apply wp_ret. split; [reflexivity|]. split; [exact I4|]. split.
  - eapply same_trans; [exact S1|]. eapply same_trans; [apply S2; lia|]. eapply same_trans; [apply S3; lia|]. apply S4; lia.
  - exists p, n, d. split; [lia|]. split; [lia|]. split; [lia|]. destruct Ht as [->|[->| ->]]; exact R4.
Qed.
Lemma new_group_ok : fresh_obj KGroup new_group.
Proof.
  intros h e I. unfold new_group. eapply wp_seq; [apply (common_ok KGroup h e); [now left|exact I]|]. cbv beta. intros h1 r (-> & I1 & S1 & p & n & d & Lp & Ln & Ld & R1).
  pose proof (isres_lt _ _ _ _ R1). eapply wp_seq; [eapply (wp_init2 _ h1 _ _ _ _ f_pkgs (KList LPkg)); [exact I1|exact R1|reflexivity|reflexivity|reflexivity|reflexivity]|].
  cbv beta. intros h2 _ (l & Ll & I2 & R2 & S2 & Q2 & W2). apply wp_ret. split; [lia|]. split; [eapply G_unhole; [exact I2|exact R2|solid]|].
  split; [eapply same_trans; [exact S1|apply S2; lia]|]. exists p, n, d, [l]. split; [reflexivity|]. split; [repeat constructor; lia|]. split; [exact R2|]. intros f x [<-|[]] Hx. injection Hx as <-. exact Q2.
Qed.
Lemma new_cat_ok : fresh_obj KCat new_cat.
Proof.
  intros h e I. unfold new_cat. eapply wp_seq; [apply (common_ok KCat h e); [right; now left|exact I]|]. cbv beta. intros h1 r (-> & I1 & S1 & p & n & d & Lp & Ln & Ld & R1).
  pose proof (isres_lt _ _ _ _ R1). eapply wp_seq; [eapply (wp_init2 _ h1 _ _ _ _ f_gids (KList LGid)); [exact I1|exact R1|reflexivity|reflexivity|reflexivity|reflexivity]|].
  cbv beta. intros h2 _ (l & Ll & I2 & R2 & S2 & Q2 & W2). apply wp_ret. split; [lia|]. split; [eapply G_unhole; [exact I2|exact R2|solid]|].
  split; [eapply same_trans; [exact S1|apply S2; lia]|]. exists p, n, d, [l]. split; [reflexivity|]. split; [repeat constructor; lia|]. split; [exact R2|]. intros f x [<-|[]] Hx. injection Hx as <-. exact Q2.
Qed.
Lemma new_env_ok : fresh_obj KEnv new_env.
Proof.
  intros h e I. unfold new_env. eapply wp_seq; [apply (common_ok KEnv h e); [right; now right|exact I]|]. cbv beta. intros h1 r (-> & I1 & S1 & p & n & d & Lp & Ln & Ld & R1).
  pose proof (isres_lt _ _ _ _ R1). eapply wp_seq; [eapply (wp_init2 _ h1 _ _ _ _ f_groups (KList LGid)); [exact I1|exact R1|reflexivity|reflexivity|reflexivity|reflexivity]|].
  cbv beta. intros h2 _ (l & Ll & I2 & R2 & S2 & Q2 & W2). pose proof (same_length _ _ _ (S2 0 ltac:(lia))).
  eapply wp_seq; [eapply (wp_init2 _ h2 _ _ _ _ f_options (KList LGid)); [exact I2|exact R2|reflexivity|reflexivity|reflexivity|reflexivity]|].
  cbv beta. intros h3 _ (l2 & Ll2 & I3 & R3 & S3 & Q3 & W3). apply wp_ret. split; [lia|]. split; [eapply G_unhole; [exact I3|exact R3|solid]|].
  split; [eapply same_trans; [exact S1|]; eapply same_trans; [apply S2; lia|apply S3; lia]|]. exists p, n, d, [l; l2]. split; [reflexivity|]. split; [repeat constructor; lia|]. split; [exact R3|]. intros f x [<-|[<-|[]]] Hx; injection Hx as <-; [apply W3; [lia|exact Q2]|exact Q3].
Qed.
