(** Facts about the memory of the document objects: unions of two objects, the rest. *)
From Verif Require Import CStr CStrFacts ObjMemModel ObjMemFacts1 ObjMemFacts2 ObjMemFacts3 ObjMemFacts4 ObjMemFacts5 ObjMemFacts6 ObjMemFacts7 ObjMemFacts8.

(** The items of an object. *)
Definition holds (h : mem) (g : addr) (f : str) (xs : list addr) : Prop :=
  exists k ss l, isres h g k ss /\ find_slot f ss = Some (Ptr (Some l)) /\ isl h l (list_of f) (map Some xs).
Lemma isres_fun h a k k' ss ss' : isres h a k ss -> isres h a k' ss' -> k = k' /\ ss = ss'.
Proof. intros (c & H & K & E) (c' & H' & K' & E'). assert (c' = c) by congruence. subst c'. split; congruence. Qed.
Lemma rest_layout k f : obj_tag k -> In f (rest k) -> In f (layout k).
Proof. intros Ht Hf. rewrite obj_layout by exact Ht. right; right; now right. Qed.
Lemma obj_list X h e e1 g k f : G X h e -> own h e1 g k -> ~ In g X -> obj_tag k -> In f (rest k) -> (forall l, has_kind h l (KList (list_of f)) -> ~ In l X) ->
  exists ss l xs, isres h g k ss /\ find_slot f ss = Some (Ptr (Some l)) /\ isl h l (list_of f) (map Some xs) /\ own h e1 l (KList (list_of f)) /\ Forall (fun x => own h e1 x (elem_kind (list_of f))) xs.
Proof.
  intros I O Hx Ht Hf HX. destruct (field _ _ _ _ _ _ f I O Hx (rest_layout _ _ Ht Hf)) as (ss & r & R & F & _ & Fr & V).
  destruct r as [l|]; [|now apply obj_not_null in Fr]. destruct Fr as (t & Kt & Ft). apply (fits_rest _ _ _ Ht Hf) in Ft. subst t.
  assert (Ol : own h e1 l (KList (list_of f))) by (split; [now apply V|exact Kt]).
  destruct (list_items X h e e1 l (list_of f) I Ol (HX _ Kt) (list_of_not_str f)) as (sl & xs & R' & E & Ox). exists ss, l, xs. repeat (split; auto). exists sl. auto.
Qed.

Section Base.
Variable oracle : mem -> addr -> addr -> bool.
Variable h0 : mem.
Variable e0 : list addr.
Lemma base_isl X h e l et xs : ok X h0 e0 h e -> own h0 e0 l (KList et) -> isl h0 l et xs -> isl h l et xs.
Proof. intros O Ol (sl & R & E). exists sl. split; [|exact E]. eapply base_isres; eauto. discriminate. Qed.
Section Two.
Variable res : addr.
Variable k : tag.
Variable ss : list (str * slot).
Variable e : list addr.
Hypothesis Hk : obj_tag k.
Hypothesis He : incl e0 e.
Lemma two_lists f g1 g2 l xs1 ss1 l1 xs2 ss2 l2 h rs0 (P : Prop) (first : list ref -> M (list addr)) e2 : In f (rest k) -> find_slot f ss = Some (Ptr (Some l)) ->
  isres h0 g1 k ss1 -> own h0 e0 g1 k -> find_slot f ss1 = Some (Ptr (Some l1)) -> isl h0 l1 (list_of f) (map Some xs1) -> own h0 e0 l1 (KList (list_of f)) ->
  isres h0 g2 k ss2 -> own h0 e0 g2 k -> find_slot f ss2 = Some (Ptr (Some l2)) -> isl h0 l2 (list_of f) (map Some xs2) -> own h0 e0 l2 (KList (list_of f)) -> Forall (fun x => own h0 e0 x (elem_kind (list_of f))) xs2 ->
  ok [] h0 e0 h (res :: e) -> built h0 h res k ss -> isl h l (list_of f) rs0 -> (P -> NoDup (map (key tname h0) xs2)) ->
  (forall h', first_inv h0 e0 res k ss f l e P [] [] h' -> wp (first (map Some xs1)) h' (fun h2 s => first_inv h0 e0 res k ss f l e P xs1 s h2)) ->
  wp (do l1 <- member g1 f; do i1 <- items_if l1; do s <- first i1;
      do l2 <- member g2 f; do i2 <- items_if l2; union_second oracle res f e2 s i2 ;;; set_destroy s) h
    (fun h' _ => exists lost, ok [] h0 e0 h' (lost ++ res :: e) /\ built h0 h' res k ss /\ (P -> lost = [])).
Proof.
  intros Hf Hl R1 O1 F1 L1 Ol1 R2 O2 F2 L2 Ol2 Ox2 O B L0 HP Hfirst. pose proof (obj_not_objs k Hk) as Nk.
  apply wp_bind. eapply wp_member; [eapply base_isres; [exact O|exact O1|exact Nk|exact R1]|exact F1|]. cbn [items_if].
  apply wp_bind. eapply wp_isl_items; [eapply base_isl; [exact O|exact Ol1|exact L1]|].
  eapply wp_seq; [apply Hfirst|].
  { exists [], [], rs0. split; [|split; [|split]]; auto; try (intros x []). constructor; auto. intros x [<-|[]]. now left. }
  cbv beta. intros h1 s (lost & vs & rs & M1 & Iv & Is & Hl1). pose proof (m_ok _ _ _ _ _ _ _ _ _ _ _ _ M1) as Om.
  apply wp_bind. eapply wp_member; [eapply base_isres; [exact Om|exact O2|exact Nk|exact R2]|exact F2|]. cbn [items_if].
  apply wp_bind. eapply wp_isl_items; [eapply base_isl; [exact Om|exact Ol2|exact L2]|].
  unfold union_second. eapply wp_seq; [eapply (wp_each_list _ xs2 (second_inv h0 e0 res k ss f l e P s vs))|].
  - intros pre x post u h' Ex Hi. eapply second_step; eauto. rewrite Forall_forall in Ox2. apply Ox2. rewrite Ex. apply in_or_app. right. now left.
  - exists lost, rs. split; [exact M1|]. intros HPP. split; [auto|]. intros y Hy _. apply Is. now apply in_map.
  - cbv beta. intros h2 _ (lost2 & rs2 & M2 & Hl2).
    assert (M2' : mid h0 e0 res k ss f l h2 (s ++ lost2 ++ res :: e) [] [] rs2) by (eapply mid_sub; [exact M2|intros x []|reflexivity|reflexivity]).
    eapply wp_mono; [eapply (set_destroy_ok oracle h0 e0 res k ss f l e Hk Hl He s h2 rs2 lost2 M2')|]. cbv beta. intros h3 _ M3. exists lost2. split; [apply (m_ok _ _ _ _ _ _ _ _ _ _ _ _ M3)|]. split; [apply (m_res _ _ _ _ _ _ _ _ _ _ _ _ M3)|].
    intros HPP. now apply Hl2.
Qed.
Definition distinct (h : mem) (g : addr) (f : str) : Prop := forall xs, holds h g f xs -> NoDup (map (key tname h) xs).
Lemma new_list_of h : ok [] h0 e0 h (res :: e) -> built h0 h res k ss -> forall f, In f (rest k) -> exists l xs, find_slot f ss = Some (Ptr (Some l)) /\ isl h l (list_of f) (map Some xs).
Proof.
  intros O B f Hf. assert (Or : own h (res :: e) res k) by (apply own_in; [now left|eapply isres_kind; apply (b_res _ _ _ _ _ B)]).
  destruct (obj_list [] h _ _ res k f (ok_g _ _ _ _ _ O) Or (fun x => x) Hk Hf (fun _ _ x => x)) as (ss' & l & xs & R & F & L & _).
  destruct (isres_fun _ _ _ _ _ _ R (b_res _ _ _ _ _ B)) as (_ & <-). eauto.
Qed.
Lemma union_lists_ok f g1 g2 h e2 : In f (rest k) -> own h0 e0 g1 k -> own h0 e0 g2 k -> ok [] h0 e0 h (res :: e) -> built h0 h res k ss ->
  wp (union_lists oracle res g1 g2 f e2) h (fun h' _ => exists lost, ok [] h0 e0 h' (lost ++ res :: e) /\ built h0 h' res k ss /\ (distinct h0 g1 f /\ distinct h0 g2 f -> lost = [])).
Proof.
  intros Hf O1 O2 O B. destruct (new_list_of h O B f Hf) as (l & xs & Hl & L0).
  destruct (obj_list [] h0 e0 e0 g1 k f (ok_g0 _ _ _ _ _ O) O1 (fun x => x) Hk Hf (fun _ _ x => x)) as (ss1 & l1 & xs1 & R1 & F1 & L1 & Ol1 & Ox1).
  destruct (obj_list [] h0 e0 e0 g2 k f (ok_g0 _ _ _ _ _ O) O2 (fun x => x) Hk Hf (fun _ _ x => x)) as (ss2 & l2 & xs2 & R2 & F2 & L2 & Ol2 & Ox2).
  unfold union_lists. eapply (two_lists f g1 g2 l xs1 ss1 l1 xs2 ss2 l2 h _ (distinct h0 g1 f /\ distinct h0 g2 f)); eauto.
  - intros (_ & D). apply D. exists k, ss2, l2. auto.
  - intros h' Hi. unfold union_first. eapply (wp_each_list _ xs1); [|exact Hi]. intros pre x post s h2 Ex Hi2. cbv beta. eapply first_step; eauto.
    + intros (D & _). apply D. exists k, ss1, l1. auto.
    + rewrite Forall_forall in Ox1. apply Ox1. rewrite Ex. apply in_or_app. right. now left.
Qed.
Lemma union_options_ok g1 g2 h : k = KEnv -> own h0 e0 g1 k -> own h0 e0 g2 k -> ok [] h0 e0 h (res :: e) -> built h0 h res k ss ->
  wp (do l1 <- member g1 f_options; do i1 <- items_if l1; do s <- union_options oracle res i1;
      do l2 <- member g2 f_options; do i2 <- items_if l2; union_second oracle res f_options LGid s i2 ;;; set_destroy s) h
   (fun h' _ => exists lost, ok [] h0 e0 h' (lost ++ res :: e) /\ built h0 h' res k ss /\ (distinct h0 g2 f_options -> lost = [])).
Proof.
  intros Ek O1 O2 O B. assert (Hf : In f_options (rest k)) by (rewrite Ek; right; now left). destruct (new_list_of h O B f_options Hf) as (l & xs & Hl & L0).
  destruct (obj_list [] h0 e0 e0 g1 k f_options (ok_g0 _ _ _ _ _ O) O1 (fun x => x) Hk Hf (fun _ _ x => x)) as (ss1 & l1 & xs1 & R1 & F1 & L1 & Ol1 & Ox1).
  destruct (obj_list [] h0 e0 e0 g2 k f_options (ok_g0 _ _ _ _ _ O) O2 (fun x => x) Hk Hf (fun _ _ x => x)) as (ss2 & l2 & xs2 & R2 & F2 & L2 & Ol2 & Ox2).
  eapply (two_lists f_options g1 g2 l xs1 ss1 l1 xs2 ss2 l2 h _ (distinct h0 g2 f_options)); eauto.
  - intros D. apply D. exists k, ss2, l2. auto.
  - intros h' Hi. unfold union_options. eapply (wp_each_list _ xs1); [|exact Hi]. intros pre x post s h2 Ex Hi2. cbv beta. eapply options_step; eauto.
    rewrite Forall_forall in Ox1. apply Ox1. rewrite Ex. apply in_or_app. right. now left.
Qed.
End Two.

(** * Dictionaries *)
Lemma pairs_list X h e d D : G X h e -> has_kind h d (KDict D) -> ~ In d X ->
  exists sd ps, isres h d (KDict D) sd /\ pairs_of sd = Some ps /\ forall f b, In (f, b) ps -> In (f, Ptr (Some b)) sd.
Proof.
  intros I K Hx. destruct (has_kind_res _ _ _ K) as (sd & R). pose proof (isres_solid _ _ _ _ _ _ I R Hx) as Hs. exists sd.
  assert (Q : exists ps, pairs_of sd = Some ps /\ forall f b, In (f, b) ps -> In (f, Ptr (Some b)) sd).
  { clear R. induction sd as [|(f, v) sd IH]; [exists []; split; [reflexivity|intros ? ? []]|]. destruct IH as (ps & E & H); [intros D'; apply Hs; now right|].
    cbn [pairs_of]. rewrite E. destruct v as [|[b|]]; [exfalso; apply Hs; now left| |].
    - exists ((f, b) :: ps). split; [reflexivity|]. intros f' b' [Eb|Hb]; [injection Eb as <- <-; now left|right; auto].
    - exists ps. split; [reflexivity|]. intros f' b' Hb. right. auto. }
  destruct Q as (ps & E & H). eauto.
Qed.
Lemma wp_pairs h d k sd ps (Q : mem -> list (str * addr) -> Prop) : isres h d k sd -> pairs_of sd = Some ps -> Q h ps -> wp (pairs d) h Q.
Proof. intros (c & H & K & E) Ep HQ. unfold pairs. apply wp_bind. eapply wp_look; [exact H|]. rewrite E, Ep. now apply wp_ret. Qed.
Lemma base_pairs D d : G [] h0 e0 -> own h0 e0 d (KDict D) -> exists sd ps, isres h0 d (KDict D) sd /\ pairs_of sd = Some ps /\
  Forall (fun p => exists t, own h0 e0 (snd p) t /\ fits (KDict D) (fst p) t) ps.
Proof.
  intros I O. destruct (pairs_list [] h0 e0 d D I (proj2 O) (fun x => x)) as (sd & ps & R & E & H). exists sd, ps. split; [exact R|]. split; [exact E|].
  apply Forall_forall. intros (f, b) Hb. cbn. apply H in Hb. destruct (isres_fits _ _ _ _ _ _ _ _ I R Hb) as (t & Kt & Ft). exists t. split; [|exact Ft]. split; [|exact Kt]. eapply isres_via; [exact R|apply O|exact Hb].
Qed.
Lemma dict_union_ok X h e D d1 d2 : ok X h0 e0 h e -> incl X e -> D <> DObjs -> own h0 e0 d1 (KDict D) -> own h0 e0 d2 (KDict D) ->
  wp (dict_union d1 d2) h (fun h' r => length h <= r /\ G X h' (r :: e) /\ same (length h) h h' /\ has_kind h' r (KDict D)).
Proof.
  intros O HX HD O1 O2. assert (P : plain (KDict D) = true) by (destruct D; congruence || reflexivity).
  destruct (rb_room h0 e0 d1 _ (ok_g0 _ _ _ _ _ O) (proj2 O1) P) as (t & Et & Er). pose proof (ok_g _ _ _ _ _ O) as I.
  assert (Et' : rb room h d1 = Some t) by (eapply ok_rb; [exact O|apply incl_refl|apply O1|exact Et]).
  assert (V : via h e d1) by (eapply via_mono; [apply (ok_inc _ _ _ _ _ O)|]; eapply ok_via; [exact O|apply incl_refl|apply O1]).
  unfold dict_union. eapply wp_seq; [eapply (wp_copy_obj X h e d1 t I V Et')|]. cbv beta. intros h1 r (Lr & I1 & S1 & _ & K1). rewrite Er in K1.
  assert (Oh1 : ok X h0 e0 h1 (r :: e)) by (eapply ok_step; [exact O|exact S1|apply (ok_len _ _ _ _ _ O)|exact I1|intros x Hx; right; now apply (ok_inc _ _ _ _ _ O)]).
  destruct (base_pairs D d2 (ok_g0 _ _ _ _ _ O) O2) as (sd & ps & R2 & Ep & Hps).
  apply wp_bind. eapply wp_pairs; [eapply base_isres; [exact Oh1|exact O2|congruence|exact R2]|exact Ep|].
  assert (Hr : ~ In r X) by (intros D'; apply HX in D'; apply (in_live _ _ _ _ I) in D'; apply live_lt in D'; lia).
  eapply wp_seq; [eapply (wp_forM _ (fun hh => G X hh (r :: e) /\ same (length h) h hh /\ has_kind hh r (KDict D)) (fun p => exists t, own h0 e0 (snd p) t /\ fits (KDict D) (fst p) t))|].
  - intros hh (f, b) (Ih & Sh & Kh) (tb & Ob & Fb). cbn [fst snd] in *. destruct (has_kind_res _ _ _ Kh) as (sr & Rr).
    assert (Ohh : ok X h0 e0 hh (r :: e)) by (eapply ok_step; [exact O|exact Sh|apply (ok_len _ _ _ _ _ O)|exact Ih|intros x Hx; right; now apply (ok_inc _ _ _ _ _ O)]).
    eapply wp_mono; [eapply (wp_dset X hh (r :: e) r (KDict D) sr f (Some b) Ih Rr eq_refl (via_in hh (r :: e) r (in_eq r e)) Hr)|].
    + intros x Hx. right. auto.
    + exists tb. split; [|exact Fb]. apply (ok_own _ _ _ _ _ _ _ _ Ohh (incl_refl _) Ob).
    + cbv beta. intros h3 _ (I3 & R3 & _ & S3). split; [exact I3|]. split; [|eapply isres_kind; eauto]. eapply same_trans; [exact Sh|]. apply S3. exact Lr.
  - auto.
  - exact Hps.
  - cbv beta. intros h2 _ (I2 & S2 & K2). apply wp_ret. auto.
Qed.
Lemma base_field a k f D : G [] h0 e0 -> own h0 e0 a k -> obj_tag k -> In f (layout k) -> (forall t, fits k f t -> t = KDict D) ->
  exists sa d, isres h0 a k sa /\ find_slot f sa = Some (Ptr (Some d)) /\ own h0 e0 d (KDict D).
Proof.
  intros I O Ht Hf HD. destruct (field _ _ _ _ _ _ f I O (fun x => x) Hf) as (sa & r & R & F & _ & Fr & V). destruct r as [d|]; [|now apply obj_not_null in Fr].
  destruct Fr as (t & Kt & Ft). apply HD in Ft. subst t. exists sa, d. split; [exact R|]. split; [exact F|]. split; [now apply V|exact Kt].
Qed.
(** A result with unusable members: [ok] with [X = [res]]. *)
Lemma built_put h h' r k ss f n : built h0 h r k ss -> isres h' r k (put_slot f (Ptr (Some n)) ss) -> length h0 <= n -> built h0 h' r k (put_slot f (Ptr (Some n)) ss).
Proof.
  intros [A B C] R Hn. constructor; auto. intros g b Hb. assert (Q : Forall (fun fv => forall b, snd fv = Ptr (Some b) -> length h0 <= b) (put_slot f (Ptr (Some n)) ss)).
  { apply put_forall; [apply Forall_forall; intros (g', v) Hg b' Hb'; cbn in Hb'; subst v; eauto|]. cbn. intros b' Hb'. now injection Hb' as <-. }
  rewrite Forall_forall in Q. exact (Q _ Hb b eq_refl).
Qed.
Lemma built_hole h h' r k ss f : built h0 h r k ss -> isres h' r k (put_slot f Hole ss) -> built h0 h' r k (put_slot f Hole ss).
Proof.
  intros [A B C] R. constructor; auto. intros g b Hb. assert (Q : Forall (fun fv => forall b, snd fv = Ptr (Some b) -> length h0 <= b) (put_slot f Hole ss)).
  { apply put_forall; [apply Forall_forall; intros (g', v) Hg b' Hb'; cbn in Hb'; subst v; eauto|]. discriminate. }
  rewrite Forall_forall in Q. exact (Q _ Hb b eq_refl).
Qed.
Lemma drop_built h e r k ss f r0 : ok [r] h0 e0 h e -> In r e -> built h0 h r k ss -> find_slot f ss = Some (Ptr r0) ->
  wp (drop_member r f) h (fun h' _ => ok [r] h0 e0 h' e /\ built h0 h' r k (put_slot f Hole ss)).
Proof.
  intros O Hr B F. eapply wp_mono; [eapply (wp_drop [r] h e r k ss f r0 (ok_g _ _ _ _ _ O) (b_res _ _ _ _ _ B) F (via_in _ _ _ Hr))|].
  - intros x [<-|[]] _. now right.
  - right. intros x [<-|[]]. exact Hr.
  - cbv beta. intros h' _ (I' & R' & S'). split; [|eapply built_hole; eauto]. eapply ok_step; [exact O|apply S', (b_new _ _ _ _ _ B)|apply Nat.le_refl| |apply (ok_inc _ _ _ _ _ O)].
    eapply G_more; [|exact I']. intros x Hx. destruct Hx as [<-|Hx]; [now left|exact Hx].
Qed.
Lemma union_props_ok h e r k ss f D g1 g2 : ok [r] h0 e0 h e -> In r e -> built h0 h r k ss -> find_slot f ss = Some Hole -> obj_tag k -> In f (layout k) ->
  D <> DObjs -> (forall t, fits k f t <-> t = KDict D) -> own h0 e0 g1 k -> own h0 e0 g2 k ->
  wp (union_props r g1 g2 f) h (fun h' _ => exists n, ok [r] h0 e0 h' e /\ built h0 h' r k (put_slot f (Ptr (Some n)) ss)).
Proof.
  intros O Hr B F Ht Hf HD Hfit O1 O2.
  destruct (base_field g1 k f D (ok_g0 _ _ _ _ _ O) O1 Ht Hf (fun t => proj1 (Hfit t))) as (s1 & d1 & R1 & F1 & Od1).
  destruct (base_field g2 k f D (ok_g0 _ _ _ _ _ O) O2 Ht Hf (fun t => proj1 (Hfit t))) as (s2 & d2 & R2 & F2 & Od2).
  pose proof (obj_not_objs k Ht) as Nk. unfold union_props.
  apply wp_bind. eapply wp_member; [eapply base_isres; [exact O|exact O1|exact Nk|exact R1]|exact F1|]. cbn [follow]. apply wp_bind, wp_ret.
  apply wp_bind. eapply wp_member; [eapply base_isres; [exact O|exact O2|exact Nk|exact R2]|exact F2|]. cbn [follow]. apply wp_bind, wp_ret.
  unfold init. eapply wp_seq; [eapply (dict_union_ok [r] h e D d1 d2 O)|]; [intros x [<-|[]]; exact Hr|exact HD|exact Od1|exact Od2|]. cbv beta. intros h1 n (Ln & I1 & S1 & K1).
  pose proof (isres_lt _ _ _ _ (b_res _ _ _ _ _ B)) as Lr. pose proof (ok_len _ _ _ _ _ O) as L0.
  assert (B1 : built h0 h1 r k ss) by (eapply built_same; [exact B|exact Nk|exact S1|exact Lr|eapply in_live; [exact I1|now right]]).
  eapply wp_mono; [eapply (wp_set_member [r] h1 (n :: e) e r k ss f (Ptr (Some n)) Hole I1 (b_res _ _ _ _ _ B1) F)|].
  - intros x. cbn [sref count_occ]. destruct (Nat.eq_dec n x); lia.
  - apply fit_slot. exists (KDict D). split; [exact K1|]. now apply Hfit.
  - cbn [opened]. intros h2 _ (I2 & U2 & R2'). exists n. split; [|eapply built_put; [exact B1|exact R2'|lia]].
    eapply ok_step; [exact O| |apply Nat.le_refl|exact I2|apply (ok_inc _ _ _ _ _ O)]. eapply same_trans; [eapply same_weak; [exact L0|exact S1]|]. eapply upd_same; [apply (b_new _ _ _ _ _ B)|exact U2].
Qed.
Lemma obj_slots X h e r k ss : G X h e -> isres h r k ss -> obj_tag k -> exists p n d tl, ss = (f_props, p) :: (f_names, n) :: (f_descs, d) :: tl /\ map fst tl = rest k.
Proof.
  intros I R Ht. destruct (isres_shape _ _ _ _ _ _ I R) as [S1 _]. rewrite obj_layout in S1 by exact Ht. specialize (S1 ltac:(discriminate)).
  destruct ss as [|(f1, p) [|(f2, n) [|(f3, d) tl]]]; try discriminate. cbn in S1. injection S1 as -> -> -> E. exists p, n, d, tl. auto.
Qed.
Lemma hold_open X h e r k ss f : ok X h0 e0 h e -> built h0 h r k ss -> ~ In r X -> obj_tag k -> In f (layout k) -> exists r0, find_slot f ss = Some (Ptr r0).
Proof.
  intros O B Hx Ht Hf. destruct (isres_shape _ _ _ _ _ _ (ok_g _ _ _ _ _ O) (b_res _ _ _ _ _ B)) as [S1 _]. rewrite obj_layout in * by exact Ht. specialize (S1 ltac:(discriminate)). rewrite <- S1 in Hf.
  destruct (find_some _ _ Hf) as ([|r0] & F); [|eauto]. exfalso. apply (isres_solid _ _ _ _ _ _ (ok_g _ _ _ _ _ O) (b_res _ _ _ _ _ B) Hx). apply in_map_iff. exists (f, Hole). split; [reflexivity|]. now apply find_in.
Qed.
Lemma ok_more X X' h e : incl X X' -> ok X h0 e0 h e -> ok X' h0 e0 h e.
Proof. intros Hi [A B C D]. constructor; auto. eapply G_more; eauto. Qed.
Lemma ok_unhole h e r k ss : ok [r] h0 e0 h e -> built h0 h r k ss -> ~ In Hole (map snd ss) -> ok [] h0 e0 h e.
Proof. intros [A B C D] Br Hs. constructor; auto. eapply G_unhole; [exact B|apply (b_res _ _ _ _ _ Br)|exact Hs]. Qed.
Lemma fits_dict k : obj_tag k -> (forall t, fits k f_props t <-> t = KDict DProp) /\ (forall t, fits k f_names t <-> t = KDict DLang) /\ (forall t, fits k f_descs t <-> t = KDict DLang).
Proof. intros [->|[->| ->]]; (split; [|split]); intros t; split; intros H; exact H. Qed.
Lemma union_props_stage h e r k ss g1 g2 : ok [] h0 e0 h e -> In r e -> built h0 h r k ss -> obj_tag k -> own h0 e0 g1 k -> own h0 e0 g2 k ->
  wp (drop_member r f_props ;;; union_props r g1 g2 f_props) h (fun h' _ => exists ss', ok [] h0 e0 h' e /\ built h0 h' r k ss').
Proof.
  intros O Hr B Ht O1 O2. pose proof (isres_solid _ _ _ _ _ _ (ok_g _ _ _ _ _ O) (b_res _ _ _ _ _ B) (fun x => x)) as Hs.
  assert (Hl : In f_props (layout k)) by (rewrite obj_layout by exact Ht; now left). destruct (hold_open [] h e r k ss f_props O B (fun x => x) Ht Hl) as (r0 & F).
  eapply wp_seq; [eapply (drop_built h e r k ss f_props r0); [eapply ok_more; [|exact O]; intros x []|exact Hr|exact B|exact F]|]. cbv beta. intros h1 _ (O' & B').
  eapply wp_mono; [eapply (union_props_ok h1 e r k _ f_props DProp g1 g2 O' Hr B'); [eapply find_put; eauto|exact Ht|exact Hl|discriminate|apply (fits_dict k Ht)|exact O1|exact O2]|].
  cbv beta. intros h2 _ (n & O3 & B3). rewrite put_put in B3. exists (put_slot f_props (Ptr (Some n)) ss). split; [|exact B3]. eapply ok_unhole; [exact O3|exact B3|]. intros D. apply Hs. eapply put_hole; eauto.
Qed.
Lemma union_langs_ok h e r k ss g1 g2 : ok [] h0 e0 h e -> In r e -> built h0 h r k ss -> obj_tag k -> own h0 e0 g1 k -> own h0 e0 g2 k ->
  wp (union_langs r g1 g2) h (fun h' _ => exists ss', ok [] h0 e0 h' e /\ built h0 h' r k ss').
Proof.
  intros O Hr B Ht O1 O2. pose proof (isres_solid _ _ _ _ _ _ (ok_g _ _ _ _ _ O) (b_res _ _ _ _ _ B) (fun x => x)) as Hs.
  destruct (obj_slots _ _ _ _ _ _ (ok_g _ _ _ _ _ O) (b_res _ _ _ _ _ B) Ht) as (p & n & d & tl & Ess & _).
  assert (Hln : In f_names (layout k)) by (rewrite obj_layout by exact Ht; right; now left). assert (Hld : In f_descs (layout k)) by (rewrite obj_layout by exact Ht; right; right; now left).
  destruct (hold_open [] h e r k ss f_names O B (fun x => x) Ht Hln) as (rn & Fn). destruct (hold_open [] h e r k ss f_descs O B (fun x => x) Ht Hld) as (rd & Fd).
  assert (Fd' : find_slot f_descs (put_slot f_names Hole ss) = Some (Ptr rd)) by (rewrite <- Fd, Ess; reflexivity).
  unfold union_langs.
  eapply wp_seq; [eapply (drop_built h e r k ss f_names rn); [eapply ok_more; [|exact O]; intros x []|exact Hr|exact B|exact Fn]|]. cbv beta. intros h1 _ (Oh1 & B1).
  eapply wp_seq; [eapply (drop_built h1 e r k _ f_descs rd Oh1 Hr B1 Fd')|]. cbv beta. intros h2 _ (Oh2 & B2).
  destruct (fits_dict k Ht) as (_ & Hfn & Hfd).
  eapply wp_seq; [eapply (union_props_ok h2 e r k _ f_names DLang g1 g2 Oh2 Hr B2); [rewrite Ess; reflexivity|exact Ht|exact Hln|discriminate|exact Hfn|exact O1|exact O2]|]. cbv beta. intros h3 _ (n1 & Oh3 & B3).
  eapply wp_mono; [eapply (union_props_ok h3 e r k _ f_descs DLang g1 g2 Oh3 Hr B3); [rewrite Ess; reflexivity|exact Ht|exact Hld|discriminate|exact Hfd|exact O1|exact O2]|]. cbv beta. intros h4 _ (n2 & Oh4 & B4).
  eexists. split; [|exact B4]. eapply ok_unhole; [exact Oh4|exact B4|]. rewrite Ess in Hs |- *. intros D. apply Hs. clear - D.
  change (In Hole (map snd ((f_props, p) :: (f_names, Ptr (Some n1)) :: (f_descs, Ptr (Some n2)) :: tl))) in D. cbn in *. destruct D as [D|[D|[D|D]]]; try discriminate; auto.
Qed.
End Base.
