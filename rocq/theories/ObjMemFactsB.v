(** Facts about the memory of the document objects: unions, intersections, filters and
    queries of documents. *)
From Verif Require Import CStr CStrFacts ObjMemModel ObjMemFacts1 ObjMemFacts2 ObjMemFacts3 ObjMemFacts4 ObjMemFacts5 ObjMemFacts6 ObjMemFacts7 ObjMemFacts8 ObjMemFacts9 ObjMemFactsA.

(** * Memory whose lists of documents only grow *)
Definition upper (k : tag) : bool := match k with KDict DObjs | KList LGroup | KList LCat | KList LEnv => true | _ => false end.
Definition grown (c c' : cell) : Prop := slots c' = slots c \/ upper (kind c) = true /\ exists more, slots c' = slots c ++ more.
Definition grows (h h' : mem) : Prop := length h <= length h' /\ forall a, a < length h ->
  nth_error h' a = Some None \/ exists c c', cell_at h a c /\ cell_at h' a c' /\ kind c' = kind c /\ grown c c'.
Lemma grows_same h h' : same (length h) h h' -> grows h h'.
Proof.
  intros [L S]. split; [exact L|]. intros a Ha. destruct (S a Ha) as [E|(c & c' & H & H' & K & P)]; [now left|]. right. exists c, c'. split; [exact H|]. split; [exact H'|]. split; [exact K|].
  destruct (P Ha) as [E|(D & more & E & _)]; [now left|]. right. rewrite D. eauto.
Qed.
Lemma grows_id h : grows h h.
Proof. apply grows_same, same_id. Qed.
Lemma grows_trans h h1 h2 : grows h h1 -> grows h1 h2 -> grows h h2.
Proof.
  intros [L S] [L' S']. split; [lia|]. intros a Ha. destruct (S' a ltac:(lia)) as [E|(c1 & c2 & H1 & H2 & K2 & P2)]; [now left|]. right.
  destruct (S a Ha) as [E|(c & c1' & H & H1' & K & P)]; [congruence|]. assert (c1' = c1) by (congruence). subst c1'. exists c, c2.
  split; [exact H|]. split; [exact H2|]. split; [congruence|]. destruct P as [E|(U & m1 & E)], P2 as [E2|(U2 & m2 & E2)].
  - left. congruence.
  - right. split; [congruence|]. exists m2. congruence.
  - right. split; [congruence|]. exists m1. congruence.
  - right. split; [congruence|]. exists (m1 ++ m2). rewrite E2, E. now rewrite app_assoc.
Qed.
Lemma grows_upd h h' l kl sl more : upd l h h' -> isres h l kl sl -> isres h' l kl (sl ++ more) -> upper kl = true -> grows h h'.
Proof.
  intros (L & O & _) (c & H & K & E) (c' & H' & K' & E') U. split; [lia|]. intros a Ha. destruct (Nat.eq_dec a l) as [->|Hne].
  - right. exists c, c'. split; [exact H|]. split; [exact H'|]. split; [congruence|]. right. split; [congruence|]. exists more. congruence.
  - rewrite (O a Hne). destruct (nth_error h a) as [[ca|]|] eqn:Ea.
    + right. exists ca, ca. split; [first [exact Ea|reflexivity]|]. split; [reflexivity|]. split; [reflexivity|now left].
    + now left.
    + apply nth_error_None in Ea. lia.
Qed.
Lemma via_grows X X' h h' e e' e0 a : G X h e -> incl e0 e -> grows h h' -> G X' h' e' -> incl e0 e' -> via h e0 a ->
  via h' e0 a /\ exists c c', cell_at h a c /\ cell_at h' a c' /\ kind c' = kind c /\ grown c c'.
Proof.
  intros I Hi [L S] I' Hi' V.
  assert (Step : forall x, via h e0 x -> via h' e0 x -> exists c c', cell_at h x c /\ cell_at h' x c' /\ kind c' = kind c /\ grown c c').
  { intros x V1 V2. pose proof (via_lt _ _ _ _ I (via_mono _ _ _ _ Hi V1)) as Hl. destruct (via_live _ _ _ _ I' (via_mono _ _ _ _ Hi' V2)) as (c' & Hc').
    destruct (S x Hl) as [E|(c & c2 & H & H2 & K & P)]; [congruence|]. assert (c2 = c') by (congruence). subst c2. exists c, c'. auto. }
  assert (V' : via h' e0 a).
  { induction V as [a Ha|l a V IH _ Ha]; [now constructor|]. destruct (Step l V IH) as (c & c' & H & H' & K & P). rewrite (kidsof_at _ _ _ H) in Ha.
    eapply via_kid; [exact IH|exact H'|]. apply in_kids in Ha. destruct Ha as (f & Hf). apply (kids_in c' f). destruct P as [->|(_ & more & ->)]; [exact Hf|apply in_or_app; now left]. }
  split; [exact V'|]. now apply Step.
Qed.
Lemma own_grows X X' h h' e e' e0 a k : own h e0 a k -> G X h e -> incl e0 e -> grows h h' -> G X' h' e' -> incl e0 e' -> own h' e0 a k.
Proof.
  intros [V K] I Hi S I' Hi'. destruct (via_grows _ _ _ _ _ _ _ _ I Hi S I' Hi' V) as (V' & c & c' & H & H' & Kc & _). split; [exact V'|].
  destruct K as (c0 & H0 & K0). assert (c0 = c) by (congruence). subst c0. exists c'. split; [exact H'|congruence].
Qed.
Lemma kind_grows X h h' e a k : has_kind h a k -> grows h h' -> G X h' e -> In a e -> has_kind h' a k.
Proof.
  intros (c & H & K) [L S] I' Hi. destruct (in_live _ _ _ _ I' Hi) as (c' & H'). destruct (S a (at_lt _ _ _ H)) as [E|(c0 & c1 & H0 & H1 & K1 & _)]; [congruence|].
  exists c1. split; [exact H1|]. assert (c0 = c) by (congruence). congruence.
Qed.
Lemma isres_grows h h' a k ss : isres h a k ss -> upper k = false -> grows h h' -> live h' a -> isres h' a k ss.
Proof.
  intros (c & H & K & E) U [L S] (c' & H'). destruct (S a (at_lt _ _ _ H)) as [D|(c0 & c1 & H0 & H1 & K1 & P)]; [congruence|].
  assert (c0 = c) by (congruence). subst c0. exists c1. split; [exact H1|]. split; [congruence|]. destruct P as [P|(D & _)]; congruence.
Qed.
Lemma entry_grows X h h' e d k l : entry h d k l -> grows h h' -> G X h' e -> In d e -> entry h' d k l.
Proof.
  intros (ss & o & so & R & F & Ro & Hl) S I' Hi. assert (R' : isres h' d KDoc ss) by (eapply isres_grows; [exact R|reflexivity|exact S|eapply in_live; eauto]).
  destruct (isres_kid _ _ _ _ _ _ _ _ I' R' (find_in _ _ _ F)) as (co' & Ho'). destruct Ro as (co & Ho & Ko & Eo). destruct S as [L S].
  destruct (S o (at_lt _ _ _ Ho)) as [D|(c0 & c1 & H0 & H1 & K1 & P)]; [congruence|]. assert (c0 = co) by (congruence). subst c0.
  exists ss, o, (slots c1). split; [exact R'|]. split; [exact F|]. split; [exists c1; split; [exact H1|]; split; [congruence|reflexivity]|].
  destruct P as [->|(_ & more & ->)]; [congruence|]. apply in_or_app. left. congruence.
Qed.
Lemma entry_own X h e e0 d k l : G X h e -> In d e0 -> entry h d k l -> own h e0 l (obj_kind k).
Proof.
  intros I Hd (ss & o & so & R & F & Ro & Hl). split.
  - eapply isres_via; [exact Ro| |exact Hl]. eapply isres_via; [exact R|now apply via_in|apply find_in; exact F].
  - destruct (isres_fits _ _ _ _ _ _ _ _ I Ro Hl) as (t & Kt & Ft). cbn in Ft. now subst t.
Qed.

(** * Parts *)
Record part (k : str) (et : ety) (t : tag) : Prop := { p_kind : obj_kind k = KList et; p_up : upper (KList et) = true; p_elem : elem_kind et = t; p_tag : obj_tag t }.
Lemma part_groups : part o_groups LGroup KGroup.
Proof. constructor; try reflexivity. now left. Qed.
Lemma part_cats : part o_cats LCat KCat.
Proof. constructor; try reflexivity. right; now left. Qed.
Lemma part_envs : part o_envs LEnv KEnv.
Proof. constructor; try reflexivity. right; now right. Qed.
Lemma part_str k et t : part k et t -> et <> LStr.
Proof. intros P ->. pose proof (p_up _ _ _ P). discriminate. Qed.
Lemma part_el k et t : part k et t -> elem et t.
Proof. intros P. pose proof (p_up _ _ _ P) as U. rewrite <- (p_elem _ _ _ P). destruct et; cbn in *; congruence. Qed.
Lemma part_plain k et t : part k et t -> plain t = true.
Proof. intros P. destruct (p_tag _ _ _ P) as [->|[->| ->]]; reflexivity. Qed.
Lemma part_items h e e0 l k et t : part k et t -> G [] h e -> own h e0 l (KList et) -> exists xs, Forall (fun x => own h e0 x t) xs /\ isl h l et (map Some xs).
Proof.
  intros P I O. destruct (list_items [] h e e0 l et I O (fun x => x) (part_str _ _ _ P)) as (sl & xs & R & E & H). rewrite (p_elem _ _ _ P) in H. exists xs. split; [exact H|]. exists sl. auto.
Qed.
Lemma doc_add_grow h e d k et x t : part k et t -> G [] h (x :: e) -> In d e -> has_kind h d KDoc -> has_kind h x t -> wp (doc_add d k x) h (fun h' _ => G [] h' e /\ grows h h').
Proof.
  intros P I Hd Kd Kx. unfold doc_add. eapply wp_seq; [eapply (doc_open_ok h _ [d] d k I (own_in _ _ _ _ (in_eq _ _) Kd)); intros y [<-|[]]; now right|]. cbv beta. intros h1 l (I1 & S1 & K1 & E1).
  rewrite (p_kind _ _ _ P) in K1. destruct (has_kind_res _ _ _ K1) as (sl & Rl).
  eapply wp_seq; [eapply (wp_append_x [] h1 (l :: e) l et sl (Some x))|].
  - eapply G_perm; [|exact I1]. cnts.
  - exact Rl.
  - intros y Hy. injection Hy as <-. exists t. split; [|apply (part_el _ _ _ P)]. eapply has_kind_same; [exact Kx|exact S1|]. eapply in_live; [exact I1|]. right. now left.
  - discriminate.
  - cbv beta. intros h2 _ (I2 & U2 & R2). eapply wp_mono; [apply (wp_release0 h2 e (Some l) I2)|]. cbv beta. intros h3 _ (I3 & _ & S3). split; [exact I3|].
    eapply grows_trans; [apply grows_same; exact S1|]. eapply grows_trans; [eapply grows_upd; [exact U2|exact Rl|exact R2|apply (p_up _ _ _ P)]|]. now apply grows_same.
Qed.
Lemma new_like h e d : G [] h e -> In d e -> has_kind h d KDoc -> wp (do enc <- member d f_enc; new_doc enc) h (fun h' r => G [] h' (r :: e) /\ grows h h' /\ has_kind h' r KDoc).
Proof.
  intros I Hd Kd. destruct (field [] h e e d KDoc f_enc I (own_in _ _ _ _ Hd Kd) (fun x => x)) as (ss & r & R & F & _ & Ft & Hv); [cbn; tauto|].
  apply wp_bind. eapply wp_member; [exact R|exact F|]. eapply wp_mono; [apply (new_doc_ok h e r I Ft Hv)|]. cbv beta. intros h' a (_ & I' & S' & K' & _). split; [exact I'|]. split; [now apply grows_same|exact K'].
Qed.
Lemma get_grow h e d k : G [] h e -> In d e -> has_kind h d KDoc -> wp (doc_get d k) h (fun h' l => G [] h' (l :: e) /\ grows h h' /\ has_kind h' l (obj_kind k) /\ entry h' d k l).
Proof.
  intros I Hd Kd. eapply wp_mono; [apply (doc_get_ok h e e d k I (own_in _ _ _ _ Hd Kd) (incl_refl _))|]. cbv beta. intros h' l (A & B & C). split; [exact A|]. split; [now apply grows_same|exact C].
Qed.
Lemma release_grow h e r : G [] h (somes [r] ++ e) -> wp (release r) h (fun h' _ => G [] h' e /\ grows h h').
Proof. intros I. eapply wp_mono; [apply (wp_release0 h e r I)|]. cbv beta. intros h' _ (A & _ & B). split; [exact A|now apply grows_same]. Qed.

Section Compared.
Variable oracle : mem -> addr -> addr -> bool.
Variable matches : mem -> addr -> bool.
(** * Filters *)
Lemma filter_objs_ok h e res src arches k et t fl : part k et t -> spec_mt t (KList LStr) fl -> G [] h e -> In res e -> has_kind h res KDoc -> In src e -> has_kind h src KDoc -> own h e arches (KList LStr) ->
  wp (filter_objs oracle res src arches k fl) h (fun h' _ => G [] h' e /\ grows h h').
Proof.
  intros P Sp I Hr Kr Hs Ks Oa. unfold filter_objs. eapply wp_seq; [apply (get_grow h e src k I Hs Ks)|]. cbv beta. intros h1 l (I1 & S1 & K1 & _). rewrite (p_kind _ _ _ P) in K1.
  destruct (part_items h1 _ (l :: e) l k et t P I1 (own_in _ _ _ _ (in_eq _ _) K1)) as (xs & Hx & L). apply wp_bind. eapply wp_isl_items; [exact L|].
  assert (He : incl e (l :: e)) by (apply incl_tl, incl_refl).
  pose proof (own_mono _ _ (l :: e) _ _ He (own_grows _ _ _ _ _ _ _ _ _ Oa I (incl_refl _) S1 I1 He)) as Oa1.
  pose proof (kind_grows _ _ _ _ _ _ Kr S1 I1 (or_intror Hr)) as Kr1.
  eapply wp_seq; [eapply (wp_each _ (fun _ hh => G [] hh (l :: e) /\ grows h1 hh) (fun x => own h1 (l :: e) x t)); [|split; [exact I1|apply grows_id]|now apply ref_items]|].
  - intros u hh x (Ih & Sh) Ox. pose proof (own_grows _ _ _ _ _ _ _ _ _ Ox I1 (incl_refl _) Sh Ih (incl_refl _)) as Oxh. pose proof (own_grows _ _ _ _ _ _ _ _ _ Oa1 I1 (incl_refl _) Sh Ih (incl_refl _)) as Oah.
    eapply wp_seq; [apply (get_prop_ok hh (l :: e) (l :: e) x t f_arches Ih Oxh (p_tag _ _ _ P) (incl_refl _))|]. cbv beta. intros h2 a2 (I2 & S2 & K2).
    assert (H2 : incl (l :: e) (somes [a2] ++ l :: e)) by (apply incl_appr, incl_refl). apply grows_same in S2.
    pose proof (own_mono _ _ (somes [a2] ++ l :: e) _ _ H2 (own_grows _ _ _ _ _ _ _ _ _ Oah Ih (incl_refl _) S2 I2 H2)) as Oa2.
    pose proof (own_mono _ _ (somes [a2] ++ l :: e) _ _ H2 (own_grows _ _ _ _ _ _ _ _ _ Oxh Ih (incl_refl _) S2 I2 H2)) as Ox2.
    eapply wp_seq; [eapply (wanted_ok oracle h2 _ arches a2 I2 (proj2 Oa2))|].
    { intros b ->. destruct (K2 b eq_refl) as (tt & Kt & Ft). change (tt = KList LStr) in Ft. now subst tt. }
    cbv beta. intros h3 b ->. eapply (wp_seq _ _ _ (fun h' _ => G [] h' (somes [a2] ++ l :: e) /\ grows h2 h')).
    + destruct b; [|apply wp_ret; split; [exact I2|apply grows_id]]. eapply wp_seq; [apply (Sp h2 _ x arches I2 Ox2 Oa2)|]. cbv beta. intros h3 o (_ & I3 & S3 & K3). apply grows_same in S3.
      eapply wp_mono; [eapply (doc_add_grow h3 (somes [a2] ++ l :: e) res k et o t P I3)|].
      * apply H2. now right.
      * eapply kind_grows; [exact Kr1|eapply grows_trans; [exact Sh|eapply grows_trans; [exact S2|exact S3]]|exact I3|right; apply H2; now right].
      * exact K3.
      * cbv beta. intros h4 _ (I4 & S4). split; [exact I4|]. eapply grows_trans; eauto.
    + cbv beta. intros h3 _ (I3 & S3). eapply wp_mono; [apply (release_grow h3 _ a2 I3)|]. cbv beta. intros h4 _ (I4 & S4). split; [exact I4|].
      eapply grows_trans; [exact Sh|]. eapply grows_trans; [exact S2|]. eapply grows_trans; eauto.
  - cbv beta. intros h2 _ (I2 & S2). eapply wp_mono; [apply (release_grow h2 e (Some l) I2)|]. cbv beta. intros h3 _ (I3 & S3). split; [exact I3|]. eapply grows_trans; [exact S1|]. eapply grows_trans; eauto.
Qed.
Lemma doc_filter_ok h e d arches : G [] h e -> In d e -> has_kind h d KDoc -> own h e arches (KList LStr) -> wp (doc_filter oracle d arches) h (fun h' r => G [] h' (r :: e) /\ has_kind h' r KDoc).
Proof.
  intros I Hd Kd Oa. unfold doc_filter. apply bind_assoc. eapply wp_seq; [apply (new_like h e d I Hd Kd)|]. cbv beta. intros h1 r (I1 & S1 & K1). set (e1 := r :: e) in *.
  assert (He : incl e e1) by (apply incl_tl, incl_refl).
  assert (Hr : In r e1) by now left. assert (Hd1 : In d e1) by now right. pose proof (kind_grows _ _ _ _ _ _ Kd S1 I1 Hd1) as Kd1.
  pose proof (own_mono _ _ e1 _ _ He (own_grows _ _ _ _ _ _ _ _ _ Oa I (incl_refl _) S1 I1 He)) as Oa1.
  assert (St : forall h2, G [] h2 e1 /\ grows h1 h2 -> has_kind h2 r KDoc /\ has_kind h2 d KDoc /\ own h2 e1 arches (KList LStr)).
  { intros h2 (I2 & S2). split; [eapply kind_grows; eauto|]. split; [eapply kind_grows; eauto|]. eapply own_grows; eauto; apply incl_refl. }
  eapply wp_seq; [eapply (filter_objs_ok h1 e1 r d arches o_cats LCat KCat _ part_cats (cat_filter_ok oracle)); assumption|]. cbv beta. intros h2 _ H2. destruct (St h2 H2) as (A2 & B2 & C2).
  eapply wp_seq; [eapply (filter_objs_ok h2 e1 r d arches o_groups LGroup KGroup _ part_groups (group_filter_ok oracle)); first [assumption|apply H2]|]. cbv beta. intros h3 _ (I3 & S3).
  assert (H3 : G [] h3 e1 /\ grows h1 h3) by (split; [exact I3|eapply grows_trans; [apply H2|exact S3]]). destruct (St h3 H3) as (A3 & B3 & C3).
  eapply wp_seq; [eapply (filter_objs_ok h3 e1 r d arches o_envs LEnv KEnv _ part_envs (env_filter_ok oracle)); first [assumption|apply H3]|]. cbv beta. intros h4 _ (I4 & S4). apply wp_ret. split; [exact I4|].
  eapply kind_grows; [exact A3|exact S4|exact I4|exact Hr].
Qed.
(** * Intersections *)
Lemma meet_objs_ok h e res c1 c2 k et t mt l1 : part k et t -> spec_mt t t mt -> G [] h (l1 :: e) -> In res e -> has_kind h res KDoc -> In c1 e -> entry h c1 k l1 -> In c2 e -> has_kind h c2 KDoc ->
  wp (meet_objs oracle res c2 k mt l1) h (fun h' l2 => G [] h' (l2 :: e) /\ grows h h').
Proof.
  intros P Sp I Hr Kr H1 E1 H2 K2. unfold meet_objs. pose proof (part_plain _ _ _ P) as Pl. pose proof (idcmp_ok oracle t (p_tag _ _ _ P)) as Cm.
  pose proof (entry_own [] h (l1 :: e) e c1 k l1 I H1 E1) as Ol. rewrite (p_kind _ _ _ P) in Ol.
  destruct (part_items h _ e l1 k et t P I Ol) as (xs & Hx & L). apply wp_bind. eapply wp_isl_items; [exact L|].
  assert (He : incl e (l1 :: e)) by (apply incl_tl, incl_refl).
  eapply wp_seq; [eapply (wp_each _ (fun s hh => (G [] hh (l1 :: e) /\ grows h hh) /\ Forall (fun x => own h e x t) s) (fun x => own h e x t)); [|split; [split; [exact I|apply grows_id]|constructor]|now apply ref_items]|].
  { intros s hh x ((Ih & Sh) & Os) Ox.
    assert (Oh : Forall (eown t hh (l1 :: e)) (x :: s)) by (eapply Forall_impl; [|exact (Forall_cons (P := fun x => own h e x t) x Ox Os)]; intros y Oy; apply (own_mono _ e); [exact He|]; exact (own_grows _ _ _ _ _ _ _ _ _ Oy I He Sh Ih He)).
    eapply wp_seq; [eapply (wp_set_add t (idcmp oracle) tid Pl Cm s hh _ x Ih Oh)|]. cbv beta. intros h2 sb (I2 & S2 & ->). apply wp_ret. split; [split; [exact I2|eapply grows_trans; [exact Sh|now apply grows_same]]|].
    destruct (find (hit tid hh x) s); cbn [fst]; [exact Os|]. apply Forall_app. split; auto. }
  cbv beta. intros h2 s ((I2 & S2) & Os). eapply wp_seq; [apply (release_grow h2 e (Some l1) I2)|]. cbv beta. intros h3 _ (I3 & S3). pose proof (grows_trans _ _ _ S2 S3) as S03.
  assert (Os3 : Forall (fun x => own h3 e x t) s) by (eapply Forall_impl; [|exact Os]; intros y Oy; exact (own_grows _ _ _ _ _ _ _ _ _ Oy I He S03 I3 (incl_refl _))).
  eapply wp_seq; [apply (get_grow h3 e c2 k I3 H2 (kind_grows _ _ _ _ _ _ K2 S03 I3 H2))|]. cbv beta. intros h4 l2 (I4 & S4 & K4 & _). rewrite (p_kind _ _ _ P) in K4.
  assert (He2 : incl e (l2 :: e)) by (apply incl_tl, incl_refl).
  assert (Os4 : Forall (fun x => own h4 (l2 :: e) x t) s) by (eapply Forall_impl; [|exact Os3]; intros y Oy; apply (own_mono _ e); [exact He2|]; exact (own_grows _ _ _ _ _ _ _ _ _ Oy I3 (incl_refl _) S4 I4 He2)).
  destruct (part_items h4 _ (l2 :: e) l2 k et t P I4 (own_in _ _ _ _ (in_eq _ _) K4)) as (ys & Hy & L2). apply wp_bind. eapply wp_isl_items; [exact L2|].
  pose proof (grows_trans _ _ _ S03 S4) as S04. pose proof (kind_grows _ _ _ _ _ _ Kr S04 I4 (or_intror Hr)) as Kr4.
  eapply wp_seq; [eapply (wp_each _ (fun _ hh => G [] hh (l2 :: e) /\ grows h4 hh) (fun x => own h4 (l2 :: e) x t)); [|split; [exact I4|apply grows_id]|now apply ref_items]|].
  { intros u hh x (Ih & Sh) Ox.
    assert (Step : forall h5, G [] h5 (l2 :: e) -> grows h4 h5 -> Forall (eown t h5 (l2 :: e)) (x :: s)) by (intros h5 I5 S5; eapply Forall_impl; [|exact (Forall_cons (P := fun x => own h4 (l2 :: e) x t) x Ox Os4)]; intros y Oy; exact (own_grows _ _ _ _ _ _ _ _ _ Oy I4 (incl_refl _) S5 I5 (incl_refl _))).
    pose proof (Step hh Ih Sh) as Oh.
    eapply wp_seq; [eapply (wp_set_find t (idcmp oracle) tid Pl Cm s hh _ x Ih Oh)|]. cbv beta. intros h5 b (I5 & S5 & ->). pose proof (grows_trans _ _ _ Sh (grows_same _ _ S5)) as S45.
    destruct (find (hit tid hh x) s) as [d|] eqn:Fd; [|apply wp_ret; split; assumption].
    eapply wp_seq; [eapply (wp_set_find t (idcmp oracle) tid Pl Cm s h5 _ x I5 (Step h5 I5 S45))|]. cbv beta. intros h6 b (I6 & S6 & ->).
    rewrite (hit_step t tid Pl hh h5 (l2 :: e) x s Ih S5 I5 (Forall_inv Oh) (Forall_inv_tail Oh)), Fd. cbn [follow]. apply wp_bind, wp_ret. pose proof (grows_trans _ _ _ S45 (grows_same _ _ S6)) as S46.
    pose proof (Step h6 I6 S46) as Oh6. apply List.find_some in Fd. destruct Fd as (Fd & _).
    assert (Od : own h6 (l2 :: e) d t) by (pose proof (Forall_inv_tail Oh6) as Q; rewrite Forall_forall in Q; exact (Q d Fd)).
    eapply wp_seq; [apply (Sp h6 _ x d I6 (Forall_inv Oh6) Od)|]. cbv beta. intros h7 o (_ & I7 & S7 & K7). apply grows_same in S7. pose proof (grows_trans _ _ _ S46 S7) as S47.
    eapply wp_mono; [eapply (doc_add_grow h7 (l2 :: e) res k et o t P I7 (or_intror Hr) (kind_grows _ _ _ _ _ _ Kr4 S47 I7 (or_intror (or_intror Hr))) K7)|]. cbv beta. intros h8 _ (I8 & S8). split; [exact I8|]. eapply grows_trans; eauto. }
  cbv beta. intros h5 u (I5 & S5). apply wp_ret. split; [exact I5|]. eapply grows_trans; eauto.
Qed.
Lemma doc_meet_ok h e c1 c2 : G [] h e -> In c1 e -> has_kind h c1 KDoc -> In c2 e -> has_kind h c2 KDoc -> wp (doc_meet oracle c1 c2) h (fun h' r => G [] h' (r :: e) /\ has_kind h' r KDoc).
Proof.
  intros I H1 K1 H2 K2. unfold doc_meet.
  eapply wp_seq; [apply (get_grow h e c1 o_groups I H1 K1)|]. cbv beta. intros ha g (Ia & Sa & _ & Ea).
  eapply wp_seq; [apply (get_grow ha _ c1 o_cats Ia (or_intror H1) (kind_grows _ _ _ _ _ _ K1 Sa Ia (or_intror H1)))|]. cbv beta. intros hb c (Ib & Sb & _ & Eb). pose proof (grows_trans _ _ _ Sa Sb) as S0b.
  assert (H1b : In c1 (c :: g :: e)) by (right; now right).
  eapply wp_seq; [apply (get_grow hb _ c1 o_envs Ib H1b (kind_grows _ _ _ _ _ _ K1 S0b Ib H1b))|]. cbv beta. intros hc v (Ic & Sc & _ & Ec). pose proof (grows_trans _ _ _ S0b Sc) as S0c.
  assert (H1c : In c1 (v :: c :: g :: e)) by now right.
  apply bind_assoc. eapply wp_seq; [apply (new_like hc _ c1 Ic H1c (kind_grows _ _ _ _ _ _ K1 S0c Ic H1c))|]. cbv beta. intros hd r (Id & Sd & Kd). pose proof (grows_trans _ _ _ S0c Sd) as S0d.
  assert (He : incl (c1 :: c2 :: r :: nil) (c :: v :: r :: e)) by (intros x [<-|[<-|[<-|[]]]]; cbn; auto).
  assert (Ja : G [] hd (g :: c :: v :: r :: e)) by (eapply G_perm; [|exact Id]; cnts).
  assert (Eg : entry hd c1 o_groups g) by (eapply entry_grows; [exact Ea|eapply grows_trans; [exact Sb|eapply grows_trans; [exact Sc|exact Sd]]|exact Ja|right; apply He; now left]).
  assert (K2d : has_kind hd c2 KDoc) by (eapply kind_grows; [exact K2|exact S0d|exact Ja|right; apply He; right; now left]).
  eapply wp_seq; [eapply (meet_objs_ok hd (c :: v :: r :: e) r c1 c2 o_groups LGroup KGroup _ g part_groups (group_meet_ok oracle) Ja); [apply He; right; right; now left|exact Kd|apply He; now left|exact Eg|apply He; right; now left|exact K2d]|].
  cbv beta. intros he g2 (Ie & Se).
  assert (He' : incl (c1 :: c2 :: r :: nil) (g2 :: v :: r :: e)) by (intros x [<-|[<-|[<-|[]]]]; cbn; auto).
  assert (Jb : G [] he (c :: g2 :: v :: r :: e)) by (eapply G_perm; [|exact Ie]; cnts).
  assert (Ec' : entry he c1 o_cats c) by (eapply entry_grows; [exact Eb|eapply grows_trans; [exact Sc|eapply grows_trans; [exact Sd|exact Se]]|exact Jb|right; apply He'; now left]).
  assert (K2e : has_kind he c2 KDoc) by (eapply kind_grows; [exact K2d|exact Se|exact Jb|right; apply He'; right; now left]).
  assert (Kre : has_kind he r KDoc) by (eapply kind_grows; [exact Kd|exact Se|exact Jb|right; apply He'; right; right; now left]).
  eapply wp_seq; [eapply (meet_objs_ok he (g2 :: v :: r :: e) r c1 c2 o_cats LCat KCat _ c part_cats (cat_meet_ok oracle) Jb); [apply He'; right; right; now left|exact Kre|apply He'; now left|exact Ec'|apply He'; right; now left|exact K2e]|].
  cbv beta. intros hf c2' (If & Sf).
  assert (He'' : incl (c1 :: c2 :: r :: nil) (c2' :: g2 :: r :: e)) by (intros x [<-|[<-|[<-|[]]]]; cbn; auto).
  assert (Jc : G [] hf (v :: c2' :: g2 :: r :: e)) by (eapply G_perm; [|exact If]; cnts).
  assert (Ev : entry hf c1 o_envs v) by (eapply entry_grows; [exact Ec|eapply grows_trans; [exact Sd|eapply grows_trans; [exact Se|exact Sf]]|exact Jc|right; apply He''; now left]).
  assert (K2f : has_kind hf c2 KDoc) by (eapply kind_grows; [exact K2e|exact Sf|exact Jc|right; apply He''; right; now left]).
  assert (Krf : has_kind hf r KDoc) by (eapply kind_grows; [exact Kre|exact Sf|exact Jc|right; apply He''; right; right; now left]).
  eapply wp_seq; [eapply (meet_objs_ok hf (c2' :: g2 :: r :: e) r c1 c2 o_envs LEnv KEnv _ v part_envs (env_meet_ok oracle) Jc); [apply He''; right; right; now left|exact Krf|apply He''; now left|exact Ev|apply He''; right; now left|exact K2f]|].
  cbv beta. intros hg v2 (Ig & Sg).
  eapply wp_seq; [apply (release_grow hg (v2 :: c2' :: r :: e) (Some g2)); eapply G_perm; [|exact Ig]; cnts|]. cbv beta. intros hh _ (Ih & Sh).
  eapply wp_seq; [apply (release_grow hh (v2 :: r :: e) (Some c2')); eapply G_perm; [|exact Ih]; cnts|]. cbv beta. intros hi _ (Ii & Si).
  eapply wp_seq; [apply (release_grow hi (r :: e) (Some v2) Ii)|]. cbv beta. intros hj _ (Ij & Sj). apply wp_ret. split; [exact Ij|].
  eapply kind_grows; [exact Krf| |exact Ij|now left]. eapply grows_trans; [exact Sg|]. eapply grows_trans; [exact Sh|]. eapply grows_trans; eauto.
Qed.
(** * Unions *)
Lemma rm_none p s : find p s = None -> rm p s = s.
Proof. induction s as [|y s IH]; cbn [find rm]; [reflexivity|]. destruct (p y); [discriminate|]. intros H. now rewrite IH. Qed.
Lemma rm_cnt p s x : cnt x (somes [find p s] ++ rm p s) = cnt x s.
Proof. destruct (find p s) as [d|] eqn:F; [symmetry; now apply rm_find|]. cbn [somes app]. now rewrite rm_none. Qed.
(** What a loop over one list keeps: the objects counted are those in the set, those
    lost, and those of before. *)
Definition sets (t : tag) (e : list addr) (h0 h : mem) (s lost : list addr) : Prop := G [] h (s ++ lost ++ e) /\ grows h0 h /\ Forall (fun y => has_kind h y t) s.
Lemma set_kinds X h h' e t s : Forall (fun y => has_kind h y t) s -> grows h h' -> G X h' e -> incl s e -> Forall (fun y => has_kind h' y t) s.
Proof. intros Hs S I Hi. apply Forall_forall. intros y Hy. rewrite Forall_forall in Hs. eapply kind_grows; eauto. Qed.
Lemma set_own h e t s : Forall (fun y => has_kind h y t) s -> incl s e -> Forall (eown t h e) s.
Proof. intros Hs Hi. apply Forall_forall. intros y Hy. rewrite Forall_forall in Hs. apply own_in; auto. Qed.
Lemma add_new k et t e h0 h s lost o : part k et t -> G [] h (o :: s ++ lost ++ e) -> grows h0 h -> Forall (fun y => has_kind h y t) (o :: s) ->
  wp (do sb <- set_add (idcmp oracle) s o; ret (fst sb)) h (fun h' s' => exists lost', sets t e h0 h' s' lost').
Proof.
  intros P I S Hs. pose proof (part_plain _ _ _ P) as Pl. pose proof (idcmp_ok oracle t (p_tag _ _ _ P)) as Cm.
  assert (Ho : Forall (eown t h (o :: s ++ lost ++ e)) (o :: s)) by (apply set_own; [exact Hs|intros x [->|Hx]; [now left|right; apply in_or_app; now left]]).
  eapply wp_seq; [eapply (wp_set_add t (idcmp oracle) tid Pl Cm s h _ o I Ho)|]. cbv beta. intros h1 sb (I1 & S1 & ->). apply wp_ret. apply grows_same in S1.
  assert (Hs1 : Forall (fun y => has_kind h1 y t) (o :: s)) by (eapply set_kinds; [exact Hs|exact S1|exact I1|intros x [->|Hx]; [now left|right; apply in_or_app; now left]]).
  destruct (find (hit tid h o) s); cbn [fst].
  - exists (o :: lost). split; [eapply G_perm; [|exact I1]; cnts|]. split; [eapply grows_trans; eauto|]. now inversion Hs1.
  - exists lost. split; [eapply G_perm; [|exact I1]; cnts|]. split; [eapply grows_trans; eauto|]. inversion Hs1; subst. apply Forall_app. split; auto.
Qed.
Lemma copy_add k et t e e0 h0 h s lost x : part k et t -> G [] h0 e -> incl e0 e -> own h0 e0 x t -> sets t e h0 h s lost ->
  wp (do o <- copy_obj x; do sb <- set_add (idcmp oracle) s o; ret (fst sb)) h (fun h' s' => exists lost', sets t e h0 h' s' lost').
Proof.
  intros P I0 Hi Ox (I & S & Hs). assert (He : incl e0 (s ++ lost ++ e)) by (intros y Hy; apply in_or_app; right; apply in_or_app; right; auto).
  pose proof (own_mono _ _ (s ++ lost ++ e) _ _ He (own_grows _ _ _ _ _ _ _ _ _ Ox I0 Hi S I He)) as (V & K). destruct (rb_room h _ x t I K (part_plain _ _ _ P)) as (tr & Et & Er).
  eapply wp_seq; [apply (wp_copy_obj [] h _ x tr I V Et)|]. cbv beta. intros h1 o (_ & I1 & S1 & _ & K1). apply grows_same in S1. rewrite Er in K1.
  eapply add_new; [exact P|exact I1|eapply grows_trans; eauto|]. constructor; [exact K1|]. eapply set_kinds; [exact Hs|exact S1|exact I1|]. intros y Hy. right. apply in_or_app. now left.
Qed.
Lemma add_all k et t e res s : part k et t -> In res e -> forall h, has_kind h res KDoc -> G [] h (s ++ e) -> Forall (fun y => has_kind h y t) s -> wp (forM (fun x => doc_add res k x) s) h (fun h' _ => G [] h' e /\ grows h h').
Proof.
  intros P Hr. induction s as [|x s IH]; intros h Kr I Hs; cbn [forM].
  - apply wp_ret. split; [exact I|apply grows_id].
  - inversion Hs; subst. eapply wp_seq; [eapply (doc_add_grow h (s ++ e) res k et x t P I); [apply in_or_app; now right|exact Kr|assumption]|]. cbv beta. intros h1 [] (I1 & S1).
    eapply wp_mono; [apply IH; [eapply kind_grows; [exact Kr|exact S1|exact I1|apply in_or_app; now right]|exact I1|eapply set_kinds; [eassumption|exact S1|exact I1|apply incl_appl, incl_refl]]|].
    cbv beta. intros h2 _ (I2 & S2). split; [exact I2|]. eapply grows_trans; eauto.
Qed.
Lemma union_objs_ok h e res c1 c2 k et t un l1 : part k et t -> spec_un t un -> G [] h (l1 :: e) -> has_kind h l1 (KList et) -> In res e -> has_kind h res KDoc -> In c2 e -> has_kind h c2 KDoc ->
  wp (union_objs oracle res c1 c2 k un l1) h (fun h' _ => exists lost, G [] h' (lost ++ e) /\ grows h h').
Proof.
  intros P Sp I Kl Hr Kr H2 K2. unfold union_objs. pose proof (part_plain _ _ _ P) as Pl. pose proof (idcmp_ok oracle t (p_tag _ _ _ P)) as Cm.
  destruct (part_items h _ (l1 :: e) l1 k et t P I (own_in _ _ _ _ (in_eq _ _) Kl)) as (xs & Hx & L). apply wp_bind. eapply wp_isl_items; [exact L|].
  eapply wp_seq; [eapply (wp_each _ (fun s hh => exists lost, sets t (l1 :: e) h hh s lost) (fun x => own h (l1 :: e) x t)); [| |now apply ref_items]|].
  { intros s hh x (lost & Hs) Ox. eapply copy_add; eauto. apply incl_refl. }
  { exists []. split; [exact I|]. split; [apply grows_id|constructor]. }
  cbv beta. intros h1 s1 (lost1 & I1 & S1 & Hs1).
  eapply wp_seq; [apply (release_grow h1 (s1 ++ lost1 ++ e) (Some l1)); eapply G_perm; [|exact I1]; cnts|]. cbv beta. intros h2 _ (I2 & S2). pose proof (grows_trans _ _ _ S1 S2) as S02.
  assert (Hin : forall y (z : list addr), In y e -> In y (z ++ lost1 ++ e)) by (intros y z Hy; apply in_or_app; right; apply in_or_app; now right).
  eapply wp_seq; [apply (get_grow h2 _ c2 k I2 (Hin c2 s1 H2) (kind_grows _ _ _ _ _ _ K2 S02 I2 (Hin c2 s1 H2)))|]. cbv beta. intros h3 l2 (I3 & S3 & K3 & _). rewrite (p_kind _ _ _ P) in K3.
  assert (I3' : G [] h3 (s1 ++ lost1 ++ l2 :: e)) by (eapply G_perm; [|exact I3]; cnts). pose proof (grows_trans _ _ _ S02 S3) as S03.
  assert (Hs3 : Forall (fun y => has_kind h3 y t) s1) by (eapply set_kinds; [exact Hs1|eapply grows_trans; [exact S2|exact S3]|exact I3'|apply incl_appl, incl_refl]).
  assert (Ol : own h3 [l2] l2 (KList et)) by (apply own_in; [now left|exact K3]).
  destruct (part_items h3 _ [l2] l2 k et t P I3' Ol) as (ys & Hy & L2). apply wp_bind. eapply wp_isl_items; [exact L2|].
  assert (Hl2 : incl [l2] (s1 ++ lost1 ++ l2 :: e)) by (intros y [<-|[]]; apply in_or_app; right; apply in_or_app; right; now left).
  eapply wp_seq; [eapply (wp_each _ (fun s hh => exists lost, sets t (l2 :: e) h3 hh s lost) (fun x => own h3 [l2] x t)); [|exists lost1; split; [exact I3'|split; [apply grows_id|exact Hs3]]|now apply ref_items]|].
  { intros s hh x (lost & Ih & Sh & Hs) Ox. set (ex := s ++ lost ++ l2 :: e) in *.
    assert (Hex : incl [l2] ex) by (intros y [<-|[]]; apply in_or_app; right; apply in_or_app; right; now left).
    assert (Hse : incl s ex) by apply incl_appl, incl_refl.
    assert (Step : forall h5 e5, G [] h5 e5 -> incl ex e5 -> grows h3 h5 -> own h5 e5 x t).
    { intros h5 e5 I5 He5 S5. apply (own_mono _ [l2]); [intros y Hy'; auto|]. eapply own_grows; [exact Ox|exact I3'|exact Hl2|exact S5|exact I5|intros y Hy'; auto]. }
    assert (Oh : Forall (eown t hh ex) (x :: s)) by (constructor; [apply Step; auto; apply incl_refl|now apply set_own]).
    eapply wp_seq; [eapply (wp_set_find t (idcmp oracle) tid Pl Cm s hh _ x Ih Oh)|]. cbv beta. intros h5 b (I5 & S5 & ->). pose proof (grows_trans _ _ _ Sh (grows_same _ _ S5)) as S35.
    pose proof (set_kinds _ _ _ _ _ _ Hs (grows_same _ _ S5) I5 Hse) as Hs5.
    destruct (find (hit tid hh x) s) as [d|] eqn:Fd.
    2:{ assert (Ex5 : own h5 ex x t) by (apply Step; auto; apply incl_refl). destruct (rb_room h5 _ x t I5 (proj2 Ex5) Pl) as (tr & Et & Er).
        eapply wp_seq; [apply (wp_copy_obj [] h5 _ x tr I5 (proj1 Ex5) Et)|]. cbv beta. intros h6 o (_ & I6 & S6 & _ & K6). apply grows_same in S6. rewrite Er in K6.
        eapply add_new; [exact P|exact I6|eapply grows_trans; eauto|]. constructor; [exact K6|]. eapply set_kinds; [exact Hs5|exact S6|exact I6|]. intros y Hy'. right. auto. }
    assert (Oh5 : Forall (eown t h5 ex) (x :: s)) by (constructor; [apply Step; auto; apply incl_refl|now apply set_own]).
    eapply wp_seq; [eapply (wp_set_find t (idcmp oracle) tid Pl Cm s h5 _ x I5 Oh5)|]. cbv beta. intros h6 b (I6 & S6 & ->).
    rewrite (hit_step t tid Pl hh h5 ex x s Ih S5 I5 (Forall_inv Oh) (Forall_inv_tail Oh)), Fd. cbn [follow]. apply wp_bind, wp_ret. pose proof (grows_trans _ _ _ S35 (grows_same _ _ S6)) as S36.
    pose proof (set_kinds _ _ _ _ _ _ Hs5 (grows_same _ _ S6) I6 Hse) as Hs6. apply List.find_some in Fd. destruct Fd as (Fd & _).
    assert (Od : own h6 ex d t) by (apply own_in; [auto|]; rewrite Forall_forall in Hs6; auto).
    eapply wp_seq; [apply (Sp h6 ex d x I6 Od); apply Step; auto; apply incl_refl|]. cbv beta. intros h7 o (lo & _ & I7 & S7 & K7 & _). apply grows_same in S7. pose proof (grows_trans _ _ _ S36 S7) as S37.
    set (e7 := o :: lo ++ ex) in *. assert (He7 : incl ex e7) by (intros y Hy'; right; apply in_or_app; now right).
    assert (Hs7e : incl s e7) by (intros y Hy'; auto). pose proof (set_kinds _ _ _ _ _ _ Hs6 S7 I7 Hs7e) as Hs7.
    assert (Oh7 : Forall (eown t h7 e7) (x :: s)) by (constructor; [now apply Step|now apply set_own]).
    eapply wp_seq; [eapply (wp_set_find t (idcmp oracle) tid Pl Cm s h7 _ x I7 Oh7)|]. cbv beta. intros h8 d2 (I8 & S8 & Ed2). pose proof (grows_trans _ _ _ S37 (grows_same _ _ S8)) as S38.
    pose proof (set_kinds _ _ _ _ _ _ Hs7 (grows_same _ _ S8) I8 Hs7e) as Hs8.
    assert (Oh8 : Forall (eown t h8 e7) (x :: s)) by (constructor; [now apply Step|now apply set_own]).
    rewrite <- (hit_step t tid Pl h7 h8 e7 x s I7 S8 I8 (Forall_inv Oh7) (Forall_inv_tail Oh7)) in Ed2. subst d2.
    eapply wp_seq; [eapply (wp_set_remove t (idcmp oracle) tid Pl Cm s h8 _ x I8 Oh8)|]. cbv beta. intros h9 s2 (I9 & S9 & ->). apply grows_same in S9. pose proof (grows_trans _ _ _ S38 S9) as S39.
    pose proof (set_kinds _ _ _ _ _ _ Hs8 S9 I9 Hs7e) as Hs9. set (p := hit tid h8 x) in *.
    eapply wp_seq; [apply (release_grow h9 (o :: rm p s ++ (lo ++ lost) ++ l2 :: e) (find p s))|].
    { eapply G_perm; [|exact I9]. intros y. pose proof (rm_cnt p s y) as C. unfold e7, ex. rewrite ?count_occ_app in *. cbn [count_occ]. rewrite ?count_occ_app. destruct (Nat.eq_dec o y); lia. }
    cbv beta. intros h10 _ (I10 & S10). pose proof (grows_trans _ _ _ S39 S10) as S310.
    eapply (add_new k et t (l2 :: e) h3 h10 (rm p s) (lo ++ lost) o P I10 S310). constructor.
    - eapply kind_grows; [exact K7|eapply grows_trans; [apply (grows_same _ _ S8)|eapply grows_trans; [exact S9|exact S10]]|exact I10|now left].
    - eapply set_kinds; [|exact S10|exact I10|intros y Hy'; right; apply in_or_app; now left]. apply Forall_forall. intros y Hy'. rewrite Forall_forall in Hs9. apply Hs9. now apply (rm_incl p s). }
  cbv beta. intros h4 s4 (lost4 & I4 & S4 & Hs4). pose proof (grows_trans _ _ _ S03 S4) as S04.
  eapply wp_seq; [apply (release_grow h4 (s4 ++ lost4 ++ e) (Some l2)); eapply G_perm; [|exact I4]; cnts|]. cbv beta. intros h5 _ (I5 & S5). pose proof (grows_trans _ _ _ S04 S5) as S05.
  assert (Hr5 : In res (lost4 ++ e)) by (apply in_or_app; now right).
  eapply wp_mono; [eapply (add_all k et t (lost4 ++ e) res s4 P Hr5 h5)|].
  - eapply kind_grows; [exact Kr|exact S05|exact I5|apply in_or_app; now right].
  - exact I5.
  - eapply set_kinds; [exact Hs4|exact S5|exact I5|apply incl_appl, incl_refl].
  - cbv beta. intros h6 _ (I6 & S6). exists lost4. split; [exact I6|]. eapply grows_trans; eauto.
Qed.
Lemma doc_union_ok h e c1 c2 : G [] h e -> In c1 e -> has_kind h c1 KDoc -> In c2 e -> has_kind h c2 KDoc -> wp (doc_union oracle c1 c2) h (fun h' r => exists lost, G [] h' (r :: lost ++ e) /\ has_kind h' r KDoc).
Proof.
  intros I H1 K1 H2 K2. unfold doc_union.
  eapply wp_seq; [apply (get_grow h e c1 o_groups I H1 K1)|]. cbv beta. intros ha g (Ia & Sa & Ka & _).
  eapply wp_seq; [apply (get_grow ha _ c1 o_cats Ia (or_intror H1) (kind_grows _ _ _ _ _ _ K1 Sa Ia (or_intror H1)))|]. cbv beta. intros hb c (Ib & Sb & Kb & _). pose proof (grows_trans _ _ _ Sa Sb) as S0b.
  assert (H1b : In c1 (c :: g :: e)) by (right; now right).
  eapply wp_seq; [apply (get_grow hb _ c1 o_envs Ib H1b (kind_grows _ _ _ _ _ _ K1 S0b Ib H1b))|]. cbv beta. intros hc v (Ic & Sc & Kc & _). pose proof (grows_trans _ _ _ S0b Sc) as S0c.
  assert (H1c : In c1 (v :: c :: g :: e)) by now right.
  apply bind_assoc. eapply wp_seq; [apply (new_like hc _ c1 Ic H1c (kind_grows _ _ _ _ _ _ K1 S0c Ic H1c))|]. cbv beta. intros hd r (Id & Sd & Kd). pose proof (grows_trans _ _ _ S0c Sd) as S0d.
  assert (Ja : G [] hd (g :: c :: v :: r :: e)) by (eapply G_perm; [|exact Id]; cnts).
  eapply wp_seq; [eapply (union_objs_ok hd (c :: v :: r :: e) r c1 c2 o_groups LGroup KGroup _ g part_groups (group_union_ok oracle) Ja)|].
  { eapply kind_grows; [exact Ka|eapply grows_trans; [exact Sb|eapply grows_trans; [exact Sc|exact Sd]]|exact Ja|now left]. }
  { right; right; now left. } { exact Kd. } { right; right; now right. } { eapply kind_grows; [exact K2|exact S0d|exact Ja|right; right; right; now right]. }
  cbv beta. intros he _ (lo1 & Ie & Se). pose proof (grows_trans _ _ _ S0d Se) as S0e.
  assert (Jb : G [] he (c :: lo1 ++ v :: r :: e)) by (eapply G_perm; [|exact Ie]; cnts).
  eapply wp_seq; [eapply (union_objs_ok he (lo1 ++ v :: r :: e) r c1 c2 o_cats LCat KCat _ c part_cats (cat_union_ok oracle) Jb)|].
  { eapply kind_grows; [exact Kb|eapply grows_trans; [exact Sc|eapply grows_trans; [exact Sd|exact Se]]|exact Jb|now left]. }
  { apply in_or_app; right; right; now left. } { eapply kind_grows; [exact Kd|exact Se|exact Jb|right; apply in_or_app; right; right; now left]. } { apply in_or_app; right; right; now right. } { eapply kind_grows; [exact K2|exact S0e|exact Jb|right; apply in_or_app; right; right; now right]. }
  cbv beta. intros hf _ (lo2 & If & Sf). pose proof (grows_trans _ _ _ S0e Sf) as S0f.
  assert (Jc : G [] hf (v :: (lo2 ++ lo1) ++ r :: e)) by (eapply G_perm; [|exact If]; cnts).
  eapply wp_seq; [eapply (union_objs_ok hf ((lo2 ++ lo1) ++ r :: e) r c1 c2 o_envs LEnv KEnv _ v part_envs (env_union_ok oracle) Jc)|].
  { eapply kind_grows; [exact Kc|eapply grows_trans; [exact Sd|eapply grows_trans; [exact Se|exact Sf]]|exact Jc|now left]. }
  { apply in_or_app; right; now left. } { eapply kind_grows; [exact Kd|eapply grows_trans; [exact Se|exact Sf]|exact Jc|right; apply in_or_app; right; now left]. } { apply in_or_app; right; now right. } { eapply kind_grows; [exact K2|exact S0f|exact Jc|right; apply in_or_app; right; now right]. }
  cbv beta. intros hg _ (lo3 & Ig & Sg). pose proof (grows_trans _ _ _ S0f Sg) as S0g. set (lost := lo3 ++ lo2 ++ lo1).
  assert (Jd : G [] hg (r :: lost ++ e)) by (eapply G_perm; [|exact Ig]; unfold lost; cnts).
  assert (Kr : has_kind hg r KDoc) by (eapply kind_grows; [exact Kd|eapply grows_trans; [exact Se|eapply grows_trans; [exact Sf|exact Sg]]|exact Jd|now left]).
  assert (He : forall y (z : list addr), In y e -> In y (z ++ r :: lost ++ e)) by (intros y z Hy; apply in_or_app; right; right; apply in_or_app; now right).
  eapply wp_seq; [apply (get_grow hg _ c1 o_lang Jd (He c1 [] H1) (kind_grows _ _ _ _ _ _ K1 S0g Jd (He c1 [] H1)))|]. cbv beta. intros hh d1 (Ih & Sh & Kh & _). pose proof (grows_trans _ _ _ S0g Sh) as S0h.
  eapply wp_seq; [apply (get_grow hh _ c2 o_lang Ih (He c2 [d1] H2) (kind_grows _ _ _ _ _ _ K2 S0h Ih (He c2 [d1] H2)))|]. cbv beta. intros hi d2 (Ii & Si & Ki & _).
  change (has_kind hh d1 (KDict DLang)) in Kh. change (has_kind hi d2 (KDict DLang)) in Ki.
  assert (Okk : ok [] hi (d2 :: d1 :: r :: lost ++ e) hi (d2 :: d1 :: r :: lost ++ e)) by (apply ok_id; exact Ii).
  eapply wp_seq; [eapply (dict_union_ok hi _ [] hi _ DLang d1 d2 Okk)|]; [intros y []|discriminate|apply own_in; [right; now left|eapply kind_grows; [exact Kh|exact Si|exact Ii|right; now left]]|apply own_in; [now left|exact Ki]|].
  cbv beta. intros hj lp (_ & Ij & Sj & Kj). apply grows_same in Sj.
  eapply wp_seq; [apply (release_grow hj (d2 :: lp :: r :: lost ++ e) (Some d1)); eapply G_perm; [|exact Ij]; cnts|]. cbv beta. intros hk _ (Ik & Sk).
  eapply wp_seq; [apply (release_grow hk (lp :: r :: lost ++ e) (Some d2) Ik)|]. cbv beta. intros hl _ (Il & Sl).
  assert (Krl : has_kind hl r KDoc) by (eapply kind_grows; [exact Kr|eapply grows_trans; [exact Sh|eapply grows_trans; [exact Si|eapply grows_trans; [exact Sj|eapply grows_trans; [exact Sk|exact Sl]]]]|exact Il|right; now left]).
  assert (Or : own hl (lp :: r :: lost ++ e) r KDoc) by (apply own_in; [right; now left|exact Krl]).
  eapply wp_seq; [eapply (doc_set_ok 0 hl _ r o_lang lp Il Or (docres_any _ _ _ _ _ Il Or (fun x => x)))|]; [lia|lia|change (has_kind hl lp (KDict DLang)); eapply kind_grows; [exact Kj|eapply grows_trans; [exact Sk|exact Sl]|exact Il|now left]|].
  cbv beta. intros hm _ (Im & Sm). eapply wp_seq; [apply (wp_release0 hm (r :: lost ++ e) (Some lp) Im)|]. cbv beta. intros hn _ (In' & _ & Sn). apply wp_ret. exists lost. split; [exact In'|].
  eapply has_kind_same; [eapply has_kind_same; [exact Krl|exact Sm|eapply in_live; [exact Im|right; now left]]|exact Sn|eapply in_live; [exact In'|now left]].
Qed.
(** * Queries *)
Lemma ask_ok h a : live h a -> wp (ask matches a) h (fun h' _ => h' = h).
Proof. intros (c & H). unfold ask. exists h, (matches h a). unfold peek. rewrite H. auto. Qed.
Lemma pick_ok h e l et x t : G [] h e -> own h e l (KList et) -> own h e x t -> elem et t -> wp (append l (Some x)) h (fun h' _ => G [] h' e /\ same 0 h h').
Proof. intros I Ol Ox He. eapply wp_mono; [apply (append_ok h e l et x t I Ol Ox He)|]. cbv beta. intros h' _ (A & B). split; [exact A|apply B; lia]. Qed.
Lemma same_len n h h1 h2 : n <= length h -> same (length h) h h1 -> same (length h1) h1 h2 -> same n h h2.
Proof. intros Hn S1 S2. pose proof (same_length _ _ _ S1). eapply same_trans; [eapply same_weak; [|exact S1]; lia|]. eapply same_weak; [|exact S2]. lia. Qed.
Lemma asked h e r : G [] h (somes [r] ++ e) -> wp (match r with Some a => ask matches a ;;; ret tt | None => ret tt end) h (fun h' _ => h' = h).
Proof. intros I. destruct r as [a|]; [|now apply wp_ret]. eapply wp_seq; [apply ask_ok; eapply in_live; [exact I|now left]|]. cbv beta. intros h' b ->. now apply wp_ret. Qed.
Lemma asked_b h e r : G [] h (somes [r] ++ e) -> wp (match r with Some a => ask matches a | None => ret false end) h (fun h' _ => h' = h).
Proof. intros I. destruct r as [a|]; [|now apply wp_ret]. apply ask_ok; eapply in_live; [exact I|now left]. Qed.
Lemma look_prop_ok h e o t k dict lang : G [] h e -> own h e o t -> obj_tag t -> dict = f_names \/ dict = f_descs -> wp (look_prop matches o k dict lang) h (fun h' _ => G [] h' e /\ same (length h) h h').
Proof.
  intros I O Ht Hd. unfold look_prop. eapply wp_seq; [apply (get_prop_ok h e e o t k I O Ht (incl_refl _))|]. cbv beta. intros h1 r (I1 & S1 & _).
  assert (Rel : wp (release r) h1 (fun h' _ => G [] h' e /\ same (length h) h h')).
  { eapply wp_mono; [apply (wp_release0 h1 e r I1)|]. cbv beta. intros h2 _ (I2 & _ & S2). split; [exact I2|]. eapply same_len; eauto. }
  destruct lang as [lg|].
  - eapply wp_seq; [apply (asked_b h1 e r I1)|]. cbv beta. intros h' b ->. destruct b; [exact Rel|].
    eapply wp_seq; [exact Rel|]. cbv beta. intros h2 _ (I2 & S2). pose proof (own_step _ _ _ _ _ _ _ _ _ O I (incl_refl _) S2 I2 (incl_refl _)) as O2.
    apply bind_assoc. eapply wp_seq; [eapply (wp_field [] h2 e e o t dict I2 O2 (fun x => x)); [rewrite obj_layout by exact Ht; destruct Hd as [->| ->]; cbn; tauto|now apply obj_not_null]|].
    cbv beta. intros h' nb (-> & _ & tn & (Vn & Kn) & Fn). apply (fits_lang _ _ _ Ht Hd) in Fn. subst tn. destruct (has_kind_res _ _ _ Kn) as (sn & Rn).
    eapply wp_seq; [eapply (wp_dget [] h2 e e nb _ sn lg I2 Rn Vn); intros []|]. cbv beta. intros h3 r2 (I3 & S3 & _).
    eapply wp_seq; [apply (asked h3 e r2 I3)|]. cbv beta. intros h' u ->. eapply wp_mono; [apply (wp_release0 h3 e r2 I3)|]. cbv beta. intros h4 _ (I4 & _ & S4). split; [exact I4|].
    eapply same_len; [apply Nat.le_refl|exact S2|]. eapply same_len; [|exact S3|exact S4]. apply Nat.le_refl.
  - eapply wp_seq; [apply (asked h1 e r I1)|]. cbv beta. intros h' u ->. exact Rel.
Qed.
Lemma doc_query_ok h e d k et t id name desc lang : part k et t -> G [] h e -> In d e -> has_kind h d KDoc ->
  wp (doc_query matches d k et id name desc lang) h (fun h' r => G [] h' (r :: e) /\ has_kind h' r (KList et)).
Proof.
  intros P I Hd Kd. unfold doc_query, new_val, new_list. eapply wp_seq; [apply (doc_get_ok h e e d k I (own_in _ _ _ _ Hd Kd) (incl_refl _))|]. cbv beta. intros h1 l (I1 & _ & K1 & _). rewrite (p_kind _ _ _ P) in K1.
  eapply wp_seq; [apply (wp_new2 [] h1 _ (KVal (inl id)) I1 eq_refl)|]. cbv beta. intros h2 t1 (_ & I2 & S2 & _).
  eapply wp_seq; [apply (wp_new2 [] h2 _ (KVal (inl name)) I2 eq_refl)|]. cbv beta. intros h3 t2 (_ & I3 & S3 & _).
  eapply wp_seq; [apply (wp_new2 [] h3 _ (KVal (inl desc)) I3 eq_refl)|]. cbv beta. intros h4 t3 (_ & I4 & S4 & _). set (e4 := t3 :: t2 :: t1 :: l :: e) in *.
  assert (Kl : has_kind h4 l (KList et)).
  { eapply has_kind_same; [eapply has_kind_same; [eapply has_kind_same; [exact K1|exact S2|]|exact S3|]|exact S4|]; eapply in_live; eauto; cbn; tauto. }
  eapply wp_seq; [apply (wp_new2 [] h4 _ (KList et) I4 eq_refl)|]. cbv beta. intros h5 res (Er & I5 & S5 & W5 & R5). set (e5 := res :: e4) in *. assert (Lr : length h4 <= res) by lia. clear Er.
  assert (Hl4 : In l e4) by (right; right; right; now left).
  destruct (part_items h4 e4 e4 l k et t P I4 (own_in _ _ _ _ Hl4 Kl)) as (xs & Hx & (sl & Rl & El)).
  apply wp_bind. eapply wp_isl_items; [exists sl; split; [apply W5; exact Rl|exact El]|].
  assert (He : incl e4 e5) by (apply incl_tl, incl_refl).
  assert (O5 : ok [] h4 e4 h5 e5) by (constructor; auto).
  eapply wp_seq; [eapply (wp_each _ (fun _ hh => ok [] h4 e4 hh e5 /\ has_kind hh res (KList et)) (fun x => own h4 e4 x t)); [|split; [exact O5|eapply isres_kind; exact R5]|now apply ref_items]|].
  - intros u hh x (Oh & Kh) Ox.
    assert (Look : forall h6 k dict lang, ok [] h4 e4 h6 e5 /\ has_kind h6 res (KList et) -> dict = f_names \/ dict = f_descs -> wp (look_prop matches x k dict lang) h6 (fun h' _ => ok [] h4 e4 h' e5 /\ has_kind h' res (KList et))).
    { intros h6 k' dict lang' (O6 & K6) Hdt. eapply wp_mono; [apply (look_prop_ok h6 e5 x t k' dict lang' (ok_g _ _ _ _ _ O6)); [|apply (p_tag _ _ _ P)|exact Hdt]|].
      - apply (own_mono _ e4); [exact He|]. exact (ok_own _ _ _ _ _ _ _ _ O6 (incl_refl _) Ox).
      - cbv beta. intros h7 _ (I7 & S7). split; [eapply ok_step; [exact O6|exact S7|apply (ok_len _ _ _ _ _ O6)|exact I7|exact He]|]. eapply has_kind_same; [exact K6|exact S7|eapply in_live; [exact I7|now left]]. }
    eapply wp_seq; [apply Look; auto|]. cbv beta. intros h6 _ H6. eapply wp_seq; [apply Look; auto|]. cbv beta. intros h7 _ H7. eapply wp_seq; [apply Look; auto|]. cbv beta. intros h8 _ (O8 & K8).
    assert (Ox8 : own h8 e5 x t) by (apply (own_mono _ e4); [exact He|]; exact (ok_own _ _ _ _ _ _ _ _ O8 (incl_refl _) Ox)).
    eapply wp_seq; [apply ask_ok; eapply own_live; exact Ox8|]. cbv beta. intros h' b ->. destruct b; [|apply wp_ret; split; assumption].
    eapply wp_mono; [eapply (append_ok h8 e5 res et x t (ok_g _ _ _ _ _ O8)); [apply own_in; [now left|exact K8]|exact Ox8|apply (part_el _ _ _ P)]|]. cbv beta. intros h9 _ (I9 & S9). split.
    + eapply ok_step; [exact O8|apply S9; exact Lr|apply Nat.le_refl|exact I9|exact He].
    + eapply has_kind_same; [exact K8|apply (S9 0); lia|eapply in_live; [exact I9|now left]].
  - cbv beta. intros h6 u (O6 & K6). pose proof (ok_g _ _ _ _ _ O6) as I6.
    eapply wp_seq; [apply (wp_release0 h6 (res :: t3 :: t2 :: l :: e) (Some t1)); eapply G_perm; [|exact I6]; unfold e5, e4; cnts|]. cbv beta. intros h7 _ (I7 & _ & S7).
    eapply wp_seq; [apply (wp_release0 h7 (res :: t3 :: l :: e) (Some t2)); eapply G_perm; [|exact I7]; cnts|]. cbv beta. intros h8 _ (I8 & _ & S8).
    eapply wp_seq; [apply (wp_release0 h8 (res :: l :: e) (Some t3)); eapply G_perm; [|exact I8]; cnts|]. cbv beta. intros h9 _ (I9 & _ & S9).
    eapply wp_seq; [apply (wp_release0 h9 (res :: e) (Some l)); eapply G_perm; [|exact I9]; cnts|]. cbv beta. intros h10 _ (I10 & _ & S10). apply wp_ret. split; [exact I10|].
    eapply has_kind_same; [eapply has_kind_same; [eapply has_kind_same; [eapply has_kind_same; [exact K6|exact S7|]|exact S8|]|exact S9|]|exact S10|]; eapply in_live; eauto; cbn; tauto.
Qed.
(** The group given: nothing lost.  None: the text made is lost. *)
Lemma get_packages_ok h e g name : G [] h e -> (forall a, g = Some a -> own h e a KGroup) ->
  wp (get_packages oracle matches g name) h (fun h' r => match g with Some _ => exists l, r = Some l /\ G [] h' (l :: e) /\ has_kind h' l (KList LPkg) | None => r = None /\ G [] h' (length h :: e) end).
Proof.
  intros I Hg. unfold get_packages, new_val, new_list. eapply wp_seq; [apply (wp_new2 [] h e (KVal (inl name)) I eq_refl)|]. cbv beta. intros h1 n (En & I1 & S1 & W1 & R1). rewrite <- En. clear En.
  destruct g as [g|]; [|now apply wp_ret]. specialize (Hg g eq_refl). assert (H1 : incl e (n :: e)) by (apply incl_tl, incl_refl).
  pose proof (own_mono _ _ (n :: e) _ _ H1 (own_step _ _ _ _ _ _ _ _ _ Hg I (incl_refl _) S1 I1 H1)) as O1.
  destruct (obj_list [] h1 (n :: e) (n :: e) g KGroup f_pkgs I1 O1 (fun x => x) (or_introl eq_refl) (or_introl eq_refl) (fun _ _ x => x)) as (sg & l & xs & Rg & Fg & (sl & Rl & El) & Ol & Hx).
  change (list_of f_pkgs) with LPkg in *. change (elem_kind LPkg) with KPkg in *.
  eapply wp_seq; [apply (wp_new2 [] h1 _ (KList LPkg) I1 eq_refl)|]. cbv beta. intros h2 res (Er & I2 & S2 & W2 & R2). assert (Lr : length h1 <= res) by lia. clear Er.
  apply wp_bind. eapply wp_member; [apply W2; exact Rg|exact Fg|]. cbn [items_if]. apply wp_bind. eapply wp_isl_items; [exists sl; split; [apply W2; exact Rl|exact El]|].
  assert (He : incl (n :: e) (res :: n :: e)) by (apply incl_tl, incl_refl).
  assert (O2 : ok [] h1 (n :: e) h2 (res :: n :: e)) by (constructor; auto).
  eapply wp_seq; [eapply (wp_each _ (fun _ hh => ok [] h1 (n :: e) hh (res :: n :: e) /\ has_kind hh res (KList LPkg)) (fun x => own h1 (n :: e) x KPkg)); [|split; [exact O2|eapply isres_kind; exact R2]|now apply ref_items]|].
  - intros u hh x (Oh & Kh) Ox. pose proof (ok_g _ _ _ _ _ Oh) as Ih.
    assert (Oxh : own hh (res :: n :: e) x KPkg) by (apply (own_mono _ (n :: e)); [exact He|]; exact (ok_own _ _ _ _ _ _ _ _ Oh (incl_refl _) Ox)).
    destruct (field [] hh _ _ x KPkg f_name Ih Oxh (fun x => x)) as (sx & rn & Rx & Fx & _ & _ & Vn); [now left|].
    apply wp_bind. eapply wp_member; [exact Rx|exact Fx|].
    eapply wp_seq; [apply wp_ocmp|]; [intros a ->; eapply via_live; [exact Ih|]; now apply Vn|intros a Ha; injection Ha as <-; eapply in_live; [exact Ih|right; now left]|]. cbv beta. intros h' b0 ->.
    eapply wp_seq; [apply ask_ok; eapply own_live; exact Oxh|]. cbv beta. intros h' b ->. destruct b; [|apply wp_ret; split; assumption].
    eapply wp_mono; [eapply (append_ok hh _ res LPkg x KPkg Ih); [apply own_in; [now left|exact Kh]|exact Oxh|reflexivity]|]. cbv beta. intros h9 _ (I9 & S9). split.
    + eapply ok_step; [exact Oh|apply S9; exact Lr|apply Nat.le_refl|exact I9|exact He].
    + eapply has_kind_same; [exact Kh|apply (S9 0); lia|eapply in_live; [exact I9|now left]].
  - cbv beta. intros h6 u (O6 & K6). pose proof (ok_g _ _ _ _ _ O6) as I6.
    eapply wp_seq; [apply (wp_release0 h6 (res :: e) (Some n)); eapply G_perm; [|exact I6]; cnts|]. cbv beta. intros h7 _ (I7 & _ & S7). apply wp_ret. exists res. split; [reflexivity|]. split; [exact I7|].
    eapply has_kind_same; [exact K6|exact S7|eapply in_live; [exact I7|now left]].
Qed.
(** * Comparing documents *)
Lemma doc_member h e d f : G [] h e -> In d e -> has_kind h d KDoc -> In f (layout KDoc) -> wp (member d f) h (fun h' r => h' = h /\ alive h r).
Proof.
  intros I Hd Kd Hl. destruct (field [] h e e d KDoc f I (own_in _ _ _ _ Hd Kd) (fun x => x) Hl) as (ss & r & R & F & _ & _ & Hv). eapply wp_member; [exact R|exact F|]. split; [reflexivity|].
  intros a ->. eapply via_live; [exact I|now apply Hv].
Qed.
Lemma cmp_members_ok h e d1 d2 fs : G [] h e -> In d1 e -> has_kind h d1 KDoc -> In d2 e -> has_kind h d2 KDoc -> incl fs (layout KDoc) -> wp (cmp_members oracle d1 d2 fs) h (fun h' _ => h' = h).
Proof.
  intros I H1 K1 H2 K2. induction fs as [|f fs IH]; intros Hi; cbn [cmp_members]; [now apply wp_ret|].
  eapply wp_seq; [apply (doc_member h e d1 f I H1 K1); apply Hi; now left|]. cbv beta. intros h' r1 (-> & A1). eapply wp_seq; [apply (doc_member h e d2 f I H2 K2); apply Hi; now left|]. cbv beta. intros h' r2 (-> & A2).
  eapply wp_seq; [apply wp_ocmp; assumption|]. cbv beta. intros h' b ->. destruct b; [|now apply wp_ret]. apply IH. intros x Hx. apply Hi. now right.
Qed.
Lemma cmp_objs_ok e d1 d2 ks : In d1 e -> In d2 e -> forall h, G [] h e -> has_kind h d1 KDoc -> has_kind h d2 KDoc -> wp (cmp_objs oracle d1 d2 ks) h (fun h' _ => G [] h' e).
Proof.
  intros H1 H2. induction ks as [|k ks IH]; intros h I K1 K2; cbn [cmp_objs]; [now apply wp_ret|].
  eapply wp_seq; [apply (get_grow h e d1 k I H1 K1)|]. cbv beta. intros ha t1 (Ia & Sa & _).
  eapply wp_seq; [apply (get_grow ha _ d2 k Ia (or_intror H2) (kind_grows _ _ _ _ _ _ K2 Sa Ia (or_intror H2)))|]. cbv beta. intros hb t2 (Ib & Sb & _). pose proof (grows_trans _ _ _ Sa Sb) as S0b.
  eapply wp_seq; [apply wp_ocmp; intros a Ha; injection Ha as <-; (eapply in_live; [exact Ib|cbn; tauto])|]. cbv beta. intros h' b ->.
  eapply wp_seq; [apply (release_grow hb (t2 :: e) (Some t1)); eapply G_perm; [|exact Ib]; cnts|]. cbv beta. intros hc _ (Ic & Sc).
  eapply wp_seq; [apply (release_grow hc e (Some t2) Ic)|]. cbv beta. intros hd _ (Id & Sd). destruct b; [|now apply wp_ret].
  assert (S0d : grows h hd) by (eapply grows_trans; [exact S0b|eapply grows_trans; eauto]). apply IH; [exact Id| |]; eapply kind_grows; eauto.
Qed.
Lemma doc_cmp_ok h e d1 d2 : G [] h e -> In d1 e -> has_kind h d1 KDoc -> In d2 e -> has_kind h d2 KDoc -> wp (doc_cmp oracle d1 d2) h (fun h' _ => G [] h' e).
Proof.
  intros I H1 K1 H2 K2. unfold doc_cmp. eapply wp_seq; [apply (cmp_members_ok h e d1 d2 _ I H1 K1 H2 K2); intros x Hx; cbn in *; tauto|]. cbv beta. intros h' b ->. destruct b; [now apply cmp_objs_ok|now apply wp_ret].
Qed.
End Compared.
