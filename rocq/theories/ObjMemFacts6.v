(** Facts about the memory of the document objects: the calls on one object. *)
From Verif Require Import CStr CStrFacts ObjMemModel ObjMemFacts1 ObjMemFacts2 ObjMemFacts3 ObjMemFacts4 ObjMemFacts5.

Lemma wp_release0 h ext r : G [] h (somes [r] ++ ext) -> wp (release r) h (fun h' _ => G [] h' ext /\ shrinks h h' /\ same (length h) h h').
Proof. intros I. eapply wp_mono; [apply (wp_release [] h ext r I); intros x []|]. cbv beta. intros h' _ (A & B). split; [exact A|]. split; [exact B|]. now apply shrinks_same. Qed.
Lemma obj_layout k : obj_tag k -> layout k = f_props :: f_names :: f_descs :: rest k.
Proof. intros [->|[->| ->]]; reflexivity. Qed.
Lemma obj_not_null k f : obj_tag k -> ~ nullable k f.
Proof. intros [->|[->| ->]] H; exact H. Qed.
Lemma fits_props k t : obj_tag k -> fits k f_props t -> t = KDict DProp.
Proof. intros [->|[->| ->]] H; exact H. Qed.
Lemma fits_rest k f t : obj_tag k -> In f (rest k) -> fits k f t -> t = KList (list_of f).
Proof. intros [->|[->| ->]] [<-|H] F; try exact F; cbn in H; first [contradiction | destruct H as [<-|[]]; exact F]. Qed.
Lemma fits_lang k f t : obj_tag k -> f = f_names \/ f = f_descs -> fits k f t -> t = KDict DLang.
Proof. intros [->|[->| ->]] [->| ->] F; exact F. Qed.
Lemma list_of_not_str f : list_of f <> LStr.
Proof. unfold list_of. destruct (seqb f f_pkgs); discriminate. Qed.
Lemma props_ok X h e e0 o k : G X h e -> own h e0 o k -> ~ In o X -> obj_tag k ->
  wp (props o) h (fun h' p => h' = h /\ own h e0 p (KDict DProp) /\ exists ss, isres h o k ss /\ find_slot f_props ss = Some (Ptr (Some p))).
Proof.
  intros I O Hx Ht. unfold props. eapply wp_mono; [eapply (wp_field X h e e0 o k f_props I O Hx)|].
  - rewrite obj_layout by exact Ht. now left.
  - now apply obj_not_null.
  - cbv beta. intros h' p (-> & Rs & t & Ot & Ft). apply (fits_props _ _ Ht) in Ft. subst t. auto.
Qed.

(** * Setters and getters *)
Lemma set_prop_ok h e o k key v : G [] h e -> own h e o k -> obj_tag k -> key <> f_arches ->
  wp (set_prop o key v) h (fun h' _ => G [] h' e).
Proof.
  intros I O Ht Hk. unfold set_prop. eapply wp_seq; [eapply (props_ok [] h e e o k I O); [intros []|exact Ht]|]. cbv beta. intros h' p (-> & Op & _).
  eapply wp_seq; [apply (wp_new2 [] h e (KVal v) I eq_refl)|]. cbv beta. intros h1 n (-> & I1 & S1 & W1 & R1).
  destruct (own_step _ _ _ _ _ _ e _ _ Op I (incl_refl _) S1 I1 (ltac:(inc))) as [Vp Kp]. destruct (has_kind_res _ _ _ Kp) as (sp & Rp).
  eapply wp_mono; [eapply (wp_dset_x [] h1 e p (KDict DProp) sp key (Some (length h)) I1 Rp eq_refl Vp)|].
  - intros [].
  - intros x [].
  - exists (KVal v). split; [eapply isres_kind; eauto|]. cbn. destruct (seqb key f_arches) eqn:E; [apply seqb_true in E; contradiction|exact Logic.I].
  - cbv beta. intros h2 _ (I2 & _). exact I2.
Qed.
Lemma unset_prop_ok h e o k key : G [] h e -> own h e o k -> obj_tag k -> wp (unset_prop o key) h (fun h' _ => G [] h' e).
Proof.
  intros I O Ht. unfold unset_prop. eapply wp_seq; [eapply (props_ok [] h e e o k I O); [intros []|exact Ht]|]. cbv beta. intros h' p (-> & [Vp Kp] & _).
  destruct (has_kind_res _ _ _ Kp) as (sp & Rp).
  eapply wp_mono; [eapply (wp_dset_x [] h e p (KDict DProp) sp key None I Rp eq_refl Vp)|]; [intros []|intros x []|exact Logic.I|].
  cbv beta. intros h2 _ (I2 & _). exact I2.
Qed.
Lemma get_prop_ok h e e0 o k key : G [] h e -> own h e0 o k -> obj_tag k -> incl e0 e ->
  wp (get_prop o key) h (fun h' r => G [] h' (somes [r] ++ e) /\ same (length h) h h' /\ forall b, r = Some b -> exists t, has_kind h' b t /\ fits (KDict DProp) key t).
Proof.
  intros I O Ht Hi. unfold get_prop. eapply wp_seq; [eapply (props_ok [] h e e0 o k I O); [intros []|exact Ht]|]. cbv beta. intros h' p (-> & [Vp Kp] & _).
  destruct (has_kind_res _ _ _ Kp) as (sp & Rp).
  eapply wp_mono; [eapply (wp_dget [] h e e0 p _ sp key I Rp Vp); intros []|]. cbv beta. intros h1 r (I1 & S1 & _ & _ & Hb). split; [exact I1|]. split; [exact S1|].
  intros b ->. destruct (Hb b eq_refl) as (_ & t & Kt & Ft). exists t. split; [|exact Ft]. eapply has_kind_same; [exact Kt|exact S1|]. eapply in_live; [exact I1|]. now left.
Qed.
Lemma set_arches_ok h e o k l : G [] h (somes [l] ++ e) -> own h e o k -> obj_tag k -> (forall a, l = Some a -> has_kind h a (KList LStr)) ->
  wp (set_arches o l) h (fun h' _ => G [] h' e).
Proof.
  intros I O Ht Hl. unfold set_arches. eapply wp_seq; [eapply (props_ok [] h _ e o k I O); [intros []|exact Ht]|]. cbv beta. intros h' p (-> & [Vp Kp] & _).
  destruct (has_kind_res _ _ _ Kp) as (sp & Rp).
  eapply wp_mono; [eapply (wp_dset_x [] h e p (KDict DProp) sp f_arches l I Rp eq_refl Vp)|]; [intros []|intros x []| |].
  - destruct l as [a|]; cbn; [|exact Logic.I]. exists (KList LStr). split; [now apply Hl|reflexivity].
  - cbv beta. intros h2 _ (I2 & _). exact I2.
Qed.
(** Replacing a member by an object the caller keeps. *)
Lemma replace_ok h e a k ss f r0 r : G [] h e -> isres h a k ss -> find_slot f ss = Some (Ptr r0) -> via h e a -> fit_ref h k f r -> (forall b, r = Some b -> In b e) ->
  wp (drop_member a f ;;; incref r ;;; set_member a f (Ptr r)) h (fun h' _ => G [] h' e).
Proof.
  intros I R F V Fr Hr. eapply wp_seq; [eapply (wp_drop [] h e a k ss f r0 I R F V); [intros x []|now left]|]. cbv beta. intros h1 _ (I1 & R1 & S1).
  pose proof (isres_solid _ _ _ _ _ _ I R (fun x => x)) as Hs.
  eapply wp_seq; [apply (wp_incref2 [a] h1 e r I1)|]; [intros b ->; eapply in_live; [exact I1|now apply Hr]|]. cbv beta. intros h2 _ (I2 & S2 & W2).
  eapply wp_mono; [eapply (wp_set_member [a] h2 (somes [r] ++ e) e); [exact I2|apply W2; exact R1|eapply find_put; eauto| |]|].
  - intros x. rewrite count_occ_app. destruct r; cbn; lia.
  - apply fit_slot. eapply fit_same; [exact Fr|eapply same_trans; [apply (S1 0); lia|eapply same_weak; [|exact S2]; lia]|]. intros b ->. eapply in_live; [exact I2|]. now left.
  - cbn [opened]. intros h3 _ (I3 & _ & R3). rewrite put_put in R3. eapply G_unhole; [exact I3|exact R3|]. intros Hh. apply Hs. eapply put_hole; eauto.
Qed.
Lemma set_objlist_ok h e o k f l : G [] h e -> own h e o k -> obj_tag k -> In f (rest k) -> In l e -> has_kind h l (KList (list_of f)) ->
  wp (set_objlist o f l) h (fun h' _ => G [] h' e).
Proof.
  intros I O Ht Hf Hl Kl. destruct (field _ _ _ _ _ _ f I O (fun x => x)) as (ss & r & R & F & _ & Fr & _); [rewrite obj_layout by exact Ht; right; right; now right|].
  unfold set_objlist. eapply replace_ok; [exact I|exact R|exact F|apply O| |].
  - exists (KList (list_of f)). split; [exact Kl|]. destruct Ht as [->|[->| ->]]; destruct Hf as [<-|Hf]; try reflexivity; try (destruct Hf as [<-|Hf]; [reflexivity|]); destruct Hf.
  - intros b Hb. injection Hb as <-. exact Hl.
Qed.
Definition doc_text (f : str) : Prop := f = f_enc \/ f = f_dtname \/ f = f_dtsys \/ f = f_dtpub.
Lemma fits_text f t : doc_text f -> (fits KDoc f t <-> is_val t) /\ nullable KDoc f /\ In f (layout KDoc).
Proof. intros H. destruct H as [->|[->|[->| ->]]]; (split; [split; intros H; exact H|split; [split; reflexivity|cbn; tauto]]). Qed.
Lemma doctype_set_ok h e d v : G [] h e -> own h e d KDoc -> (forall a, v = Some a -> In a e /\ exists t, has_kind h a t /\ is_val t) ->
  wp (doctype_set d v) h (fun h' _ => G [] h' e).
Proof.
  intros I O Hv. assert (Hd : doc_text f_dtname) by (right; now left). destruct (fits_text f_dtname (KVal (inr 0%Z)) Hd) as (_ & Hn & Hl).
  destruct (field _ _ _ _ _ _ f_dtname I O (fun x => x) Hl) as (ss & r & R & F & _ & Fr & _).
  unfold doctype_set. eapply replace_ok; [exact I|exact R|exact F|apply O| |].
  - destruct v as [a|]; cbn [fit_ref]; [|exact Hn]. destruct (Hv a eq_refl) as (_ & t & Kt & It). exists t. split; [exact Kt|]. now apply (fits_text f_dtname t Hd).
  - intros b ->. now apply Hv.
Qed.
Definition item_tag (k : tag) : Prop := k = KPkg \/ k = KGid.
Lemma item_fits k f t : item_tag k -> f <> f_arches -> is_val t -> fits k f t.
Proof. intros [->| ->] Hf Ht; cbn; destruct (seqb f f_arches) eqn:E; try exact Ht; apply seqb_true in E; contradiction. Qed.
Lemma set_val_ok h e o k f v : G [] h e -> own h e o k -> item_tag k -> In f (layout k) -> f <> f_arches -> wp (set_val o f v) h (fun h' _ => G [] h' e).
Proof.
  intros I O Ht Hl Hf. destruct (field _ _ _ _ _ _ f I O (fun x => x) Hl) as (ss & r & R & F & Hs & Fr & _). unfold set_val.
  apply wp_bind. eapply wp_member; [exact R|exact F|]. destruct r as [b|].
  - eapply wp_seq; [eapply (wp_drop [] h e o k ss f (Some b) I R F (proj1 O)); [intros x []|now left]|]. cbv beta. intros h1 _ (I1 & R1 & S1).
    eapply wp_mono; [eapply (wp_init2 [o] h1 e o k _ f (KVal v) Hole I1 R1); [eapply find_put; eauto|reflexivity|now apply item_fits|reflexivity]|].
    cbv beta. intros h2 _ (n & _ & I2 & R2 & _). rewrite put_put in R2. eapply G_unhole; [exact I2|exact R2|]. intros Hh. apply Hs. eapply put_hole; eauto.
  - apply wp_bind, wp_ret. eapply wp_mono; [eapply (wp_init2 [] h e o k ss f (KVal v) (Ptr None) I R F); [reflexivity|now apply item_fits|reflexivity]|].
    cbv beta. intros h2 _ (n & _ & I2 & _). exact I2.
Qed.
Lemma get_val_ok h e e0 o k f : G [] h e -> own h e0 o k -> In f (layout k) -> incl e0 e ->
  wp (get_val o f) h (fun h' r => G [] h' (somes [r] ++ e) /\ same (length h) h h' /\ forall b, r = Some b -> exists t, has_kind h' b t /\ fits k f t).
Proof.
  intros I O Hl Hi. destruct (field _ _ _ _ _ _ f I O (fun x => x) Hl) as (ss & r & R & F & Hs & Fr & Hv). unfold get_val.
  apply wp_bind. eapply wp_member; [exact R|exact F|].
  assert (Lr : forall b, r = Some b -> live h b) by (intros b ->; destruct Fr as (t & Kt & _); eapply has_kind_live; eauto).
  eapply wp_seq; [apply (wp_incref2 [] h e r I Lr)|]. cbv beta. intros h1 _ (I1 & S1 & W1). apply wp_ret. split; [exact I1|]. split; [exact S1|].
  intros b ->. destruct Fr as (t & Kt & Ft). exists t. split; [|exact Ft]. eapply has_kind_same; [exact Kt|exact S1|]. eapply in_live; [exact I1|]. now left.
Qed.
Lemma set_item_arches_ok h e o k l : G [] h (somes [l] ++ e) -> own h e o k -> item_tag k -> (forall a, l = Some a -> has_kind h a (KList LStr)) ->
  wp (set_item_arches o l) h (fun h' _ => G [] h' e).
Proof.
  intros I O Ht Kl. assert (Hl : In f_arches (layout k)) by (destruct Ht as [->| ->]; cbn; tauto).
  destruct (field _ _ _ _ _ _ f_arches I O (fun x => x) Hl) as (ss & r & R & F & Hs & Fr & _). unfold set_item_arches.
  eapply wp_seq; [eapply (wp_drop [] h _ o k ss f_arches r I R F); [eapply via_mono; [|apply O]; inc|intros x []|now left]|]. cbv beta. intros h1 _ (I1 & R1 & S1).
  eapply wp_mono; [eapply (wp_set_member [o] h1 (somes [l] ++ e) e); [exact I1|exact R1|eapply find_put; eauto| |]|].
  - intros x. rewrite count_occ_app. destruct l; cbn; lia.
  - apply fit_slot. eapply (fit_same 0 h h1); [|apply S1; lia|intros b ->; eapply in_live; [exact I1|now left]].
    destruct l as [a|]; cbn [fit_ref]; [exists (KList LStr); split; [now apply Kl|]; destruct Ht as [->| ->]; reflexivity|destruct Ht as [->| ->]; exact Logic.I].
  - cbn [opened]. intros h3 _ (I3 & _ & R3). rewrite put_put in R3. eapply G_unhole; [exact I3|exact R3|]. intros Hh. apply Hs. eapply put_hole; eauto.
Qed.
Lemma add_item_at X h e o k ss f et l sl x t : G X h (x :: e) -> isres h o k ss -> obj_tag k -> In f (rest k) -> find_slot f ss = Some (Ptr (Some l)) ->
  isres h l (KList (list_of f)) sl -> has_kind h x t -> elem (list_of f) t ->
  wp (add_item o f et x) h (fun h' _ => G X h' e /\ upd l h h' /\ isres h' l (KList (list_of f)) (sl ++ [item (Some x)])).
Proof.
  intros I R Ht Hf F Rl Kx Ex. unfold add_item. apply wp_bind. eapply wp_member; [exact R|exact F|].
  eapply wp_mono; [eapply (wp_append_x X h e l (list_of f) sl (Some x) I Rl)|].
  - intros y Hy. injection Hy as <-. eauto.
  - discriminate.
  - cbv beta. intros h1 _ (I1 & U1 & R1). auto.
Qed.
Lemma rest_list X h e o k ss f l : G X h e -> isres h o k ss -> obj_tag k -> In f (rest k) -> find_slot f ss = Some (Ptr (Some l)) -> has_kind h l (KList (list_of f)).
Proof.
  intros I R Ht Hf F. destruct (isres_fits _ _ _ _ _ _ _ _ I R (find_in _ _ _ F)) as (tl & Kl & Fl). apply (fits_rest _ _ _ Ht Hf) in Fl. now subst tl.
Qed.
Lemma add_item_ok h e o k f et x t : G [] h (x :: e) -> own h e o k -> obj_tag k -> In f (rest k) -> has_kind h x t -> elem (list_of f) t ->
  wp (add_item o f et x) h (fun h' _ => G [] h' e).
Proof.
  intros I O Ht Hf Kx Ex. destruct (field _ _ _ _ _ _ f I O (fun x => x)) as (ss & r & R & F & _ & Fr & _); [rewrite obj_layout by exact Ht; right; right; now right|].
  destruct r as [l|]; [|now apply obj_not_null in Fr]. destruct (has_kind_res _ _ _ (rest_list _ _ _ _ _ _ _ _ I R Ht Hf F)) as (sl & Rl).
  eapply wp_mono; [eapply add_item_at; eauto|]. cbv beta. intros h1 _ (I1 & _). exact I1.
Qed.
Lemma append_ok h e l et x t : G [] h e -> own h e l (KList et) -> own h e x t -> elem et t -> wp (append l (Some x)) h (fun h' _ => G [] h' e /\ (forall n, n <= l -> same n h h')).
Proof.
  intros I Ol Ox Ex. unfold append. eapply wp_seq; [apply (wp_incref2 [] h e (Some x) I)|]; [intros a Ha; injection Ha as <-; eapply own_live; eauto|]. cbv beta. intros h1 _ (I1 & S1 & W1).
  destruct (has_kind_res _ _ _ (proj2 Ol)) as (sl & Rl). pose proof (isres_lt _ _ _ _ Rl) as Ll.
  eapply wp_mono; [eapply (wp_append_x [] h1 e l et sl (Some x) I1 (W1 _ _ _ Rl))|].
  - intros y Hy. injection Hy as <-. exists t. split; [|exact Ex]. eapply has_kind_same; [apply Ox|exact S1|]. eapply in_live; [exact I1|]. now left.
  - discriminate.
  - cbv beta. intros h2 _ (I2 & U2 & _). split; [exact I2|]. intros n Hn. eapply same_trans; [eapply same_weak; [|exact S1]; lia|]. eapply upd_same; eauto.
Qed.

(** * Documents *)
Lemma fits_not_doc k f : ~ fits k f KDoc.
Proof.
  destruct k as [v|e|[]| | | | | | | |]; cbn; try tauto; try discriminate.
  - destruct e; cbn; (discriminate || tauto).
  - destruct (seqb f f_arches); [discriminate|tauto].
  - unfold obj_kind. repeat match goal with |- context [if ?b then _ else _] => destruct b end; discriminate.
  - destruct (seqb f f_arches); [discriminate|tauto].
  - destruct (seqb f f_arches); [discriminate|tauto].
  - repeat match goal with |- context [if ?b then _ else _] => destruct b end; discriminate.
  - repeat match goal with |- context [if ?b then _ else _] => destruct b end; discriminate.
  - repeat match goal with |- context [if ?b then _ else _] => destruct b end; discriminate.
  - repeat match goal with |- context [if ?b then _ else _] => destruct b end; (discriminate || tauto).
Qed.
(** A document is in no object. *)
Lemma own_doc X h e e0 d : G X h e -> own h e0 d KDoc -> In d e0.
Proof.
  intros I [V (c & H & K)]. destruct V as [d Hd|l d V _ Hl]; [exact Hd|]. exfalso. unfold kidsof in Hl. destruct (nth_error h l) as [[cl|]|] eqn:El; try destruct Hl.
  apply in_kids in Hl. destruct Hl as (f & Hf). destruct (g_shape _ _ _ I l cl El) as [_ [S _]]. rewrite Forall_forall in S. specialize (S _ Hf c H). cbn in S. rewrite K in S.
  exact (fits_not_doc _ _ S).
Qed.
Lemma docres_upd n0 h h' d l kl : docres n0 h d -> upd l h h' -> has_kind h l kl -> kl <> KDoc -> kl <> KDict DObjs -> docres n0 h' d.
Proof.
  intros (ss & o & so & R & F & Lo & Ro & Fo) U K N1 N2. exists ss, o, so. split; [|split; [exact F|split; [exact Lo|split; [|exact Fo]]]].
  - eapply isres_upd; [exact R|exact U|]. intros ->. apply N1. eapply has_kind_fun; [exact K|]. eapply isres_kind; eauto.
  - eapply isres_upd; [exact Ro|exact U|]. intros ->. apply N2. eapply has_kind_fun; [exact K|]. eapply isres_kind; eauto.
Qed.
Lemma doc_set_ok n0 h e d k x : G [] h e -> own h e d KDoc -> docres n0 h d -> n0 <= length h -> n0 <= x -> has_kind h x (obj_kind k) ->
  wp (doc_set d k x) h (fun h' _ => G [] h' e /\ same n0 h h').
Proof.
  intros I O D Hn Hnx Kx. unfold doc_set. eapply wp_seq; [eapply doc_objects; [exact I|exact O|intros []]|]. cbv beta. intros h' o (-> & [Vo Ko] & ss & Rd & Fd).
  destruct (has_kind_res _ _ _ Ko) as (so & Ro).
  eapply wp_mono; [eapply (wp_dset [] h e o (KDict DObjs) so k (Some x) I Ro eq_refl Vo)|].
  - intros [].
  - intros y [].
  - exists (obj_kind k). split; [exact Kx|reflexivity].
  - cbv beta. intros h1 _ (I1 & _ & _ & S1). split; [exact I1|]. apply S1. destruct D as (ss' & o' & so' & R' & F' & Lo & _).
    destruct Rd as (c & H & _ & E), R' as (c' & H' & _ & E'). assert (c' = c) by congruence. subst c'. assert (ss' = ss) by congruence. subst ss'. assert (o' = o) by congruence. now subst o'.
Qed.
Lemma doc_add_ok n0 h e e0 d k et x t : G [] h (x :: e) -> own h e0 d KDoc -> incl e0 e -> docres n0 h d -> n0 <= length h -> obj_kind k = KList et -> has_kind h x t -> elem et t ->
  wp (doc_add d k x) h (fun h' _ => G [] h' e /\ same n0 h h' /\ docres n0 h' d).
Proof.
  intros I O Hi D Hn Hk Kx Ex. unfold doc_add. eapply wp_seq; [eapply (doc_open_ok h _ e0 d k I O); inc|]. cbv beta. intros h1 l (I1 & S1 & K1 & E1).
  assert (Vd : own h1 e0 d KDoc) by (eapply own_step; [exact O|exact I| |exact S1|exact I1|]; [intros y Hy; right; auto|intros y Hy; right; right; auto]).
  assert (D1 : docres n0 h1 d) by (eapply docres_same; [exact D|exact S1|exact Hn|exact I1|eapply own_live; eauto]).
  pose proof (entry_fresh _ _ _ _ _ D1 E1) as Ll. rewrite Hk in K1. destruct (has_kind_res _ _ _ K1) as (sl & Rl). pose proof (same_length _ _ _ S1) as L1.
  eapply wp_seq; [eapply (wp_append_x [] h1 (l :: e) l et sl (Some x))|].
  - eapply G_perm; [|exact I1]. cnts.
  - exact Rl.
  - intros y Hy. injection Hy as <-. exists t. split; [|exact Ex]. eapply has_kind_same; [exact Kx|exact S1|]. eapply in_live; [exact I1|]. right. now left.
  - discriminate.
  - cbv beta. intros h2 _ (I2 & U2 & R2).
    assert (D2 : docres n0 h2 d) by (eapply docres_upd; [exact D1|exact U2|exact K1|discriminate|discriminate]).
    eapply wp_mono; [apply (wp_release0 h2 e (Some l) I2)|]. cbv beta. intros h3 _ (I3 & Sh3 & S3). split; [exact I3|]. pose proof (upd_length _ _ _ U2) as L2. split.
    + eapply same_trans; [eapply same_weak; [|exact S1]; exact Hn|]. eapply same_trans; [eapply upd_same; eauto|]. now apply shrinks_same.
    + eapply docres_same; [exact D2|exact S3|lia|exact I3|].
      eapply in_live; [exact I3|]. apply Hi. exact (own_doc _ _ _ _ _ I O).
Qed.
Lemma doc_add_lang_ok h e d key x : G [] h (somes [x] ++ e) -> own h e d KDoc -> (forall a, x = Some a -> exists t, has_kind h a t /\ is_val t) ->
  wp (doc_add_lang d key x) h (fun h' _ => G [] h' e).
Proof.
  intros I O Kx. unfold doc_add_lang. eapply wp_seq; [eapply (doc_open_ok h _ e d o_lang I O); inc|]. cbv beta. intros h1 l (I1 & S1 & K1 & E1).
  change (has_kind h1 l (KDict DLang)) in K1. destruct (has_kind_res _ _ _ K1) as (sl & Rl).
  eapply wp_seq; [eapply (wp_dset_x [] h1 (l :: e) l (KDict DLang) sl key x)|].
  - eapply G_perm; [|exact I1]. intros a. cbn [app]. rewrite !count_occ_app. cbn [count_occ]. rewrite count_occ_app. destruct (Nat.eq_dec l a); lia.
  - exact Rl.
  - reflexivity.
  - apply via_in. now left.
  - intros [].
  - intros y [].
  - destruct x as [a|]; cbn [fit_ref]; [|exact Logic.I]. destruct (Kx a eq_refl) as (t & Kt & It). exists t. split; [|exact It].
    eapply has_kind_same; [exact Kt|exact S1|]. eapply in_live; [exact I1|]. right. now left.
  - cbv beta. intros h2 _ (I2 & _). eapply wp_mono; [apply (wp_release0 h2 e (Some l) I2)|]. cbv beta. intros h3 _ (I3 & _). exact I3.
Qed.
Lemma via_grow h h' e a b : (forall x, x <> a -> nth_error h' x = nth_error h x) -> (forall x, In x (kidsof h a) -> In x (kidsof h' a)) -> via h e b -> via h' e b.
Proof.
  intros O K V. induction V as [b Hb|l b V IH _ Hb]; [now constructor|]. eapply reach_kid; [exact IH|intros []|].
  destruct (Nat.eq_dec l a) as [->|Hne]; [auto|]. unfold kidsof in *. now rewrite O.
Qed.
Lemma mset_ok h e d k x : G [] h (somes [x] ++ e) -> own h e d KMDict -> (forall a, x = Some a -> exists t, has_kind h a t /\ is_val t) ->
  wp (mset_x d k x) h (fun h' _ => G [] h' e).
Proof.
  intros I [V K] Kx. destruct (has_kind_res _ _ _ K) as (sd & Rd). unfold mset_x.
  eapply wp_seq; [eapply (wp_dget_x [] h _ e d KMDict sd k I Rd V); intros []|]. cbv beta. intros h' r (-> & F & Hb). destruct r as [l|].
  - destruct (Hb l eq_refl) as (Vl & t & Kt & Ft). cbn in Ft. subst t. destruct (has_kind_res _ _ _ Kt) as (sl & Rl).
    eapply wp_mono; [eapply (wp_append_x [] h e l LStr sl x I Rl Kx)|]; [reflexivity|]. cbv beta. intros h1 _ (I1 & _). exact I1.
  - destruct F as [(_ & D)|(F & _)]; [destruct D|].
    eapply wp_seq; [apply (wp_new2 [] h _ (KList LStr) I eq_refl)|]. cbv beta. intros h1 n (-> & I1 & S1 & W1 & R1).
    eapply wp_seq; [eapply (wp_append_x [] h1 (length h :: e) (length h) LStr [] x)|].
    + eapply G_perm; [|exact I1]. intros a. cbn [app]. rewrite !count_occ_app. cbn [count_occ]. rewrite count_occ_app. destruct (Nat.eq_dec (length h) a); lia.
    + exact R1.
    + intros a Ha. destruct (Kx a Ha) as (t & Kt & It). exists t. split; [|exact It]. eapply has_kind_same; [exact Kt|exact S1|]. eapply in_live; [exact I1|]. subst x. right. now left.
    + reflexivity.
    + cbv beta. intros h2 _ (I2 & U2 & R2).
      assert (Hne : d <> length h) by (pose proof (isres_lt _ _ _ _ Rd); lia).
      assert (V1 : via h1 e d) by (eapply (via_same h h1 (somes [x] ++ e) (length h :: somes [x] ++ e) e); [exact I|inc|exact S1|exact I1|inc|exact V]).
      assert (V2 : via h2 e d).
      { eapply (via_grow h1 h2 e (length h)); [apply U2| |exact V1]. intros b Hb0. destruct R1 as (c & Hc & _ & Ec). rewrite (kidsof_at _ _ _ Hc) in Hb0. unfold kids in Hb0. rewrite Ec in Hb0. destruct Hb0. }
      eapply wp_mono; [eapply (wp_dset_x [] h2 e d KMDict sd k (Some (length h)) I2)|].
      * eapply isres_upd; [apply W1; exact Rd|exact U2|exact Hne].
      * reflexivity.
      * exact V2.
      * intros [].
      * intros y [].
      * exists (KList LStr). split; [eapply isres_kind; eauto|reflexivity].
      * cbv beta. intros h3 _ (I3 & _). exact I3.
Qed.
Lemma doc_add_multi_ok h e d k key x : G [] h (somes [x] ++ e) -> own h e d KDoc -> obj_kind k = KMDict -> (forall a, x = Some a -> exists t, has_kind h a t /\ is_val t) ->
  wp (doc_add_multi d k key x) h (fun h' _ => G [] h' e).
Proof.
  intros I O Hk Kx. unfold doc_add_multi. eapply wp_seq; [eapply (doc_open_ok h _ e d k I O); inc|]. cbv beta. intros h1 l (I1 & S1 & K1 & E1). rewrite Hk in K1.
  eapply wp_seq; [eapply (mset_ok h1 (l :: e) l key x)|].
  - eapply G_perm; [|exact I1]. intros a. cbn [app]. rewrite !count_occ_app. cbn [count_occ]. rewrite count_occ_app. destruct (Nat.eq_dec l a); lia.
  - apply own_in; [now left|exact K1].
  - intros a Ha. destruct (Kx a Ha) as (t & Kt & It). exists t. split; [|exact It]. eapply has_kind_same; [exact Kt|exact S1|]. eapply in_live; [exact I1|]. subst x. right. now left.
  - cbv beta. intros h2 _ I2. eapply wp_mono; [apply (wp_release0 h2 e (Some l) I2)|]. cbv beta. intros h3 _ (I3 & _). exact I3.
Qed.
