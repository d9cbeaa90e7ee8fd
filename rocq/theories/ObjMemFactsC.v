(** Facts about the memory of the document objects: every call of a client that keeps
    to the rules, and what memory looks like after histories. *)
From Verif Require Import CStr CStrFacts ObjMemModel ObjMemFacts1 ObjMemFacts2 ObjMemFacts3 ObjMemFacts4 ObjMemFacts5 ObjMemFacts6 ObjMemFacts7 ObjMemFacts8 ObjMemFacts9 ObjMemFactsA ObjMemFactsB ObjMemFactsE ObjMemFactsF.
From Verif Require Import SpecX.

(** * The words of the claims *)
Lemma points_kids h a f b : points h a f b -> In b (kidsof h a).
Proof. intros (c & H & Hi). rewrite (kidsof_at _ _ _ H). exact (kids_in _ _ _ Hi). Qed.
Lemma kids_points h a b : In b (kidsof h a) -> exists f, points h a f b.
Proof.
  unfold kidsof. intros H. destruct (nth_error h a) as [[c|]|] eqn:E; [|destruct H|destruct H].
  destruct (in_kids c b H) as (f & Hf). exists f, c. split; [exact E|exact Hf].
Qed.
Lemma from_via h refs a : from h refs a <-> via h refs a.
Proof.
  split.
  - intros H. induction H as [a H|a f b H IH P]; [now apply reach_root|]. eapply reach_kid; [exact IH|intros []|exact (points_kids _ _ _ _ P)].
  - intros H. induction H as [a H|l a H IH _ Hk]; [now apply from_held|]. destruct (kids_points _ _ _ Hk) as (f & P). exact (from_next _ _ _ _ _ IH P).
Qed.
Lemma usable_own h kept e a k : incl kept e -> usable h kept a k -> own h e a k.
Proof. intros Hi [F K]. split; [|exact K]. apply (via_mono h kept e a Hi). now apply from_via. Qed.
Lemma is_kind h a k : is h a k <-> has_kind h a k.
Proof. split; intros H; exact H. Qed.
Lemma text_val h a : is_text h a -> exists t, has_kind h a t /\ is_val t.
Proof. intros (v & K). exists (KVal v). split; [exact K|exact Logic.I]. Qed.
Lemma belongs_elem h e a : belongs h e a -> exists t, has_kind h a t /\ elem e t.
Proof. destruct e; cbn [belongs]; intros H; try (eexists; split; [exact H|reflexivity]). exact (text_val _ _ H). Qed.
Lemma pkind_tag p : obj_tag (pkind p).
Proof. destruct p; unfold obj_tag; cbn; auto. Qed.
Lemma plists_rest p f e : In (f, e) (plists p) -> In f (rest (pkind p)) /\ e = list_of f.
Proof. destruct p; cbn [plists In pkind rest]; intros H; repeat destruct H as [H|H]; try contradiction; injection H as <- <-; (split; [auto|reflexivity]). Qed.
Lemma rest_plists p f : In f (rest (pkind p)) -> In (f, list_of f) (plists p).
Proof. destruct p; cbn [plists In pkind rest]; intros H; repeat destruct H as [H|H]; try contradiction; subst f; cbn; auto. Qed.
Lemma wkind_tag w : item_tag (wkind w).
Proof. destruct w; unfold item_tag; cbn; auto. Qed.
Lemma wvals_layout w f : In f (wvals w) -> In f (layout (wkind w)) /\ f <> f_arches.
Proof. destruct w; cbn [wvals In wkind layout]; intros H; repeat destruct H as [H|H]; try contradiction; subst f; (split; [auto|discriminate]). Qed.
Lemma pkey_part p : ObjMemFactsB.part (pkey p) (pety p) (pkind p).
Proof. destruct p; [exact part_groups|exact part_cats|exact part_envs]. Qed.
Lemma pelem p : elem (pety p) (pkind p).
Proof. destruct p; reflexivity. Qed.
Lemma copyable_plain k : copyable k -> plain k = true.
Proof. destruct k as [| |[]| | | | | | | |]; cbn; tauto. Qed.
Lemma refs_somes r : refs_of r = somes [r].
Proof. destruct r; reflexivity. Qed.

(** * The name of an item *)
Lemma list_of_cases f : list_of f = LPkg \/ list_of f = LGid.
Proof. unfold list_of. destruct (seqb f f_pkgs); auto. Qed.
Lemma name_key h e x k : G [] h e -> has_kind h x k -> item_tag k -> name_of h x = key tname h x.
Proof.
  intros I K T. destruct (name_at h e x k I K T) as (ss & r & (c & H & Kc & E) & F & V). unfold name_of. rewrite H, E, F.
  destruct r as [b|], (key tname h x) as [v|]; cbn in V; try contradiction; [|reflexivity]. destruct V as (cb & Hb & Kb). now rewrite Hb, Kb.
Qed.
Lemma different_distinct h e p o : G [] h e -> different h p o -> distinct_items h o (pkind p).
Proof.
  intros I D f Hf xs (k & ss & l & (c & H & K & E) & F & sl & Rl & El). pose proof Rl as (cl & Hl & Kl & Sl).
  assert (P : points h o f l) by (exists c; split; [exact H|rewrite E; exact (find_in _ _ _ F)]).
  rewrite map_map in El. rewrite <- Sl in El. pose proof (D f (list_of f) l cl xs (rest_plists p f Hf) P Hl El) as N.
  replace (map (key tname h) xs) with (map (name_of h) xs); [exact N|]. apply map_ext_in. intros x Hx.
  assert (Hs : exists g, In (g, Ptr (Some x)) (slots cl)).
  { apply (in_map (fun x => Ptr (Some x))) in Hx. rewrite <- El in Hx. apply in_map_iff in Hx as ([g s] & Es & Hs). cbn in Es. subst s. eauto. }
  destruct Hs as (g & Hs). rewrite Sl in Hs. destruct (isres_fits _ _ _ _ _ _ _ _ I Rl Hs) as (t & Kt & Ft). apply (name_key h e x t I Kt).
  cbn [fits] in Ft. unfold item_tag. destruct (list_of_cases f) as [Ec|Ec]; rewrite Ec in Ft; cbn in Ft; auto.
Qed.

(** Two accounts of one memory. *)
Lemma no_more h r lost e : G [] h (r :: lost ++ e) -> G [] h (r :: e) -> lost = [].
Proof.
  intros I I'. destruct lost as [|x lost]; [reflexivity|]. exfalso. assert (Hx : In x (r :: (x :: lost) ++ e)) by (right; now left). destruct (in_live _ _ _ _ I Hx) as (c & Hc).
  pose proof (inv_refc _ _ _ (g_inv _ _ _ I) x c Hc) as C. pose proof (inv_refc _ _ _ (g_inv _ _ _ I') x c Hc) as C'. cbn [app count_occ] in C, C'. rewrite count_occ_app in C. destruct (Nat.eq_dec x x); [|congruence]. destruct (Nat.eq_dec r x); lia.
Qed.
(** * The id of an object *)
Lemma id_key h e x k : G [] h e -> has_kind h x k -> obj_tag k -> id_of h x = key tid h x.
Proof.
  intros I K T. destruct (id_at h e x k I K T) as (ss & p & sp & (c & H & _ & E) & F & (cp & Hp & _ & Ep) & V). unfold id_of. rewrite H, E, F, Hp, Ep. change (S_ "id") with f_id.
  destruct V as [(F' & ->)|(r & F' & V)]; rewrite F'; [reflexivity|]. destruct r as [b|], (key tid h x) as [v|]; cbn in V; try contradiction; [|reflexivity]. destruct V as (cb & Hb & Kb). now rewrite Hb, Kb.
Qed.
Lemma separate_good h e p d : G [] h e -> In d e -> has_kind h d KDoc -> separate h p d -> good_part h d (pkey p) (pety p) (pkind p).
Proof.
  intros I Hd (c & Hc & Kc) (o & l & cl & xs & (c' & Hc' & Po) & (co & Hco & Pl) & Hl & El & N & Df). assert (c' = c) by (unfold at_ in Hc'; congruence). subst c'.
  assert (R : isres h d KDoc (slots c)) by (exists c; auto). assert (Ko : has_kind h o (KDict DObjs)) by (destruct (isres_fits _ _ _ _ _ _ _ _ I R Po) as (t & Kt & Ft); cbn in Ft; change (t = KDict DObjs) in Ft; now subst t).
  assert (Ro : isres h o (KDict DObjs) (slots co)) by (destruct Ko as (c2 & H2 & K2); exists co; split; [exact Hco|split; [unfold at_ in Hco; congruence|reflexivity]]).
  assert (En : entry h d (pkey p) l).
  { exists (slots c), o, (slots co). split; [exact R|]. split; [|split; [exact Ro|exact Pl]]. apply find_uniq; [|exact Po]. destruct (isres_shape _ _ _ _ _ _ I R) as (S1 & _). rewrite S1 by discriminate. repeat constructor; cbn; intuition discriminate. }
  pose proof (entry_own _ _ _ _ _ _ _ I Hd En) as Ol. rewrite (p_kind _ _ _ (pkey_part p)) in Ol.
  assert (L : isl h l (pety p) (map Some xs)) by (exists (slots cl); split; [destruct Ol as (_ & c2 & H2 & K2); exists cl; split; [exact Hl|split; [unfold at_ in Hl; congruence|reflexivity]]|rewrite map_map; exact El]).
  pose proof (part_own _ _ _ _ _ _ _ (pkey_part p) I Ol L) as Ox. rewrite Forall_forall in Ox. exists l, xs. split; [exact En|]. split; [exact L|]. split.
  - replace (map (key tid h) xs) with (map (id_of h) xs); [exact N|]. apply map_ext_in. intros x Hx. apply (id_key h e x (pkind p) I (proj2 (Ox x Hx)) (pkind_tag p)).
  - apply Forall_forall. intros x Hx. exact (different_distinct h e p x I (Df x Hx)).
Qed.
Lemma separate_doc h e d : G [] h e -> In d e -> has_kind h d KDoc -> (forall p, separate h p d) -> good_doc h d.
Proof. intros I Hd K S. split; [|split]; [exact (separate_good h e PGroup d I Hd K (S _))|exact (separate_good h e PCat d I Hd K (S _))|exact (separate_good h e PEnv d I Hd K (S _))]. Qed.

(** * Every call *)
Ltac shift := let a := fresh in intros a; cbn [app somes flat_map]; repeat (rewrite count_occ_app || cbn [count_occ app]); repeat destruct (Nat.eq_dec _ _); lia.
Lemma then_gives {m : M addr} {h} (Q : mem -> list addr -> Prop) : wp m h (fun h' r => Q h' [r]) -> wp (gives m) h Q.
Proof. intros H. unfold gives. apply wp_bind. eapply wp_mono; [exact H|]. cbv beta. intros h' r Hr. now apply wp_ret. Qed.
Lemma then_opt {m : M ref} {h} (Q : mem -> list addr -> Prop) : wp m h (fun h' r => Q h' (refs_of r)) -> wp (gives_opt m) h Q.
Proof. intros H. unfold gives_opt. apply wp_bind. eapply wp_mono; [exact H|]. cbv beta. intros h' r Hr. now apply wp_ret. Qed.
Lemma then_none {A} {m : M A} {h} (Q : mem -> list addr -> Prop) : wp m h (fun h' _ => Q h' []) -> wp (gives_none m) h Q.
Proof. intros H. unfold gives_none. apply wp_bind. eapply wp_mono; [exact H|]. cbv beta. intros h' r Hr. now apply wp_ret. Qed.
Section Calls.
Variable oracle : mem -> addr -> addr -> bool.
Variable matches : mem -> addr -> bool.
(** After a call: the references given, those kept, and those lost. *)
Definition after (h : mem) (c : call) (e : list addr) (h' : mem) (got : list addr) : Prop :=
  exists lost, G [] h' (got ++ lost ++ e) /\ (tidy h c -> lost = []).
Lemma nothing_lost h c e h' got : G [] h' (got ++ e) -> after h c e h' got.
Proof. intros I. exists []. split; [exact I|auto]. Qed.
Lemma call_ok h kept e c : incl kept e -> G [] h (takes c ++ e) -> allowed h kept c -> wp (run oracle matches c) h (after h c e).
Proof.
  intros Hi I A.
  destruct c as [v|et|w|p|enc|a|a|a|et l x|et l x|p o k v|p o k|p o k|p o l|p o f et l|p o f et|p o f et x|p o f lang x|w o f v|w o f|w o l|d k|d k x|p d x|d key x|d k key x|d v|d f|p a b|p a b|p a l|a b|a b|a l|p d id name desc lang|g name|a b];
    cbn [takes allowed run app] in *.
  - apply then_gives. eapply wp_mono; [apply (wp_new2 _ _ _ _ I); reflexivity|]. cbv beta. intros h' n (_ & I' & _). now apply nothing_lost.
  - apply then_gives. eapply wp_mono; [apply (wp_new2 _ _ _ _ I); reflexivity|]. cbv beta. intros h' n (_ & I' & _). now apply nothing_lost.
  - destruct w; apply then_gives; (eapply wp_mono; [first [exact (new_pkg_ok h e I)|exact (new_gid_ok h e I)]|]); cbv beta; intros h' n (_ & I' & _); now apply nothing_lost.
  - destruct p; apply then_gives; (eapply wp_mono; [first [exact (new_group_ok h e I)|exact (new_cat_ok h e I)|exact (new_env_ok h e I)]|]); cbv beta; intros h' n (_ & I' & _); now apply nothing_lost.
  - apply then_gives. eapply wp_mono; [eapply (new_doc_ok h e enc I)|].
    + destruct enc as [a|]; [|cbn; auto]. destruct A as [_ T]. destruct (text_val _ _ T) as (t & K & V). exists t. auto.
    + intros a ->. destruct A as [F _]. apply (via_mono h kept e a Hi). now apply from_via.
    + cbv beta. intros h' n (_ & I' & _). now apply nothing_lost.
  - apply wp_bind. eapply wp_mono; [apply (wp_incref2 _ _ _ (Some a) I)|].
    + intros b [= <-]. apply from_via in A. exact (via_live _ _ _ _ I (via_mono _ _ _ _ Hi A)).
    + cbv beta. intros h' _ (I' & _). apply wp_ret. now apply nothing_lost.
  - apply then_none. eapply wp_mono; [exact (wp_release0 h e (Some a) I)|]. cbv beta. intros h' _ (I' & _). now apply nothing_lost.
  - destruct A as (k & U & C). pose proof (usable_own h kept e a k Hi U) as [V K]. destruct (rb_room h e a k I K (copyable_plain _ C)) as (t & Rt & _).
    apply then_gives. eapply wp_mono; [exact (wp_copy_obj _ _ _ _ _ I V Rt)|]. cbv beta. intros h' n (_ & I' & _). now apply nothing_lost.
  - destruct A as (U & F & B). destruct (belongs_elem _ _ _ B) as (t & K & E). apply then_none. eapply wp_mono; [eapply (append_ok h e l et x t I)|].
    + exact (usable_own _ _ _ _ _ Hi U).
    + apply (usable_own _ _ _ _ _ Hi). split; [exact F|exact K].
    + exact E.
    + cbv beta. intros h' _ (I' & _). now apply nothing_lost.
  - destruct A as (U & B). destruct (belongs_elem _ _ _ B) as (t & K & E). destruct (usable_own _ _ _ _ _ Hi U) as [_ Kl]. destruct (has_kind_res _ _ _ Kl) as (ss & R).
    apply then_none. eapply wp_mono; [eapply (wp_append_x [] h e l et ss (Some x) I R)|].
    + intros y [= <-]. eauto.
    + discriminate.
    + cbv beta. intros h' _ (I' & _). now apply nothing_lost.
  - destruct A as (U & Hk). apply then_none. eapply wp_mono; [exact (set_prop_ok h e o (pkind p) k v I (usable_own _ _ _ _ _ Hi U) (pkind_tag p) Hk)|]. cbv beta. intros h' _ I'. now apply nothing_lost.
  - apply then_none. eapply wp_mono; [exact (unset_prop_ok h e o (pkind p) k I (usable_own _ _ _ _ _ Hi A) (pkind_tag p))|]. cbv beta. intros h' _ I'. now apply nothing_lost.
  - apply then_opt. eapply wp_mono; [exact (get_prop_ok h e e o (pkind p) k I (usable_own _ _ _ _ _ Hi A) (pkind_tag p) (incl_refl _))|]. cbv beta. intros h' r (I' & _). rewrite refs_somes. now apply nothing_lost.
  - destruct A as (U & Hl). rewrite refs_somes in I. apply then_none. eapply wp_mono; [exact (set_arches_ok h e o (pkind p) l I (usable_own _ _ _ _ _ Hi U) (pkind_tag p) Hl)|]. cbv beta. intros h' _ I'. now apply nothing_lost.
  - destruct A as (U & Hf & Hl & Kl). destruct (plists_rest _ _ _ Hf) as [Hr ->]. apply then_none. eapply wp_mono; [exact (set_objlist_ok h e o (pkind p) f l I (usable_own _ _ _ _ _ Hi U) (pkind_tag p) Hr (Hi _ Hl) Kl)|]. cbv beta. intros h' _ I'. now apply nothing_lost.
  - destruct A as (U & Hf). destruct (plists_rest _ _ _ Hf) as [Hr _]. apply then_opt. eapply wp_mono; [eapply (get_val_ok h e e o (pkind p) f I (usable_own _ _ _ _ _ Hi U)); [|exact (incl_refl _)]|].
    + rewrite (obj_layout _ (pkind_tag p)). right. right. now right.
    + cbv beta. intros h' r (I' & _). rewrite refs_somes. now apply nothing_lost.
  - destruct A as (U & Hf & B). destruct (plists_rest _ _ _ Hf) as [Hr ->]. destruct (belongs_elem _ _ _ B) as (t & K & E). apply then_none.
    eapply wp_mono; [exact (add_item_ok h e o (pkind p) f (list_of f) x t I (usable_own _ _ _ _ _ Hi U) (pkind_tag p) Hr K E)|]. cbv beta. intros h' _ I'. now apply nothing_lost.
  - destruct A as (U & Hf & F & T). pose proof (usable_own _ _ _ _ _ Hi U) as O. apply then_none.
    assert (W : wp (do r <- member o f; follow r) h (fun h' d => h' = h /\ own h e d (KDict DLang))).
    { eapply wp_mono; [eapply (wp_field [] h e e o (pkind p) f I O (fun x => x))|].
      - rewrite (obj_layout _ (pkind_tag p)). destruct Hf as [->| ->]; cbn; auto.
      - exact (obj_not_null _ _ (pkind_tag p)).
      - cbv beta. intros h' d (-> & _ & t & Ot & Ft). split; [reflexivity|]. apply (fits_lang _ _ _ (pkind_tag p) Hf) in Ft. now subst t. }
    destruct W as (h' & d & Hd & -> & Od). destruct (has_kind_res _ _ _ (proj2 Od)) as (sd & Rd).
    assert (W : wp (dset d lang (Some x)) h (fun h' _ => after h (CSetLang p o f lang x) e h' [])).
    { eapply wp_mono; [eapply (wp_dset [] h e d (KDict DLang) sd lang (Some x) I Rd eq_refl (proj1 Od) (fun x => x) (incl_nil_l _))|].
      - destruct (text_val _ _ T) as (t & K & V). exists t. auto.
      - cbv beta. intros h' _ (I' & _). now apply nothing_lost. }
    destruct W as (h2 & u & H2 & A2). exists h2, u. split; [|exact A2]. revert Hd. unfold mbind. destruct (member o f h) as [[h1 r]| |]; try discriminate. cbn [bind fst snd]. intros Hd. rewrite Hd. exact H2.
  - destruct A as (U & Hf). destruct (wvals_layout _ _ Hf) as [Hl Hn]. apply then_none. eapply wp_mono; [exact (set_val_ok h e o (wkind w) f v I (usable_own _ _ _ _ _ Hi U) (wkind_tag w) Hl Hn)|]. cbv beta. intros h' _ I'. now apply nothing_lost.
  - destruct A as (U & Hf). destruct (wvals_layout _ _ Hf) as [Hl Hn]. apply then_opt. eapply wp_mono; [exact (get_val_ok h e e o (wkind w) f I (usable_own _ _ _ _ _ Hi U) Hl (incl_refl _))|]. cbv beta. intros h' r (I' & _). rewrite refs_somes. now apply nothing_lost.
  - destruct A as (U & Hl). rewrite refs_somes in I. apply then_none. eapply wp_mono; [exact (set_item_arches_ok h e o (wkind w) l I (usable_own _ _ _ _ _ Hi U) (wkind_tag w) Hl)|]. cbv beta. intros h' _ I'. now apply nothing_lost.
  - apply then_gives. eapply wp_mono; [exact (doc_get_ok h e e d k I (usable_own _ _ _ _ _ Hi A) (incl_refl _))|]. cbv beta. intros h' n (I' & _). now apply nothing_lost.
  - destruct A as (U & F & K). pose proof (usable_own _ _ _ _ _ Hi U) as O. apply then_none.
    eapply wp_mono; [exact (doc_set_ok 0 h e d k x I O (docres_any _ _ _ _ _ I O (fun x => x)) (Nat.le_0_l _) (Nat.le_0_l _) K)|]. cbv beta. intros h' _ (I' & _). now apply nothing_lost.
  - destruct A as (U & K). pose proof (usable_own _ _ _ _ _ Hi U) as O. apply then_none.
    eapply wp_mono; [exact (doc_add_ok 0 h e e d (pkey p) (pety p) x (pkind p) I O (incl_refl _) (docres_any _ _ _ _ _ I O (fun x => x)) (Nat.le_0_l _) (p_kind _ _ _ (pkey_part p)) K (pelem p))|].
    cbv beta. intros h' _ (I' & _). now apply nothing_lost.
  - destruct A as (U & T). apply then_none. eapply wp_mono; [eapply (doc_add_lang_ok h e d key (Some x) I (usable_own _ _ _ _ _ Hi U))|].
    + intros a [= <-]. exact (text_val _ _ T).
    + cbv beta. intros h' _ I'. now apply nothing_lost.
  - destruct A as (U & Hk & T). apply then_none. eapply wp_mono; [eapply (doc_add_multi_ok h e d k key (Some x) I (usable_own _ _ _ _ _ Hi U))|].
    + destruct Hk as [->| ->]; reflexivity.
    + intros a [= <-]. exact (text_val _ _ T).
    + cbv beta. intros h' _ I'. now apply nothing_lost.
  - destruct A as (U & Hv). apply then_none. eapply wp_mono; [eapply (doctype_set_ok h e d v I (usable_own _ _ _ _ _ Hi U))|].
    + intros a Ha. destruct (Hv a Ha) as [H T]. split; [exact (Hi _ H)|exact (text_val _ _ T)].
    + cbv beta. intros h' _ I'. now apply nothing_lost.
  - destruct A as (U & Hf). apply then_opt. eapply wp_mono; [eapply (get_val_ok h e e d KDoc f I (usable_own _ _ _ _ _ Hi U)); [|exact (incl_refl _)]|].
    + cbn [In layout] in *. tauto.
    + cbv beta. intros h' r (I' & _). rewrite refs_somes. now apply nothing_lost.
  - destruct A as (U1 & U2). pose proof (usable_own _ _ _ _ _ Hi U1) as O1. pose proof (usable_own _ _ _ _ _ Hi U2) as O2.
    assert (Fin : forall un, spec_un (pkind p) un -> wp (gives (un a b)) h (after h (CUnion p a b) e)).
    { intros un S. apply then_gives. eapply wp_mono; [exact (S h e a b I O1 O2)|]. cbv beta. intros h' r (lost & _ & I' & _ & _ & D). exists lost. split; [exact I'|].
      intros [D1 D2]. apply D; eapply different_distinct; eauto. }
    destruct p; apply Fin; [apply group_union_ok|apply cat_union_ok|apply env_union_ok].
  - destruct A as (U1 & U2). pose proof (usable_own _ _ _ _ _ Hi U1) as O1. pose proof (usable_own _ _ _ _ _ Hi U2) as O2.
    assert (Fin : forall un, spec_mt (pkind p) (pkind p) un -> wp (gives (un a b)) h (after h (CMeet p a b) e)).
    { intros un S. apply then_gives. eapply wp_mono; [exact (S h e a b I O1 O2)|]. cbv beta. intros h' r (_ & I' & _). now apply nothing_lost. }
    destruct p; apply Fin; [apply group_meet_ok|apply cat_meet_ok|apply env_meet_ok].
  - destruct A as (U1 & U2). pose proof (usable_own _ _ _ _ _ Hi U1) as O1. pose proof (usable_own _ _ _ _ _ Hi U2) as O2.
    assert (Fin : forall un, spec_mt (pkind p) (KList LStr) un -> wp (gives (un a l)) h (after h (CFilter p a l) e)).
    { intros un S. apply then_gives. eapply wp_mono; [exact (S h e a l I O1 O2)|]. cbv beta. intros h' r (_ & I' & _). now apply nothing_lost. }
    destruct p; apply Fin; [apply group_filter_ok|apply cat_filter_ok|apply env_filter_ok].
  - destruct A as (U1 & U2). pose proof (usable_own _ _ _ _ _ Hi U1) as O1. pose proof (usable_own _ _ _ _ _ Hi U2) as O2. apply then_gives.
    pose proof (own_doc _ _ _ _ _ I O1) as H1. pose proof (own_doc _ _ _ _ _ I O2) as H2.
    eapply wp_mono; [apply (wp_when _ h (tidy h (CDocUnion a b)) _ (fun h' r => G [] h' (r :: e)) (doc_union_ok oracle h e a b I H1 (proj2 O1) H2 (proj2 O2)))|].
    + intros T. eapply wp_mono; [apply (doc_union_exact oracle h e a b I H1 (proj2 O1) H2 (proj2 O2)); eapply separate_doc; eauto; [apply O1|intros p; apply T|apply O2|intros p; apply T]|]. cbv beta. tauto.
    + cbv beta. intros h' r ((lost & I' & _) & T). exists lost. split; [exact I'|]. intros Ty. specialize (T Ty). exact (no_more _ _ _ _ I' T).
  - destruct A as (U1 & U2). pose proof (usable_own _ _ _ _ _ Hi U1) as O1. pose proof (usable_own _ _ _ _ _ Hi U2) as O2. apply then_gives.
    eapply wp_mono; [exact (doc_meet_ok oracle h e a b I (own_doc _ _ _ _ _ I O1) (proj2 O1) (own_doc _ _ _ _ _ I O2) (proj2 O2))|]. cbv beta. intros h' r (I' & _). now apply nothing_lost.
  - destruct A as (U1 & U2). pose proof (usable_own _ _ _ _ _ Hi U1) as O1. pose proof (usable_own _ _ _ _ _ Hi U2) as O2. apply then_gives.
    eapply wp_mono; [exact (doc_filter_ok oracle h e a l I (own_doc _ _ _ _ _ I O1) (proj2 O1) O2)|]. cbv beta. intros h' r (I' & _). now apply nothing_lost.
  - pose proof (usable_own _ _ _ _ _ Hi A) as O. apply then_gives.
    eapply wp_mono; [exact (doc_query_ok oracle matches h e d _ _ _ id name desc lang (pkey_part p) I (own_doc _ _ _ _ _ I O) (proj2 O))|]. cbv beta. intros h' r (I' & _). now apply nothing_lost.
  - apply then_opt. eapply wp_mono; [eapply (get_packages_ok oracle matches h e g name I)|].
    + intros a Ha. exact (usable_own _ _ _ _ _ Hi (A a Ha)).
    + cbv beta. intros h' r. destruct g as [g|].
      * intros (l & -> & I' & _). now apply nothing_lost.
      * intros (-> & I'). exists [length h]. split; [exact I'|]. intros [].
  - destruct A as (U1 & U2). pose proof (usable_own _ _ _ _ _ Hi U1) as O1. pose proof (usable_own _ _ _ _ _ Hi U2) as O2. apply then_none.
    eapply wp_mono; [exact (doc_cmp_ok oracle matches h e a b I (own_doc _ _ _ _ _ I O1) (proj2 O1) (own_doc _ _ _ _ _ I O2) (proj2 O2))|]. cbv beta. intros h' _ I'. now apply nothing_lost.
Qed.

(** * Histories *)
Lemma run_ok h held lost c kept : G [] h (held ++ lost) -> (forall a, occ a held = occ a (takes c ++ kept)) -> allowed h kept c ->
  exists h' got, run oracle matches c h = Ok (h', got) /\ exists more, G [] h' ((got ++ kept) ++ more ++ lost) /\ (tidy h c -> more = []).
Proof.
  intros I O A. assert (I1 : G [] h (takes c ++ kept ++ lost)).
  { eapply G_perm; [|exact I]. intros a. pose proof (O a) as Oa. unfold occ in Oa. repeat rewrite count_occ_app in *. lia. }
  destruct (call_ok h kept (kept ++ lost) c (incl_appl _ (incl_refl _)) I1 A) as (h' & got & H & more & I' & T). exists h', got. split; [exact H|]. exists more. split; [|exact T].
  eapply G_perm; [|exact I']. intros a. repeat rewrite count_occ_app. lia.
Qed.
Lemma hist_G t h held : history oracle matches t h held -> exists lost, G [] h (held ++ lost) /\ (t = true -> lost = []).
Proof.
  intros H. induction H as [|t t' h held c kept h' got H IH O A R T].
  - exists []. split; [|auto]. split; [exact Inv_nil| |]; intros a c Hc; destruct a; discriminate Hc.
  - destruct IH as (lost & I & L). destruct (run_ok h held lost c kept I O A) as (h2 & got2 & R2 & more & I2 & T2). rewrite R in R2. injection R2 as <- <-.
    exists (more ++ lost). split; [exact I2|]. intros E. destruct (T E) as [E1 E2]. rewrite (L E1), (T2 E2). reflexivity.
Qed.
End Calls.

(** * What memory looks like *)
Lemma pointers_kids c : pointers c = kids c.
Proof. unfold pointers, kids, refs. induction (slots c) as [|[f s] l IH]; [reflexivity|]. cbn [flat_map map snd sref]. now rewrite IH. Qed.
Lemma held_pointers h a : heldE h [] a = occ a (all_pointers h).
Proof.
  unfold occ, heldE. induction h as [|o h IH] using rev_ind; [reflexivity|].
  rewrite app_length. cbn [length]. rewrite Nat.add_comm. cbn [sumn Nat.add isin in_dec].
  unfold all_pointers in *. rewrite flat_map_app, count_occ_app, <- IH. cbn [flat_map]. rewrite app_nil_r. f_equal.
  - apply sumn_ext. intros i Hi. unfold isin. cbn. unfold kidsof. now rewrite nth_error_app1.
  - unfold isin. cbn. unfold kidsof. rewrite nth_error_app2 by lia. rewrite Nat.sub_diag. cbn. destruct o as [c|]; [|reflexivity]. now rewrite pointers_kids.
Qed.
Lemma G_counted h e : G [] h e -> counted h e.
Proof. intros I a c H. rewrite (inv_refc _ _ _ (g_inv _ _ _ I) a c H). unfold occ. f_equal. apply held_pointers. Qed.
Lemma G_sound h e : G [] h e -> sound h e.
Proof.
  intros I. split; [|split].
  - intros a Ha. exact (Inv_ext_live _ _ _ _ (g_inv _ _ _ I) Ha).
  - intros a f b P. apply (Inv_kid_live h e [] a b (g_inv _ _ _ I)); [intros []|exact (points_kids _ _ _ _ P)].
  - intros a c f H Hh. apply (g_holes _ _ _ I a c H). exact (in_map snd _ _ Hh).
Qed.
(** Everything live is reached: a pointer goes from an object of higher rank. *)
Lemma G_from h e a : G [] h e -> alloc h a -> from h e a.
Proof.
  intros I (c & H). remember (20 - rank (kind c)) as n eqn:En. revert a c H En. induction n as [n IH] using lt_wf_ind. intros a c H En.
  pose proof (inv_refc _ _ _ (g_inv _ _ _ I) a c H) as C. destruct (in_dec Nat.eq_dec a e) as [Hi|Hn]; [now apply from_held|].
  rewrite (proj1 (count_occ_not_In Nat.eq_dec e a) Hn) in C. assert (P : 0 < heldE h [] a) by lia. apply heldE_pos in P as (b & _ & Hb).
  destruct (kids_points _ _ _ Hb) as (f & cb & Hcb & Hs). apply (from_next h e b f a); [|exists cb; auto].
  destruct (isres_fits [] h e b (kind cb) (slots cb) f a I) as (t & Kt & Ft); [exists cb; auto|exact Hs|]. destruct Kt as (c' & Hc' & <-). assert (c' = c) by congruence. subst c'.
  apply fits_rank in Ft. assert (rank (kind cb) <= 20) by (destruct (kind cb) as [|[]|[]| | | | | | | |]; cbn; lia). apply (IH (20 - rank (kind cb))) with (c := cb); [lia|exact Hcb|reflexivity].
Qed.
Lemma G_alloc h e a : G [] h e -> (alloc h a <-> from h e a).
Proof.
  intros I. split; [exact (G_from h e a I)|]. intros F. apply from_via in F. exact (via_live _ _ _ _ I F).
Qed.

Section After.
Variable oracle : mem -> addr -> addr -> bool.
Variable matches : mem -> addr -> bool.
Lemma history_defined t h held c kept : history oracle matches t h held ->
  (forall a, occ a held = occ a (takes c ++ kept)) -> allowed h kept c -> exists h' got, run oracle matches c h = Ok (h', got).
Proof.
  intros H O A. destruct (hist_G _ _ _ _ _ H) as (lost & I & _). destruct (run_ok oracle matches h held lost c kept I O A) as (h' & got & R & _). eauto.
Qed.
Lemma history_sound t h held : history oracle matches t h held -> sound h held.
Proof.
  intros H. destruct (hist_G _ _ _ _ _ H) as (lost & I & _). destruct (G_sound _ _ I) as (S1 & S2 & S3). split; [|split; [exact S2|exact S3]].
  intros a Ha. apply S1. apply in_or_app. now left.
Qed.
Lemma history_counted t h held : history oracle matches t h held ->
  exists lost, counted h (held ++ lost) /\ (forall a, alloc h a <-> from h (held ++ lost) a) /\ (t = true -> lost = []).
Proof.
  intros H. destruct (hist_G _ _ _ _ _ H) as (lost & I & L). exists lost. split; [exact (G_counted _ _ I)|]. split; [|exact L]. intros a. exact (G_alloc h _ a I).
Qed.
Lemma history_tidy h held a : history oracle matches true h held -> (alloc h a <-> from h held a).
Proof. intros H. destruct (hist_G _ _ _ _ _ H) as (lost & I & L). rewrite (L eq_refl), app_nil_r in I. exact (G_alloc h _ a I). Qed.
Lemma from_nothing h a : ~ from h [] a.
Proof. intros H. induction H as [a H|a f b H IH P]; [exact H|exact IH]. Qed.
Lemma history_empty h a : history oracle matches true h [] -> ~ alloc h a.
Proof. intros H A. apply (history_tidy h [] a H) in A. exact (from_nothing h a A). Qed.
End After.
