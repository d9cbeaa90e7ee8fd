(** Facts about the memory of the document objects: unions of two objects. *)
From Verif Require Import CStr CStrFacts ObjMemModel ObjMemFacts1 ObjMemFacts2 ObjMemFacts3 ObjMemFacts4 ObjMemFacts5 ObjMemFacts6 ObjMemFacts7.

(** * The items of a list *)
Definition isl (h : mem) (l : addr) (et : ety) (rs : list ref) : Prop := exists sl, isres h l (KList et) sl /\ map snd sl = map Ptr rs.
Lemma isl_lt h l et rs : isl h l et rs -> l < length h.
Proof. intros (sl & R & _). eapply isres_lt; eauto. Qed.
Lemma isl_kind h l et rs : isl h l et rs -> has_kind h l (KList et).
Proof. intros (sl & R & _). eapply isres_kind; eauto. Qed.
Lemma isl_same h h' l et rs n : isl h l et rs -> same n h h' -> l < n -> live h' l -> isl h' l et rs.
Proof. intros (sl & R & E) S Hn L. exists sl. split; [|exact E]. eapply isres_same; eauto. discriminate. Qed.
Lemma isl_shrinks h h' l et rs : isl h l et rs -> shrinks h h' -> live h' l -> isl h' l et rs.
Proof. intros (sl & R & E) S L. exists sl. split; [|exact E]. eapply isres_shrinks; eauto. Qed.
Lemma isl_fits X h e l et rs r : G X h e -> isl h l et rs -> In r rs -> fit_ref h (KList et) [] r.
Proof.
  intros I (sl & R & E) Hr. apply (in_map Ptr) in Hr. rewrite <- E in Hr. apply in_map_iff in Hr. destruct Hr as ((f, v) & Ev & Hf). cbn in Ev. subst v.
  destruct r as [b|]; cbn [fit_ref]; [destruct (isres_fits _ _ _ _ _ _ _ _ I R Hf) as (t & Kt & Ft); exists t; auto|exact (isres_null _ _ _ _ _ _ _ I R Hf)].
Qed.
Lemma refs_ptr rs : refs (map Ptr rs) = somes rs.
Proof. unfold refs. induction rs as [|[a|] rs IH]; cbn; auto. now rewrite IH. Qed.
Lemma wp_rewrite_isl X h ext ext' l et rs rs' : G X h ext -> isl h l et rs -> (forall x, cnt x ext' + cnt x (somes rs') = cnt x ext + cnt x (somes rs)) ->
  (forall r, In r rs' -> fit_ref h (KList et) [] r) ->
  wp (rewrite_slots l (map item rs')) h (fun h' _ => G X h' ext' /\ upd l h h' /\ isl h' l et rs').
Proof.
  intros I (sl & R & Es) Hn Hf. pose proof R as (c & H & K & E). eapply wp_mono; [eapply (wp_rewrite X X h ext ext' l c _ I H)|].
  - intros x. unfold kids. rewrite E, Es, refs_items, refs_ptr. apply Hn.
  - rewrite K. split; [intros D; now destruct D|]. split; [|discriminate]. apply Forall_forall. intros fv Hfv. apply in_map_iff in Hfv. destruct Hfv as (r & <- & Hr). apply fit_slot. auto.
  - rewrite snd_items. intros Hh. apply in_map_iff in Hh. destruct Hh as (r & Er & _). discriminate.
  - intros x Hx. now right.
  - cbv beta. intros h' _ (I' & U & C). split; [exact I'|]. split; [exact U|]. exists (map item rs'). split; [|apply snd_items]. eexists. split; [exact C|]. auto.
Qed.
Lemma wp_isl_items h l et rs (Q : mem -> list ref -> Prop) : isl h l et rs -> Q h rs -> wp (items l) h Q.
Proof. intros (sl & R & E) HQ. eapply wp_items_at; eauto. Qed.
Lemma wp_isl_append X h e l et rs x : G X h (x :: e) -> isl h l et rs -> (exists t, has_kind h x t /\ elem et t) ->
  wp (append_x l (Some x)) h (fun h' _ => G X h' e /\ upd l h h' /\ isl h' l et (rs ++ [Some x])).
Proof.
  intros I (sl & R & E) Kx. eapply wp_mono; [eapply (wp_append_x X h e l et sl (Some x) I R)|].
  - intros y Hy. now injection Hy as <-.
  - discriminate.
  - cbv beta. intros h' _ (I' & U & R'). split; [exact I'|]. split; [exact U|]. exists (sl ++ [item (Some x)]). split; [exact R'|]. rewrite !map_app, E. reflexivity.
Qed.
Lemma position_nth a rs i : position a rs = Some i -> exists l1 l2, rs = l1 ++ Some a :: l2 /\ length l1 = i.
Proof.
  revert i. induction rs as [|[b|] rs IH]; cbn; intros i H; [discriminate| |].
  - destruct (Nat.eqb_spec a b) as [->|Hne]; [injection H as <-; exists [], rs; auto|]. destruct (position a rs) as [j|]; [|discriminate]. injection H as <-.
    destruct (IH j eq_refl) as (l1 & l2 & -> & <-). exists (Some b :: l1), l2. auto.
  - destruct (position a rs) as [j|]; [|discriminate]. injection H as <-. destruct (IH j eq_refl) as (l1 & l2 & -> & <-). exists (None :: l1), l2. auto.
Qed.
Lemma position_none a rs : position a rs = None -> ~ In (Some a) rs.
Proof.
  induction rs as [|[b|] rs IH]; cbn; intros H; [tauto| |].
  - destruct (Nat.eqb_spec a b) as [->|Hne]; [discriminate|]. destruct (position a rs); [discriminate|]. intros [D|D]; [congruence|now apply IH].
  - destruct (position a rs); [discriminate|]. intros [D|D]; [discriminate|now apply IH].
Qed.
(** Writing an object does not change what those below it are. *)
Lemma rb_below d : forall X h h' e a l k kl t, G X h e -> upd l h h' -> has_kind h l kl -> has_kind h a k -> rank k < rank kl -> rb d h a = Some t -> rb d h' a = Some t.
Proof.
  induction d as [|d IH]; intros X h h' e a l k kl t I U Kl Ka Hr H; [destruct (rb_at _ _ _ _ H) as (c & d' & ts & E & _); discriminate|].
  destruct (rb_at _ _ _ _ H) as (c & d' & ts & Ed & Hc & Hp & Hrs & ->). injection Ed as <-.
  assert (kind c = k) by (destruct Ka as (c2 & H2 & K2); congruence). subst k.
  assert (Hne : a <> l) by (intros ->; pose proof (has_kind_fun _ _ _ _ Kl Ka); subst kl; lia).
  Transparent rb. cbn [rb]. Opaque rb. destruct U as (L & O & Uc). rewrite (O a Hne), Hc, Hp. erewrite rbs_ext; [reflexivity| |exact Hrs].
  intros f b t Hb Ht. assert (R : isres h a (kind c) (slots c)) by (exists c; auto). destruct (isres_fits _ _ _ _ _ _ _ _ I R Hb) as (kb & Kb & Fb).
  apply fits_rank in Fb. eapply (IH X h h' e b l kb kl); [exact I|split; [exact L|split; [exact O|exact Uc]]|exact Kl|exact Kb|lia|exact Ht].
Qed.
Lemma key_below kf X h h' e a l k kl : G X h e -> upd l h h' -> has_kind h l kl -> has_kind h a k -> rank k < rank kl -> (exists t, rb room h a = Some t) -> key kf h' a = key kf h a.
Proof. intros I U Kl Ka Hr (t & Et). rewrite !key_eq. rewrite Et, (rb_below _ _ _ _ _ _ _ _ _ _ I U Kl Ka Hr Et). reflexivity. Qed.
Lemma key_rb kf h a t : rb room h a = Some t -> key kf h a = kf t.
Proof. rewrite key_eq. now intros ->. Qed.
Lemma kind_upd h h' l a k : upd l h h' -> has_kind h a k -> has_kind h' a k.
Proof.
  intros (L & O & c & c' & H & H' & K) (ca & Ha & Ka). destruct (Nat.eq_dec a l) as [->|Hne]; [exists c'; split; [exact H'|]; congruence|]. exists ca. split; [|exact Ka]. now rewrite O.
Qed.
Lemma kind_was h h' a k : as_was h h' -> has_kind h a k -> has_kind h' a k.
Proof. intros W K. destruct (has_kind_res _ _ _ K) as (ss & R). eapply isres_kind. apply W. exact R. Qed.

Lemma NoDup_snoc {A} (l : list A) x : NoDup l -> ~ In x l -> NoDup (l ++ [x]).
Proof. intros N H. rewrite <- (rev_involutive (l ++ [x])). apply NoDup_rev. rewrite rev_app_distr. constructor; [now rewrite <- in_rev|]. now apply NoDup_rev. Qed.
(** * Items compared by name *)
Definition item_kind (et : ety) : Prop := et = LPkg \/ et = LGid.
Lemma item_kind_tag et : item_kind et -> item_tag (elem_kind et) /\ et <> LStr /\ rank (elem_kind et) < rank (KList et) /\ plain (elem_kind et) = true /\ elem et (elem_kind et).
Proof. intros [->| ->]; (split; [first [now left|now right]|]); (split; [discriminate|]); (split; [cbn; lia|]); split; reflexivity. Qed.
Lemma list_of_item f : item_kind (list_of f).
Proof. unfold list_of. destruct (seqb f f_pkgs); [now left|now right]. Qed.

Section Base.
Variable oracle : mem -> addr -> addr -> bool.
Variable h0 : mem.
Variable e0 : list addr.
(** An object of the base keeps its members. *)
Lemma base_isres X h e a k ss : ok X h0 e0 h e -> own h0 e0 a k -> k <> KDict DObjs -> isres h0 a k ss -> isres h a k ss.
Proof.
  intros O Oa Hk R. eapply isres_same; [exact R|exact Hk|apply (ok_same _ _ _ _ _ O)|eapply isres_lt; eauto|].
  eapply own_live. eapply ok_own; [exact O|apply incl_refl|exact Oa].
Qed.
Lemma base_tree a k : G [] h0 e0 -> own h0 e0 a k -> plain k = true -> exists t, rb room h0 a = Some t /\ root t = k.
Proof. intros I [_ K] P. eapply rb_room; eauto. Qed.

(** A result under construction: nothing of it is older than the base. *)
Record built (h : mem) (r : addr) (k : tag) (ss : list (str * slot)) : Prop := mkbuilt {
  b_res : isres h r k ss; b_new : length h0 <= r; b_kids : forall f b, In (f, Ptr (Some b)) ss -> length h0 <= b }.
Lemma built_same h h' r k ss n : built h r k ss -> k <> KDict DObjs -> same n h h' -> r < n -> live h' r -> built h' r k ss.
Proof. intros [A B C] Hk S Hn L. constructor; auto. eapply isres_same; eauto. Qed.
Lemma built_upd h h' r k ss l : built h r k ss -> upd l h h' -> r <> l -> built h' r k ss.
Proof. intros [A B C] U Hn. constructor; auto. eapply isres_upd; eauto. Qed.
Lemma obj_not_objs k : obj_tag k -> k <> KDict DObjs.
Proof. intros [->|[->| ->]]; discriminate. Qed.
Lemma obj_list_ne k et : obj_tag k -> k <> KList et.
Proof. intros [->|[->| ->]]; discriminate. Qed.

Section Lists.
Variable res : addr.
Variable k : tag.
Variable ss : list (str * slot).
Variable f : str.
Variable l : addr.
Variable e : list addr.
Hypothesis Hk : obj_tag k.
Hypothesis Hf : In f (rest k).
Hypothesis Hfl : find_slot f ss = Some (Ptr (Some l)).
Notation et := (list_of f).
Notation ik := (elem_kind et).
Hypothesis He : incl e0 e.
(** In the course of a union: the references [E], the set [s] with its keys [vs], the
    items [rs] of the list. *)
Record mid (h : mem) (E s : list addr) (vs : list (option (str + Z))) (rs : list ref) : Prop := mkmid {
  m_ok : ok [] h0 e0 h E; m_in : incl (res :: s) E; m_res : built h res k ss; m_list : isl h l et rs;
  m_kinds : Forall (fun y => has_kind h y ik) s; m_keys : map (key tname h) s = vs }.
Lemma l_live X h e1 : G X h e1 -> isres h res k ss -> live h l.
Proof. intros I R. eapply isres_kid; [exact I|exact R|]. apply find_in. exact Hfl. Qed.
Lemma mid_ik : item_tag ik /\ et <> LStr /\ rank ik < rank (KList et) /\ plain ik = true /\ elem et ik.
Proof. apply item_kind_tag, list_of_item. Qed.
Lemma keys_step h h' s e1 e2 : G [] h e1 -> incl s e1 -> same (length h) h h' -> G [] h' e2 -> incl s e2 -> Forall (fun y => has_kind h y ik) s ->
  Forall (fun y => has_kind h' y ik) s /\ map (key tname h') s = map (key tname h) s.
Proof.
  intros I Hi S I' Hi' Ks. destruct mid_ik as (_ & _ & _ & P & _). split.
  - rewrite Forall_forall in *. intros y Hy. eapply has_kind_same; [apply Ks; exact Hy|exact S|]. eapply in_live; [exact I'|auto].
  - apply map_ext_in. intros y Hy. rewrite Forall_forall in Ks. eapply (key_step tname h h' e1 e2 s); [exact I|exact Hi|exact S|exact I'|exact Hi'|now apply via_in|]. exists ik. auto.
Qed.
Lemma keys_upd h h' e1 s : G [] h e1 -> upd l h h' -> has_kind h l (KList et) -> Forall (fun y => has_kind h y ik) s ->
  Forall (fun y => has_kind h' y ik) s /\ map (key tname h') s = map (key tname h) s.
Proof.
  intros I U Kl Ks. destruct mid_ik as (_ & _ & Hr & P & _). split.
  - eapply Forall_impl; [|exact Ks]. intros y Ky. eapply kind_upd; eauto.
  - apply map_ext_in. intros y Hy. rewrite Forall_forall in Ks. specialize (Ks y Hy). eapply key_below; [exact I|exact U|exact Kl|exact Ks|exact Hr|].
    destruct (rb_room _ _ _ _ I Ks P) as (t & Et & _). eauto.
Qed.
(** Steps that change nothing that was there, and those that write the list. *)
Lemma mid_step h h' E E' s vs rs : mid h E s vs rs -> same (length h) h h' -> G [] h' E' -> incl (res :: s) E' -> incl e0 E' -> mid h' E' s vs rs.
Proof.
  intros [O Hin Br Ll Ks Ek] S I' Hi Hi0.
  assert (O' : ok [] h0 e0 h' E') by (eapply ok_step; [exact O|exact S|apply (ok_len _ _ _ _ _ O)|exact I'|exact Hi0]).
  pose proof (isres_lt _ _ _ _ (b_res _ _ _ _ Br)) as Lr.
  assert (Br' : built h' res k ss) by (eapply built_same; [exact Br|now apply obj_not_objs|exact S|exact Lr|eapply in_live; [exact I'|apply Hi; now left]]).
  destruct (keys_step h h' s E E' (ok_g _ _ _ _ _ O) (fun x Hx => Hin x (or_intror Hx)) S I' (fun x Hx => Hi x (or_intror Hx)) Ks) as (A & B).
  constructor; [exact O'|exact Hi|exact Br'| |exact A|congruence].
  eapply isl_same; [exact Ll|exact S|eapply isl_lt; eauto|]. eapply l_live; [exact I'|apply (b_res _ _ _ _ Br')].
Qed.
Lemma l_new h r : built h r k ss -> length h0 <= l.
Proof. intros Br. eapply (b_kids _ _ _ _ Br). apply find_in. exact Hfl. Qed.
Lemma mid_upd h h' E E' s vs rs rs' : mid h E s vs rs -> upd l h h' -> G [] h' E' -> isl h' l et rs' -> incl (res :: s) E' -> incl e0 E' -> mid h' E' s vs rs'.
Proof.
  intros [O Hin Br Ll Ks Ek] U I' Ll' Hi Hi0. pose proof (isl_kind _ _ _ _ Ll) as Kl.
  assert (O' : ok [] h0 e0 h' E') by (eapply ok_step; [exact O|eapply upd_same; [|exact U]; exact (l_new _ _ Br)|apply Nat.le_refl|exact I'|exact Hi0]).
  destruct (keys_upd h h' E s (ok_g _ _ _ _ _ O) U Kl Ks) as (A & B). constructor; [exact O'|exact Hi| |exact Ll'|exact A|congruence].
  eapply built_upd; [exact Br|exact U|]. intros D. rewrite <- D in Kl. pose proof (has_kind_fun _ _ _ _ Kl (isres_kind _ _ _ _ (b_res _ _ _ _ Br))) as D'. now apply (obj_list_ne k et Hk).
Qed.
Lemma mid_cons h E s vs rs o v : mid h E s vs rs -> In o E -> has_kind h o ik -> key tname h o = v -> mid h E (o :: s) (v :: vs) rs.
Proof.
  intros [O Hin Br Ll Ks Ek] Ho Ko Kv. constructor; auto.
  - intros x [<-|[<-|Hx]]; [apply Hin; now left|exact Ho|apply Hin; now right].
  - cbn [map]. congruence.
Qed.
Lemma mid_sub h E E' s s' vs vs' rs : mid h E s vs rs -> incl s' s -> map (key tname h) s' = vs' -> (forall a, cnt a E' = cnt a E) -> mid h E' s' vs' rs.
Proof.
  intros [O Hin Br Ll Ks Ek] Hs Hv Hc. assert (HE : incl E E') by (intros x Hx; apply (count_occ_In Nat.eq_dec); rewrite Hc; now apply (count_occ_In Nat.eq_dec)). constructor; auto.
  - destruct O as [A B C D]. constructor; auto; [eapply G_perm; eauto|]. intros x Hx. auto.
  - intros x [<-|Hx]; apply HE, Hin; [now left|right; auto].
  - rewrite Forall_forall in *. auto.
Qed.
Lemma mid_own h E s vs rs : mid h E s vs rs -> Forall (eown ik h E) s.
Proof. intros [O Hin Br Ll Ks Ek]. rewrite Forall_forall in *. intros y Hy. apply own_in; [apply Hin; now right|auto]. Qed.
(** A base item. *)
Lemma base_key X h E x : ok X h0 e0 h E -> own h0 e0 x ik -> own h E x ik /\ key tname h x = key tname h0 x.
Proof.
  intros O Ox. destruct mid_ik as (_ & _ & _ & P & _). split; [eapply own_mono; [apply (ok_inc _ _ _ _ _ O)|]; eapply ok_own; [exact O|apply incl_refl|exact Ox]|].
  eapply (key_step tname h0 h e0 E e0); [apply (ok_g0 _ _ _ _ _ O)|apply incl_refl|apply (ok_same _ _ _ _ _ O)|apply (ok_g _ _ _ _ _ O)|apply (ok_inc _ _ _ _ _ O)|apply Ox|]. exists ik. split; [apply Ox|exact P].
Qed.
Lemma copied X h e1 x : ok X h0 e0 h e1 -> own h0 e0 x ik ->
  wp (copy_obj x) h (fun h' o => G X h' (o :: e1) /\ same (length h) h h' /\ has_kind h' o ik /\ key tname h' o = key tname h0 x).
Proof.
  intros O Ox. destruct mid_ik as (_ & _ & _ & P & _). destruct (base_tree x ik (ok_g0 _ _ _ _ _ O) Ox P) as (t & Et & Er).
  assert (Et' : rb room h x = Some t) by (eapply ok_rb; [exact O|apply incl_refl|apply Ox|exact Et]).
  assert (V : via h e1 x) by (eapply via_mono; [apply (ok_inc _ _ _ _ _ O)|]; eapply ok_via; [exact O|apply incl_refl|apply Ox]).
  eapply wp_mono; [eapply (wp_copy_obj X h e1 x t (ok_g _ _ _ _ _ O) V Et')|]. cbv beta. intros h' o (Lo & I' & S' & Ro & Ko). split; [exact I'|]. split; [exact S'|].
  rewrite Er in Ko. split; [exact Ko|]. rewrite (key_rb tname h' o t Ro), (key_rb tname h0 x t Et). reflexivity.
Qed.
Lemma find_key h s x v : find (hit tname h x) s = None -> key tname h x = v -> ~ In v (map (key tname h) s).
Proof.
  intros H <- Hin. apply in_map_iff in Hin. destruct Hin as (y & Ey & Hy). pose proof (find_none _ _ H y Hy) as D. unfold hit in D. rewrite Ey in D.
  assert (T : oeqb (key tname h x) (key tname h x) = true) by now apply oeqb_true. congruence.
Qed.
Lemma find_key2 h s x y : find (hit tname h x) s = Some y -> In y s /\ key tname h y = key tname h x.
Proof. intros H. apply List.find_some in H. destruct H as (A & B). split; [exact A|]. now apply oeqb_true. Qed.
Lemma add_to_list h E o s vs rs e2 : mid h (o :: E) s vs rs -> has_kind h o ik -> incl (res :: s) E -> incl e0 E ->
  wp (add_item res f e2 o) h (fun h' _ => mid h' E s vs (rs ++ [Some o])).
Proof.
  intros Mi Ko Hi Hi0. destruct mid_ik as (_ & _ & _ & _ & Hel). unfold add_item. apply wp_bind. eapply wp_member; [apply (b_res _ _ _ _ (m_res _ _ _ _ _ Mi))|exact Hfl|].
  cbn [follow]. eapply wp_mono; [eapply wp_isl_append; [apply (ok_g _ _ _ _ _ (m_ok _ _ _ _ _ Mi))|apply (m_list _ _ _ _ _ Mi)|eauto]|].
  cbv beta. intros h' _ (I' & U & Ll'). eapply mid_upd; eauto.
Qed.

(** ** The first list *)
Definition first_inv (P : Prop) (pre : list addr) (s : list addr) (h : mem) : Prop := exists lost vs rs, mid h (s ++ lost ++ res :: e) s vs rs /\
  incl vs (map (key tname h0) pre) /\ incl (map Some s) rs /\ (P -> lost = []).
Lemma first_end (P : Prop) xs pre x post h o s lost vs rs h2 : xs = pre ++ x :: post -> incl vs (map (key tname h0) pre) -> incl (map Some s) rs -> map (key tname h2) s = vs -> key tname h2 o = key tname h0 x ->
  mid h (match find (hit tname h2 o) s with Some _ => s | None => s ++ [o] end ++ match find (hit tname h2 o) s with Some _ => lost | None => lost end ++ res :: e) (o :: s) (key tname h0 x :: vs) rs ->
  In (Some o) rs -> (P -> lost = []) -> first_inv P (pre ++ [x]) (match find (hit tname h2 o) s with Some _ => s | None => s ++ [o] end) h.
Proof.
  intros Ex Iv Is Es Eo Mi Ho Hl. pose proof (m_keys _ _ _ _ _ Mi) as Ek. cbn [map] in Ek. injection Ek as Ko Ek.
  destruct (find (hit tname h2 o) s) as [y|].
  - exists lost, vs, rs. split; [|split; [|split]]; auto.
    + eapply mid_sub; [exact Mi|inc|exact Ek|reflexivity].
    + intros v Hv. rewrite map_app. apply in_or_app. left. now apply Iv.
  - exists lost, (vs ++ [key tname h0 x]), rs. split; [|split; [|split]]; auto.
    + eapply mid_sub; [exact Mi|inc| |reflexivity]. rewrite map_app, Ek. cbn [map]. now rewrite Ko.
    + intros v Hv. rewrite map_app. apply in_app_or in Hv. apply in_or_app. destruct Hv as [Hv|[<-|[]]]; [left; now apply Iv|right; now left].
    + intros z Hz. rewrite map_app in Hz. apply in_app_or in Hz. destruct Hz as [Hz|[<-|[]]]; [now apply Is|exact Ho].
Qed.
Lemma first_step (P : Prop) xs pre x post s h e2 : (P -> NoDup (map (key tname h0) xs)) -> xs = pre ++ x :: post -> own h0 e0 x ik -> first_inv P pre s h ->
  wp (do o <- copy_obj x; incref (Some o) ;;; do sb <- set_add (namecmp oracle) s o; add_item res f e2 o ;;; ret (fst sb)) h (fun h' s' => first_inv P (pre ++ [x]) s' h').
Proof.
  intros HP Ex Ox (lost & vs & rs & Mi & Iv & Is & Hl). destruct mid_ik as (Hit & _ & _ & Pl & Hel). set (E := s ++ lost ++ res :: e) in *.
  assert (HE : incl (res :: s) E) by (unfold E; inc). assert (HE0 : incl e0 E) by (unfold E; inc).
  eapply wp_seq; [apply (copied [] h _ x (m_ok _ _ _ _ _ Mi) Ox)|]. cbv beta. intros h1 o (I1 & S1 & K1 & Q1).
  pose proof (mid_step _ _ _ _ _ _ _ Mi S1 I1 (ltac:(inc)) (ltac:(inc))) as M1. pose proof (mid_cons _ _ _ _ _ o _ M1 (or_introl eq_refl) K1 Q1) as M1'.
  eapply wp_seq; [apply (wp_incref2 [] h1 _ (Some o) I1)|]; [intros a Ha; injection Ha as <-; eapply has_kind_live; eauto|]. cbv beta. intros h2 _ (I2 & S2 & W2). cbn [somes app] in I2.
  pose proof (mid_step _ _ _ _ _ _ _ M1' S2 I2 (ltac:(inc)) (ltac:(inc))) as M2.
  eapply wp_seq; [eapply (wp_set_add ik (namecmp oracle) tname Pl (namecmp_ok oracle ik Hit) s h2 _ o I2 (mid_own _ _ _ _ _ M2))|]. cbv beta. intros h3 sb (I3 & S3 & Esb).
  pose proof (mid_step _ _ _ _ _ _ _ M2 S3 I3 (ltac:(inc)) (ltac:(inc))) as M3.
  eapply wp_seq; [apply (add_to_list h3 (o :: E) o (o :: s) _ _ e2 M3 (Forall_inv (m_kinds _ _ _ _ _ M3))); inc|]. cbv beta. intros h4 _ M4. apply wp_ret.
  pose proof (m_keys _ _ _ _ _ M2) as Ek. cbn [map] in Ek. injection Ek as Eo Ek.
  assert (Es : fst sb = match find (hit tname h2 o) s with Some _ => s | None => s ++ [o] end) by (rewrite Esb; destruct (find (hit tname h2 o) s); reflexivity). rewrite Es.
  eapply (first_end P xs pre x post h4 o s (match find (hit tname h2 o) s with Some _ => o :: lost | None => lost end) vs (rs ++ [Some o]) h2); auto.
  - intros z Hz. apply in_or_app. left. now apply Is.
  - eapply mid_sub; [exact M4|apply incl_refl|apply (m_keys _ _ _ _ _ M4)|]. unfold E. destruct (find (hit tname h2 o) s); cnts.
  - apply in_or_app. right. now left.
  - intros HPP. destruct (find (hit tname h2 o) s) as [y|] eqn:Fd; [|auto]. exfalso. destruct (find_key2 _ _ _ _ Fd) as (Hy & Ey). rewrite Eo in Ey.
    assert (Hin : In (key tname h0 x) (map (key tname h0) pre)) by (apply Iv; rewrite <- Ek, <- Ey; now apply in_map).
    specialize (HP HPP). rewrite Ex, map_app in HP. cbn [map] in HP. apply NoDup_remove_2 in HP. apply HP. apply in_or_app. now left.
Qed.
Lemma options_step (P : Prop) xs pre x post s h e2 : xs = pre ++ x :: post -> own h0 e0 x ik -> first_inv P pre s h ->
  wp (do o <- copy_obj x; do sb <- set_add (namecmp oracle) s o; (if snd sb then incref (Some o) else ret tt) ;;; add_item res f e2 o ;;; ret (fst sb)) h (fun h' s' => first_inv P (pre ++ [x]) s' h').
Proof.
  intros Ex Ox (lost & vs & rs & Mi & Iv & Is & Hl). destruct mid_ik as (Hit & _ & _ & Pl & Hel). set (E := s ++ lost ++ res :: e) in *.
  assert (HE : incl (res :: s) E) by (unfold E; inc). assert (HE0 : incl e0 E) by (unfold E; inc).
  eapply wp_seq; [apply (copied [] h _ x (m_ok _ _ _ _ _ Mi) Ox)|]. cbv beta. intros h1 o (I1 & S1 & K1 & Q1).
  pose proof (mid_step _ _ _ _ _ _ _ Mi S1 I1 (ltac:(inc)) (ltac:(inc))) as M1. pose proof (mid_cons _ _ _ _ _ o _ M1 (or_introl eq_refl) K1 Q1) as M1'.
  eapply wp_seq; [eapply (wp_set_add ik (namecmp oracle) tname Pl (namecmp_ok oracle ik Hit) s h1 _ o I1 (mid_own _ _ _ _ _ M1'))|]. cbv beta. intros h2 sb (I2 & S2 & Esb).
  pose proof (mid_step _ _ _ _ _ _ _ M1' S2 I2 (ltac:(inc)) (ltac:(inc))) as M2.
  pose proof (m_keys _ _ _ _ _ M1') as Ek. cbn [map] in Ek. injection Ek as Eo Ek.
  assert (Es : fst sb = match find (hit tname h1 o) s with Some _ => s | None => s ++ [o] end) by (rewrite Esb; destruct (find (hit tname h1 o) s); reflexivity).
  eapply (wp_seq _ _ _ (fun h3 _ => mid h3 (o :: match find (hit tname h1 o) s with Some _ => E | None => o :: E end) (o :: s) (key tname h0 x :: vs) rs)).
  { rewrite Esb. destruct (find (hit tname h1 o) s); cbn [snd].
    - now apply wp_ret.
    - eapply wp_mono; [apply (wp_incref2 [] h2 _ (Some o) I2)|].
      + intros a Ha; injection Ha as <-. eapply has_kind_live. exact (Forall_inv (m_kinds _ _ _ _ _ M2)).
      + cbv beta. intros h3 _ (I3 & S3 & W3). cbn [somes app] in I3. exact (mid_step _ _ _ _ _ _ _ M2 S3 I3 (ltac:(inc)) (ltac:(inc))). }
  cbv beta. intros h3 _ M3.
  assert (Fin : forall h4 E4 rs', mid h4 E4 (o :: s) (key tname h0 x :: vs) (rs ++ rs') -> (forall a, cnt a E4 = cnt a (match find (hit tname h1 o) s with Some _ => E | None => o :: E end)) -> rs' = [Some o] -> first_inv P (pre ++ [x]) (fst sb) h4).
  { intros h4 E4 rs' M4 Hc ->. rewrite Es. eapply (first_end P xs pre x post h4 o s lost vs (rs ++ [Some o]) h1); auto.
    - intros z Hz. apply in_or_app. left. now apply Is.
    - eapply mid_sub; [exact M4|apply incl_refl|apply (m_keys _ _ _ _ _ M4)|]. intros a. rewrite Hc. revert a. unfold E. destruct (find (hit tname h1 o) s); cnts.
    - apply in_or_app. right. now left. }
  destruct (find (hit tname h1 o) s) as [y|].
  - (* not counted twice: what was there first keeps its place in the set *)
    pose proof (mid_sub _ _ (o :: E) _ s _ vs _ M3 (ltac:(inc)) (ltac:(pose proof (m_keys _ _ _ _ _ M3) as T; cbn [map] in T; now injection T)) (fun _ => eq_refl)) as M3'.
    pose proof (Forall_inv (m_kinds _ _ _ _ _ M3)) as Ko3. cbv beta in Ko3.
    eapply wp_seq; [apply (add_to_list h3 E o s vs rs e2 M3' Ko3); inc|]. cbv beta. intros h4 _ M4. apply wp_ret. rewrite Es.
    exists lost, vs, (rs ++ [Some o]). split; [exact M4|]. split; [|split].
    + intros v Hv. rewrite map_app. apply in_or_app. left. now apply Iv.
    + intros z Hz. apply in_or_app. left. now apply Is.
    + exact Hl.
  - eapply wp_seq; [apply (add_to_list h3 (o :: E) o (o :: s) _ _ e2 M3 (Forall_inv (m_kinds _ _ _ _ _ M3))); inc|]. cbv beta. intros h4 _ M4. apply wp_ret. eapply Fin; [exact M4|reflexivity|reflexivity].
Qed.
(** ** The second list *)
Lemma somes_app a b : somes (a ++ b) = somes a ++ somes b.
Proof. induction a as [|[x|] a IH]; cbn; congruence. Qed.
Definition second_inv (P : Prop) (s : list addr) (vs : list (option (str + Z))) (pre : list addr) (_ : unit) (h : mem) : Prop := exists lost rs, mid h (s ++ lost ++ res :: e) s vs rs /\
  (P -> lost = [] /\ forall y, In y s -> ~ In (key tname h y) (map (key tname h0) pre) -> In (Some y) rs).
Lemma second_step (P : Prop) s vs xs pre x post h u e2 : (P -> NoDup (map (key tname h0) xs)) -> xs = pre ++ x :: post -> own h0 e0 x ik -> second_inv P s vs pre u h ->
  wp (do d <- set_find (namecmp oracle) s x;
      match d with
      | Some data => do r <- member res f; do l <- follow r; do i <- index l data; remove_at l i ;;;
                     do o <- copy_obj x; insert_at_x l i (Some o)
      | None => do o <- copy_obj x; add_item res f e2 o
      end) h (fun h' u' => second_inv P s vs (pre ++ [x]) u' h').
Proof.
  intros HP Ex Ox (lost & rs & Mi & Hl). destruct mid_ik as (Hit & _ & _ & Pl & Hel). set (E := s ++ lost ++ res :: e) in *.
  assert (HE : incl (res :: s) E) by (unfold E; inc). assert (HE0 : incl e0 E) by (unfold E; inc).
  destruct (base_key [] h E x (m_ok _ _ _ _ _ Mi) Ox) as (Oxh & Kxh).
  assert (Os : Forall (eown ik h E) (x :: s)) by (constructor; [exact Oxh|exact (mid_own _ _ _ _ _ Mi)]).
  eapply wp_seq; [eapply (wp_set_find ik (namecmp oracle) tname Pl (namecmp_ok oracle ik Hit) s h E x (ok_g _ _ _ _ _ (m_ok _ _ _ _ _ Mi)) Os)|]. cbv beta. intros h1 r (I1 & S1 & Er).
  pose proof (mid_step _ _ _ _ _ _ _ Mi S1 I1 HE HE0) as M1.
  assert (Keys : forall h' E' rs', mid h' E' s vs rs' -> forall y, In y s -> key tname h' y = key tname h y).
  { intros h' E' rs' M'. apply ext_in_map. rewrite (m_keys _ _ _ _ _ M'). symmetry. apply (m_keys _ _ _ _ _ Mi). }
  destruct (find (hit tname h x) s) as [data|] eqn:Fd; subst r.
  - destruct (find_key2 _ _ _ _ Fd) as (Hd & Kd). rewrite Kxh in Kd.
    apply wp_bind. eapply wp_member; [apply (b_res _ _ _ _ (m_res _ _ _ _ _ M1))|exact Hfl|]. cbn [follow]. apply wp_bind, wp_ret.
    unfold index. apply wp_bind. apply wp_bind. eapply wp_isl_items; [apply (m_list _ _ _ _ _ M1)|]. apply wp_ret.
    destruct (position data rs) as [j|] eqn:Ep.
    + destruct (position_nth _ _ _ Ep) as (l1 & l2 & Ers & <-).
      eapply (wp_seq _ _ _ (fun h3 _ => mid h3 E s vs (l1 ++ l2))).
      { unfold remove_at. apply wp_bind. eapply wp_isl_items; [apply (m_list _ _ _ _ _ M1)|]. rewrite Ers at 1. rewrite nth_error_app2, Nat.sub_diag by apply Nat.le_refl. cbn [nth_error].
        rewrite Ers, list_del_app. eapply wp_seq; [eapply (wp_rewrite_isl [] h1 E (data :: E) l et rs (l1 ++ l2) I1 (m_list _ _ _ _ _ M1))|].
        - intros a. rewrite Ers, !somes_app. cbn [somes]. rewrite !count_occ_app. cbn [count_occ]. destruct (Nat.eq_dec data a); lia.
        - intros r Hr. eapply isl_fits; [exact I1|apply (m_list _ _ _ _ _ M1)|]. rewrite Ers. apply in_app_or in Hr. apply in_or_app. destruct Hr; [now left|right; now right].
        - cbv beta. intros h2 _ (I2 & U2 & L2). pose proof (mid_upd _ _ _ _ _ _ _ _ M1 U2 I2 L2 (ltac:(inc)) (ltac:(inc))) as M2.
          eapply wp_mono; [apply (wp_release0 h2 E (Some data) I2)|]. cbv beta. intros h3 _ (I3 & _ & S3). exact (mid_step _ _ _ _ _ _ _ M2 S3 I3 HE HE0). }
      cbv beta. intros h3 _ M3. eapply wp_seq; [apply (copied [] h3 _ x (m_ok _ _ _ _ _ M3) Ox)|]. cbv beta. intros h4 o (I4 & S4 & K4 & Q4).
      pose proof (mid_step _ _ _ _ _ _ _ M3 S4 I4 (ltac:(inc)) (ltac:(inc))) as M4.
      unfold insert_at_x. apply wp_bind. eapply wp_isl_items; [apply (m_list _ _ _ _ _ M4)|].
      replace (length (l1 ++ l2) <? length l1) with false by (symmetry; apply Nat.ltb_ge; rewrite app_length; lia). rewrite list_ins_app.
      eapply wp_mono; [eapply (wp_rewrite_isl [] h4 (o :: E) E l et (l1 ++ l2) (l1 ++ Some o :: l2) I4 (m_list _ _ _ _ _ M4))|].
      * intros a. rewrite !somes_app. cbn [somes]. rewrite !count_occ_app. cbn [count_occ]. destruct (Nat.eq_dec o a); lia.
      * intros r Hr. apply in_app_or in Hr. destruct Hr as [Hr|[<-|Hr]]; [|exists ik; split; [exact K4|exact Hel]|]; (eapply isl_fits; [exact I4|apply (m_list _ _ _ _ _ M4)|]; apply in_or_app; auto).
      * cbv beta. intros h5 u5 (I5 & U5 & L5). pose proof (mid_upd _ _ _ _ _ _ _ _ M4 U5 I5 L5 HE HE0) as M5. exists lost, (l1 ++ Some o :: l2). split; [exact M5|].
        intros HPP. destruct (Hl HPP) as (A & B). split; [exact A|]. intros y Hy Ny. rewrite (Keys _ _ _ M5 y Hy) in Ny. rewrite map_app, in_app_iff in Ny.
        specialize (B y Hy (fun D => Ny (or_introl D))). rewrite Ers in B. apply in_app_or in B. apply in_or_app. destruct B as [B|[B|B]]; [now left| |right; now right].
        exfalso. injection B as <-. apply Ny. right. left. exact (eq_sym Kd).
    + eapply (wp_seq _ _ _ (fun h3 _ => h3 = h1)).
      { unfold remove_at. apply wp_bind. eapply wp_isl_items; [apply (m_list _ _ _ _ _ M1)|]. now apply wp_ret. }
      cbv beta. intros h3 u3 E3. subst h3. clear u3. eapply wp_seq; [apply (copied [] h1 _ x (m_ok _ _ _ _ _ M1) Ox)|]. cbv beta. intros h4 o (I4 & S4 & K4 & Q4).
      pose proof (mid_step _ _ _ _ _ _ _ M1 S4 I4 (ltac:(inc)) (ltac:(inc))) as M4.
      unfold insert_at_x. apply wp_bind. eapply wp_isl_items; [apply (m_list _ _ _ _ _ M4)|]. apply wp_ret. exists (o :: lost), rs. split.
      * eapply mid_sub; [exact M4|apply incl_refl|apply (m_keys _ _ _ _ _ M4)|]. unfold E. cnts.
      * intros HPP. exfalso. destruct (Hl HPP) as (A & B). specialize (HP HPP). apply (position_none _ _ Ep), (B data Hd). rewrite Kd. rewrite Ex, map_app in HP. cbn [map] in HP. apply NoDup_remove_2 in HP.
        intros D. apply HP. apply in_or_app. now left.
  - eapply wp_seq; [apply (copied [] h1 _ x (m_ok _ _ _ _ _ M1) Ox)|]. cbv beta. intros h4 o (I4 & S4 & K4 & Q4).
    pose proof (mid_step _ _ _ _ _ _ _ M1 S4 I4 (ltac:(inc)) (ltac:(inc))) as M4.
    eapply wp_mono; [apply (add_to_list h4 E o s vs rs e2 M4 K4 HE HE0)|]. cbv beta. intros h5 u5 M5. exists lost, (rs ++ [Some o]). split; [exact M5|].
    intros HPP. destruct (Hl HPP) as (A & B). split; [exact A|]. intros y Hy Ny. rewrite (Keys _ _ _ M5 y Hy) in Ny. rewrite map_app, in_app_iff in Ny. apply in_or_app. left. apply B; auto.
Qed.
(** ** The end *)
Lemma set_destroy_ok s : forall h rs lost, mid h (s ++ lost ++ res :: e) [] [] rs -> wp (set_destroy s) h (fun h' _ => mid h' (lost ++ res :: e) [] [] rs).
Proof.
  unfold set_destroy, forM. induction s as [|a s IH]; intros h rs lost Mi; cbn [foldM]; [now apply wp_ret|]. cbn [app] in Mi.
  eapply wp_seq; [apply (wp_release0 h (s ++ lost ++ res :: e) (Some a)); exact (ok_g _ _ _ _ _ (m_ok _ _ _ _ _ Mi))|]. cbv beta. intros h1 [] (I1 & _ & S1).
  apply IH. exact (mid_step _ _ _ _ _ _ _ Mi S1 I1 (ltac:(inc)) (ltac:(inc))).
Qed.
End Lists.
End Base.
