(** Facts about the memory of the document objects: comparisons, sets, the loops over
    lists. *)
From Verif Require Import CStr CStrFacts ObjMemModel ObjMemFacts1 ObjMemFacts2 ObjMemFacts3 ObjMemFacts4 ObjMemFacts5 ObjMemFacts6.

(** * What is compared *)
Fixpoint assoc (k : str) (l : list (str * option tree)) : option (option tree) :=
  match l with [] => None | (k', v) :: r => if seqb k' k then Some v else assoc k r end.
Definition tval (o : option tree) : option (str + Z) := match o with Some (T (KVal v) _) => Some v | _ => None end.
Definition tname (t : tree) : option (str + Z) := let 'T _ l := t in match assoc f_name l with Some o => tval o | None => None end.
Definition f_id : str := S_ "id".
#[global] Arguments f_id : simpl never.
Definition tid (t : tree) : option (str + Z) :=
  let 'T _ l := t in match assoc f_props l with Some (Some (T _ pl)) => match assoc f_id pl with Some o => tval o | None => None end | _ => None end.
Lemma rbs_find f s ts k : rbs f s = Some ts ->
  match find_slot k s with
  | None => assoc k ts = None
  | Some Hole => False
  | Some (Ptr None) => assoc k ts = Some None
  | Some (Ptr (Some b)) => exists t, f b = Some t /\ assoc k ts = Some (Some t)
  end.
Proof.
  revert ts. induction s as [|(k', v) s IH]; cbn; intros ts H; [now injection H as <-|]. destruct v as [|[b|]]; [discriminate| |].
  - destruct (f b) as [t|] eqn:Eb; [|discriminate]. destruct (rbs f s) as [l|]; [|discriminate]. injection H as <-. cbn. destruct (seqb k' k); [eauto|]. now apply IH.
  - destruct (rbs f s) as [l|]; [|discriminate]. injection H as <-. cbn. destruct (seqb k' k); [reflexivity|]. now apply IH.
Qed.
Definition oeqb (a b : option (str + Z)) : bool := match a, b with None, None => true | Some x, Some y => val_eqb x y | _, _ => false end.
Lemma oeqb_true a b : oeqb a b = true <-> a = b.
Proof.
  destruct a as [[x|x]|], b as [[y|y]|]; cbn; try (split; discriminate); try (split; reflexivity).
  - rewrite seqb_true. split; congruence.
  - rewrite Z.eqb_eq. split; congruence.
Qed.
(** Kept from being unfolded. *)
Lemma key_is : { key : (tree -> option (str + Z)) -> mem -> addr -> option (str + Z) | forall kf h a, key kf h a = match rb room h a with Some t => kf t | None => None end }.
Proof. exists (fun kf h a => match rb room h a with Some t => kf t | None => None end). reflexivity. Qed.
Definition key : (tree -> option (str + Z)) -> mem -> addr -> option (str + Z) := proj1_sig key_is.
Lemma key_eq kf h a : key kf h a = match rb room h a with Some t => kf t | None => None end.
Proof. exact (proj2_sig key_is kf h a). Qed.
#[global] Opaque key.
(** A reference to a string, a number, or nothing. *)
Definition valof (h : mem) (r : ref) (o : option (str + Z)) : Prop :=
  match r, o with None, None => True | Some a, Some v => has_kind h a (KVal v) | _, _ => False end.
Lemma valof_was h h' r o : as_was h h' -> valof h r o -> valof h' r o.
Proof. intros W. destruct r as [a|], o as [v|]; cbn; auto. intros K. destruct (has_kind_res _ _ _ K) as (ss & R). eapply isres_kind. apply W. exact R. Qed.
Lemma valof_live h r o a : valof h r o -> r = Some a -> live h a.
Proof. intros V ->. destruct o as [v|]; [|destruct V]. eapply has_kind_live; eauto. Qed.
Lemma tval_of d h a t : rb d h a = Some t -> (exists k, has_kind h a k /\ is_val k) -> exists v, has_kind h a (KVal v) /\ tval (Some t) = Some v.
Proof.
  intros H (k & K & V). pose proof (rb_kind _ _ _ _ H) as K'. pose proof (has_kind_fun _ _ _ _ K K'). subst k. destruct t as [k l]. cbn in *. destruct k; try destruct V. eauto.
Qed.
Lemma name_at h e a k : G [] h e -> has_kind h a k -> item_tag k ->
  exists ss r, isres h a k ss /\ find_slot f_name ss = Some (Ptr r) /\ valof h r (key tname h a).
Proof.
  intros I K Ht. assert (Hp : plain k = true) by (destruct Ht as [->| ->]; reflexivity). destruct (rb_room h e a k I K Hp) as (t & Et & Ek). rewrite ?key_eq. rewrite Et.
  destruct (rb_at _ _ _ _ Et) as (c & d' & ts & _ & Hc & _ & Hr & ->). cbn in Ek. assert (R : isres h a k (slots c)) by (exists c; auto).
  assert (Hl : In f_name (map fst (slots c))). { destruct (isres_shape _ _ _ _ _ _ I R) as [S1 _]. rewrite S1 by (destruct Ht as [->| ->]; discriminate). destruct Ht as [->| ->]; cbn; tauto. }
  destruct (find_some _ _ Hl) as (v & Fv). pose proof (rbs_find _ _ _ f_name Hr) as P. rewrite Fv in P. destruct v as [|[b|]]; [destruct P| |].
  - destruct P as (tb & Eb & Ea). exists (slots c), (Some b). split; [exact R|]. split; [exact Fv|]. cbn. rewrite Ea.
    destruct (tval_of _ _ _ _ Eb) as (v & Kv & Ev).
    + destruct (isres_fits _ _ _ _ _ _ _ _ I R (find_in _ _ _ Fv)) as (kb & Kb & Fb). exists kb. split; [exact Kb|]. destruct Ht as [->| ->]; exact Fb.
    + rewrite Ev. exact Kv.
  - exists (slots c), None. split; [exact R|]. split; [exact Fv|]. cbn. now rewrite P.
Qed.
Lemma id_at h e a k : G [] h e -> has_kind h a k -> obj_tag k ->
  exists ss p sp, isres h a k ss /\ find_slot f_props ss = Some (Ptr (Some p)) /\ isres h p (KDict DProp) sp /\
    (find_slot f_id sp = None /\ key tid h a = None \/ exists r, find_slot f_id sp = Some (Ptr r) /\ valof h r (key tid h a)).
Proof.
  intros I K Ht. assert (Hp : plain k = true) by (destruct Ht as [->|[->| ->]]; reflexivity). destruct (rb_room h e a k I K Hp) as (t & Et & Ek). rewrite ?key_eq. rewrite Et.
  destruct (rb_at _ _ _ _ Et) as (c & d' & ts & _ & Hc & _ & Hr & ->). cbn in Ek. assert (R : isres h a k (slots c)) by (exists c; auto).
  assert (Hl : In f_props (map fst (slots c))). { destruct (isres_shape _ _ _ _ _ _ I R) as [S1 _]. rewrite S1 by (destruct Ht as [->|[->| ->]]; discriminate). rewrite obj_layout by exact Ht. now left. }
  destruct (find_some _ _ Hl) as (v & Fv). pose proof (rbs_find _ _ _ f_props Hr) as P. rewrite Fv in P. destruct v as [|[p|]]; [destruct P| |].
  2:{ pose proof (isres_null _ _ _ _ _ _ _ I R (find_in _ _ _ Fv)) as N. now apply obj_not_null in N. }
  destruct P as (tp & Ep & Ea). destruct (isres_fits _ _ _ _ _ _ _ _ I R (find_in _ _ _ Fv)) as (kp & Kp & Fp). apply (fits_props _ _ Ht) in Fp. subst kp.
  destruct (rb_at _ _ _ _ Ep) as (cp & dp & tps & _ & Hcp & _ & Hrp & ->).
  assert (Rp : isres h p (KDict DProp) (slots cp)). { exists cp. split; [exact Hcp|]. split; [|reflexivity]. destruct Kp as (c2 & H2 & K2). congruence. }
  exists (slots c), p, (slots cp). split; [exact R|]. split; [exact Fv|]. split; [exact Rp|]. cbn [tid]. rewrite Ea. pose proof (rbs_find _ _ _ f_id Hrp) as P.
  destruct (find_slot f_id (slots cp)) as [[|[b|]]|] eqn:Fb; [destruct P| | |].
  - right. destruct P as (tb & Eb & Eab). exists (Some b). split; [reflexivity|]. cbn [valof]. rewrite Eab.
    destruct (tval_of _ _ _ _ Eb) as (v & Kv & Ev); [|rewrite Ev; exact Kv].
    destruct (isres_fits _ _ _ _ _ _ _ _ I Rp (find_in _ _ _ Fb)) as (kb & Kb & Ft). exists kb. split; [exact Kb|exact Ft].
  - right. exists None. split; [reflexivity|]. cbn. now rewrite P.
  - left. split; [reflexivity|]. now rewrite P.
Qed.

(** * Comparisons *)
Section Compared.
Variable oracle : mem -> addr -> addr -> bool.
Lemma wp_ocmp h r1 r2 : (forall a, r1 = Some a -> live h a) -> (forall a, r2 = Some a -> live h a) -> wp (ocmp oracle r1 r2) h (fun h' _ => h' = h).
Proof.
  intros H1 H2. unfold ocmp. destruct r1 as [a|], r2 as [b|]; try (now apply wp_ret). destruct (H1 a eq_refl) as (ca & Ha), (H2 b eq_refl) as (cb & Hb).
  apply wp_bind. eapply wp_look; [exact Ha|]. apply wp_bind. eapply wp_look; [exact Hb|].
  assert (Q : wp (fun h' : mem => Ok (h', oracle h' a b)) h (fun h' _ => h' = h)) by (exists h, (oracle h a b); auto).
  destruct (kind ca); try exact Q. destruct (kind cb); try exact Q. now apply wp_ret.
Qed.
Lemma wp_ocmp_val h r1 r2 o1 o2 : valof h r1 o1 -> valof h r2 o2 -> wp (ocmp oracle r1 r2) h (fun h' b => h' = h /\ b = oeqb o1 o2).
Proof.
  unfold ocmp. destruct r1 as [a|], o1 as [v1|]; cbn; try tauto; destruct r2 as [b|], o2 as [v2|]; cbn; try tauto; intros V1 V2; try (now apply wp_ret).
  destruct V1 as (ca & Ha & Ka), V2 as (cb & Hb & Kb). apply wp_bind. eapply wp_look; [exact Ha|]. apply wp_bind. eapply wp_look; [exact Hb|]. rewrite Ka, Kb. now apply wp_ret.
Qed.
(** Comparing two objects of a kind by a key. *)
Definition cmp_spec (k : tag) (eqf : addr -> addr -> M bool) (kf : tree -> option (str + Z)) : Prop := forall h e a b, G [] h e -> has_kind h a k -> has_kind h b k ->
  wp (eqf a b) h (fun h' r => G [] h' e /\ same (length h) h h' /\ r = oeqb (key kf h a) (key kf h b)).
Lemma namecmp_ok k : item_tag k -> cmp_spec k (namecmp oracle) tname.
Proof.
  intros Ht h e a b I Ka Kb. destruct (name_at _ _ _ _ I Ka Ht) as (sa & ra & Ra & Fa & Va), (name_at _ _ _ _ I Kb Ht) as (sb & rb' & Rb & Fb & Vb).
  unfold namecmp. apply wp_bind. eapply wp_member; [exact Ra|exact Fa|]. apply wp_bind. eapply wp_member; [exact Rb|exact Fb|].
  eapply wp_mono; [eapply wp_ocmp_val; eauto|]. cbv beta. intros h' r (-> & ->). split; [exact I|]. split; [apply same_id|reflexivity].
Qed.
Lemma wp_get_id X h e a k ss p sp o : G X h e -> ~ In p X -> isres h a k ss -> find_slot f_props ss = Some (Ptr (Some p)) -> isres h p (KDict DProp) sp ->
  (find_slot f_id sp = None /\ o = None \/ exists r, find_slot f_id sp = Some (Ptr r) /\ valof h r o) ->
  wp (do p <- props a; dget p (S_ "id")) h (fun h' r => G X h' (somes [r] ++ e) /\ same (length h) h h' /\ as_was h h' /\ valof h' r o).
Proof.
  intros I Hx R F Rp Hid. unfold props. apply wp_bind. apply wp_bind. eapply wp_member; [exact R|exact F|]. cbn [follow]. apply wp_ret.
  eapply wp_mono; [eapply (wp_dget X h e [p] p (KDict DProp) sp f_id I Rp); [apply via_in; now left|exact Hx]|].
  cbv beta. intros h1 r (I1 & S1 & W1 & Fr & _). split; [exact I1|]. split; [exact S1|]. split; [exact W1|]. eapply valof_was; [exact W1|].
  destruct Hid as [(E & ->)|(r' & E & V)], Fr as [(E' & _)|(E' & ->)]; rewrite E in E'; try discriminate; [exact Logic.I|]. injection E' as <-. exact V.
Qed.
Lemma bind_assoc {A B C} (m : M A) (f : A -> M B) (g : B -> M C) h Q : wp (do y <- (do x <- m; f x); g y) h Q -> wp (do x <- m; do y <- f x; g y) h Q.
Proof. intros (h' & v & E & H). exists h', v. split; [|exact H]. unfold mbind in *. destruct (m h) as [[h1 v1]| |]; cbn in *; auto. Qed.
Lemma idcmp_ok k : obj_tag k -> cmp_spec k (idcmp oracle) tid.
Proof.
  intros Ht h e a b I Ka Kb. destruct (id_at _ _ _ _ I Ka Ht) as (sa & pa & spa & Ra & Fa & Rpa & Va), (id_at _ _ _ _ I Kb Ht) as (sb & pb & spb & Rb & Fb & Rpb & Vb).
  unfold idcmp. apply bind_assoc. eapply wp_seq; [eapply (wp_get_id [] h e); eauto|]. cbv beta. intros h1 r1 (I1 & S1 & W1 & V1).
  apply bind_assoc. eapply wp_seq; [eapply (wp_get_id [] h1 (somes [r1] ++ e) b); [exact I1|intros []|apply W1; exact Rb|exact Fb|apply W1; exact Rpb|]|].
  { destruct Vb as [Vb|(r & E & V)]; [left; exact Vb|]. right. exists r. split; [exact E|]. eapply valof_was; eauto. }
  cbv beta. intros h2 r2 (I2 & S2 & W2 & V2). pose proof (valof_was _ _ _ _ W2 V1) as V1'.
  eapply wp_seq; [eapply wp_ocmp_val; eauto|]. cbv beta. intros h' r (-> & ->).
  eapply wp_seq; [apply (wp_release0 h2 (somes [r2] ++ e) r1)|].
  { eapply G_perm; [|exact I2]. intros x. rewrite !count_occ_app. lia. }
  cbv beta. intros h3 _ (I3 & _ & S3). eapply wp_seq; [apply (wp_release0 h3 e r2 I3)|]. cbv beta. intros h4 _ (I4 & _ & S4). apply wp_ret.
  split; [exact I4|]. split; [|reflexivity]. pose proof (same_length _ _ _ S1). pose proof (same_length _ _ _ S2). pose proof (same_length _ _ _ S3).
  eapply same_trans; [exact S1|]. eapply same_trans; [eapply same_weak; [|exact S2]; lia|]. eapply same_trans; [eapply same_weak; [|exact S3]; lia|]. eapply same_weak; [|exact S4]; lia.
Qed.
Lemma key_step kf h h' e e' e0 X' a : G [] h e -> incl e0 e -> same (length h) h h' -> G X' h' e' -> incl e0 e' -> via h e0 a -> (exists k, has_kind h a k /\ plain k = true) -> key kf h' a = key kf h a.
Proof.
  intros I Hi S I' Hi' V (k & K & P). destruct (rb_room h e a k I K P) as (t & Et & _). rewrite ?key_eq. rewrite Et. now rewrite (rb_same _ _ _ _ _ _ _ _ _ _ I Hi S I' Hi' V Et).
Qed.

#[global] Opaque rb.
(** * Sets *)
Section Sets.
Variable k : tag.
Variable eqf : addr -> addr -> M bool.
Variable kf : tree -> option (str + Z).
Hypothesis Hpl : plain k = true.
Hypothesis Hc : cmp_spec k eqf kf.
Definition hit (h : mem) (x y : addr) : bool := oeqb (key kf h y) (key kf h x).
Definition eown (h : mem) (e : list addr) (y : addr) : Prop := own h e y k.
Lemma eown_step h h' e : G [] h e -> same (length h) h h' -> G [] h' e -> forall y, eown h e y -> eown h' e y /\ key kf h' y = key kf h y.
Proof.
  intros I S I' y O. split; [eapply own_step; [exact O|exact I|apply incl_refl|exact S|exact I'|apply incl_refl]|].
  eapply (key_step kf h h' e e e); [exact I|apply incl_refl|exact S|exact I'|apply incl_refl|apply O|]. exists k. split; [apply O|exact Hpl].
Qed.
Lemma hit_step h h' e x s : G [] h e -> same (length h) h h' -> G [] h' e -> eown h e x -> Forall (eown h e) s -> find (hit h' x) s = find (hit h x) s.
Proof.
  intros I S I' Ox Os. induction Os as [|y s Oy Os IH]; cbn [find]; [reflexivity|].
  assert (E : hit h' x y = hit h x y). { unfold hit. destruct (eown_step h h' e I S I' x Ox) as (_ & ->), (eown_step h h' e I S I' y Oy) as (_ & ->). reflexivity. }
  rewrite E, IH. reflexivity.
Qed.
Lemma wp_set_find s : forall h e x, G [] h e -> Forall (eown h e) (x :: s) ->
  wp (set_find eqf s x) h (fun h' r => G [] h' e /\ same (length h) h h' /\ r = find (hit h x) s).
Proof.
  induction s as [|y s IH]; intros h e x I Os; cbn [set_find find].
  - apply wp_ret. split; [exact I|]. split; [apply same_id|reflexivity].
  - inversion Os as [|? ? Ox Os1]; subst. inversion Os1 as [|? ? Oy Os2]; subst. eapply wp_seq; [apply (Hc h e y x I (proj2 Oy) (proj2 Ox))|].
    cbv beta. intros h1 b (I1 & S1 & ->). unfold hit at 1. destruct (oeqb (key kf h y) (key kf h x)).
    + apply wp_ret. auto.
    + assert (Os' : Forall (eown h1 e) (x :: s)).
      { constructor; [|eapply Forall_impl; [|exact Os2]; cbn; intros z Oz]; eapply (eown_step h h1 e I S1 I1); eauto. }
      eapply wp_mono; [apply (IH h1 e x I1 Os')|]. cbv beta. intros h2 r (I2 & S2 & ->). split; [exact I2|]. split.
      * eapply same_trans; [exact S1|]. eapply same_weak; [|exact S2]. apply (same_length _ _ _ S1).
      * now apply (hit_step h h1 e).
Qed.
Lemma wp_set_add s h e x : G [] h e -> Forall (eown h e) (x :: s) ->
  wp (set_add eqf s x) h (fun h' sb => G [] h' e /\ same (length h) h h' /\ sb = match find (hit h x) s with Some _ => (s, false) | None => (s ++ [x], true) end).
Proof.
  intros I Os. unfold set_add. eapply wp_seq; [eapply wp_set_find; eauto|]. cbv beta. intros h1 r (I1 & S1 & ->). destruct (find (hit h x) s); apply wp_ret; auto.
Qed.
Fixpoint rm (p : addr -> bool) (s : list addr) : list addr := match s with [] => [] | y :: s' => if p y then s' else y :: rm p s' end.
Lemma rm_find p s y : find p s = Some y -> forall x, cnt x s = cnt x (y :: rm p s).
Proof.
  induction s as [|z s IH]; cbn [find rm]; [discriminate|]. destruct (p z); intros H x; [now injection H as <-|].
  specialize (IH H x). cbn [count_occ] in *. destruct (Nat.eq_dec z x), (Nat.eq_dec y x); lia.
Qed.
Lemma rm_incl p s : incl (rm p s) s.
Proof. induction s as [|z s IH]; cbn; [apply incl_refl|]. destruct (p z); [now apply incl_tl, incl_refl|]. intros x [->|H]; [now left|right; auto]. Qed.
Lemma rm_ext p q s : (forall y, In y s -> p y = q y) -> rm p s = rm q s.
Proof. induction s as [|z s IH]; cbn; intros H; [reflexivity|]. rewrite (H z (or_introl eq_refl)). destruct (q z); [reflexivity|]. rewrite IH; auto. Qed.
Lemma wp_set_remove s : forall h e x, G [] h e -> Forall (eown h e) (x :: s) ->
  wp (set_remove eqf s x) h (fun h' r => G [] h' e /\ same (length h) h h' /\ r = rm (hit h x) s).
Proof.
  induction s as [|y s IH]; intros h e x I Os; cbn [set_remove rm].
  - apply wp_ret. split; [exact I|]. split; [apply same_id|reflexivity].
  - inversion Os as [|? ? Ox Os1]; subst. inversion Os1 as [|? ? Oy Os2]; subst. eapply wp_seq; [apply (Hc h e y x I (proj2 Oy) (proj2 Ox))|].
    cbv beta. intros h1 b (I1 & S1 & ->). unfold hit at 1. destruct (oeqb (key kf h y) (key kf h x)).
    + apply wp_ret. auto.
    + assert (Os' : Forall (eown h1 e) (x :: s)).
      { constructor; [|eapply Forall_impl; [|exact Os2]; cbn; intros z Oz]; eapply (eown_step h h1 e I S1 I1); eauto. }
      eapply wp_seq; [apply (IH h1 e x I1 Os')|]. cbv beta. intros h2 r (I2 & S2 & ->). apply wp_ret. split; [exact I2|]. split.
      * eapply same_trans; [exact S1|]. eapply same_weak; [|exact S2]. apply (same_length _ _ _ S1).
      * apply (f_equal (cons y)). apply rm_ext. intros z Hz. rewrite Forall_forall in Os2. unfold hit.
        destruct (eown_step h h1 e I S1 I1 x Ox) as (_ & ->), (eown_step h h1 e I S1 I1 z (Os2 z Hz)) as (_ & ->). reflexivity.
Qed.
End Sets.
End Compared.

(** * Loops over lists *)
Lemma wp_each_list {S} (f : S -> addr -> M S) (xs : list addr) (I : list addr -> S -> mem -> Prop) :
  (forall pre x post s h, xs = pre ++ x :: post -> I pre s h -> wp (f s x) h (fun h' s' => I (pre ++ [x]) s' h')) ->
  forall s h, I [] s h -> wp (each_item f s (map Some xs)) h (fun h' s' => I xs s' h').
Proof.
  intros Hf. assert (K : forall post pre s h, xs = pre ++ post -> I pre s h -> wp (each_item f s (map Some post)) h (fun h' s' => I xs s' h')).
  { unfold each_item. induction post as [|x post IH]; intros pre s h E HI; cbn [map foldM].
    - rewrite app_nil_r in E. subst pre. now apply wp_ret.
    - apply wp_bind. cbn [follow]. apply wp_bind, wp_ret. eapply wp_mono; [eapply Hf; eauto|]. cbv beta. intros h' s' HI'. eapply IH; [|exact HI']. now rewrite <- app_assoc. }
  intros s h HI. now apply (K xs []).
Qed.
Lemma refs_items rs : refs (map snd (map item rs)) = somes rs.
Proof. unfold refs. induction rs as [|[a|] rs IH]; cbn; auto. now rewrite IH. Qed.
Lemma snd_items rs : map snd (map item rs) = map Ptr rs.
Proof. rewrite map_map. reflexivity. Qed.
Lemma reads_ptr rs : reads (map Ptr rs) = Some rs.
Proof. induction rs as [|r rs IH]; cbn; [reflexivity|]. now rewrite IH. Qed.
Lemma wp_items_at h l k sl rs (Q : mem -> list ref -> Prop) : isres h l k sl -> map snd sl = map Ptr rs -> Q h rs -> wp (items l) h Q.
Proof. intros (c & H & K & E) Es HQ. unfold items. apply wp_bind. eapply wp_look; [exact H|]. rewrite E, Es, reads_ptr. now apply wp_ret. Qed.
Lemma somes_some xs : somes (map Some xs) = xs.
Proof. induction xs; cbn; congruence. Qed.
(** The items of a list of objects. *)
Lemma list_items X h e e0 l et : G X h e -> own h e0 l (KList et) -> ~ In l X -> et <> LStr ->
  exists sl xs, isres h l (KList et) sl /\ map snd sl = map Ptr (map Some xs) /\ Forall (fun x => own h e0 x (elem_kind et)) xs.
Proof.
  intros I O Hx He. destruct (wp_items X h e e0 l et I O Hx) as (h' & rs & _ & _ & Hi & sl & R & E). apply (item_objs _ _ _ _ He) in Hi.
  assert (K : exists xs, rs = map Some xs /\ Forall (fun x => own h e0 x (elem_kind et)) xs).
  { clear E. induction Hi as [|r rs (x & -> & Ox) _ (xs & -> & Oxs)]; [exists []; auto|]. exists (x :: xs). split; [reflexivity|]. now constructor. }
  destruct K as (xs & -> & Oxs). eauto.
Qed.
(** Writing the items of a list. *)
Lemma wp_rewrite_list X h ext ext' l et rs rs' : G X h ext -> isres h l (KList et) (map item rs) -> (forall x, cnt x ext' + cnt x (somes rs') = cnt x ext + cnt x (somes rs)) ->
  (forall r, In r rs' -> fit_ref h (KList et) [] r) ->
  wp (rewrite_slots l (map item rs')) h (fun h' _ => G X h' ext' /\ upd l h h' /\ isres h' l (KList et) (map item rs')).
Proof.
  intros I R Hn Hf. pose proof R as (c & H & K & E). eapply wp_mono; [eapply (wp_rewrite X X h ext ext' l c _ I H)|].
  - intros x. unfold kids. rewrite E, !refs_items. apply Hn.
  - rewrite K. split; [intros D; now destruct D|]. split; [|discriminate]. apply Forall_forall. intros fv Hfv. apply in_map_iff in Hfv. destruct Hfv as (r & <- & Hr). apply fit_slot. auto.
  - rewrite snd_items. intros Hh. apply in_map_iff in Hh. destruct Hh as (r & Er & _). discriminate.
  - intros x Hx. now right.
  - cbv beta. intros h' _ (I' & U & C). split; [exact I'|]. split; [exact U|]. eexists. split; [exact C|]. auto.
Qed.
Lemma list_fits X h e l et rs r : G X h e -> isres h l (KList et) (map item rs) -> In r rs -> fit_ref h (KList et) [] r.
Proof.
  intros I R Hr. apply (in_map item) in Hr. unfold item at 1 in Hr. destruct r as [b|]; cbn [fit_ref]; [eapply isres_fits; eauto|eapply isres_null; eauto].
Qed.
