(** Facts about the memory of the document objects: documents, setters and getters. *)
From Verif Require Import CStr CStrFacts ObjMemModel ObjMemFacts1 ObjMemFacts2 ObjMemFacts3 ObjMemFacts4.

Lemma own_nil h e a k X : G X h e -> own h e a k -> In a X \/ ~ In a X.
Proof. intros _ _. destruct (in_dec Nat.eq_dec a X); auto. Qed.
Lemma same_isres0 h h' a k ss : isres h a k ss -> same 0 h h' -> live h' a -> has_kind h' a k.
Proof. intros R S L. eapply has_kind_same; [eapply isres_kind; eauto|exact S|exact L]. Qed.

(** * Documents *)
Definition docres (n0 : nat) (h : mem) (d : addr) : Prop :=
  exists ss o so, isres h d KDoc ss /\ find_slot f_objects ss = Some (Ptr (Some o)) /\ n0 <= o /\ isres h o (KDict DObjs) so /\
    forall f l, In (f, Ptr (Some l)) so -> n0 <= l.
Lemma docres_any X h e e0 d : G X h e -> own h e0 d KDoc -> ~ In d X -> docres 0 h d.
Proof.
  intros I O Hx. destruct (field _ _ _ _ _ _ f_objects I O Hx) as (ss & r & R & F & _ & Ft & Hv); [right; now left|].
  destruct r as [o|]; [|destruct Ft as [_ D]; now rewrite seqb_refl in D]. destruct Ft as (t & Kt & Ft). cbn in Ft. change (t = KDict DObjs) in Ft. subst t.
  destruct (has_kind_res _ _ _ Kt) as (so & Ro). exists ss, o, so. split; [exact R|]. split; [exact F|]. split; [lia|]. split; [exact Ro|]. intros; lia.
Qed.
Lemma docres_same X n0 h h' e' d : docres n0 h d -> same (length h) h h' -> n0 <= length h -> G X h' e' -> live h' d -> docres n0 h' d.
Proof.
  intros (ss & o & so & R & F & Lo & Ro & Fo) S Hn I' Ld.
  assert (R' : isres h' d KDoc ss) by (eapply isres_same; [exact R|discriminate|exact S|eapply isres_lt; eauto|exact Ld]).
  pose proof (isres_kid _ _ _ _ _ _ _ _ I' R' (find_in _ _ _ F)) as (co' & Ho').
  destruct Ro as (co & Ho & Ko & Eo). destruct S as [L S]. destruct (S o (at_lt _ _ _ Ho)) as [E|(c0 & c1 & H0 & H1 & K1 & P)]; [congruence|].
  assert (c0 = co) by congruence. assert (c1 = co') by congruence. subst c0 c1.
  exists ss, o, (slots co'). split; [exact R'|]. split; [exact F|]. split; [exact Lo|]. split; [exists co'; split; [exact Ho'|]; split; [congruence|reflexivity]|].
  intros f l Hl. destruct (P (at_lt _ _ _ Ho)) as [E|(_ & more & E & Fm)]; rewrite E in Hl; rewrite ?Eo in Hl; [eauto|].
  apply in_app_or in Hl. destruct Hl as [Hl|Hl]; [eauto|]. rewrite Forall_forall in Fm. specialize (Fm _ Hl l eq_refl). lia.
Qed.
Lemma grow_same h h' d so more : same 0 h h' -> (forall b kk s, b <> d -> isres h b kk s -> isres h' b kk s) ->
  isres h d (KDict DObjs) so -> isres h' d (KDict DObjs) (so ++ more) -> (forall f l, In (f, Ptr (Some l)) more -> length h <= l) -> same (length h) h h'.
Proof.
  intros [L S] W R R' Hm. split; [exact L|]. intros a Ha. destruct (S a Ha) as [E|(c & c' & H & H' & K & _)]; [now left|]. right. exists c, c'.
  split; [exact H|]. split; [exact H'|]. split; [exact K|]. intros _. destruct (Nat.eq_dec a d) as [->|Hne].
  - destruct R as (c0 & H0 & K0 & E0), R' as (c1 & H1 & K1 & E1). assert (c0 = c) by congruence. assert (c1 = c') by congruence. subst c0 c1.
    right. split; [exact K0|]. exists more. split; [congruence|]. apply Forall_forall. intros (f, v) Hin b Hb. cbn in Hb. subst v. eauto.
  - left. assert (R1 : isres h a (kind c) (slots c)) by (exists c; auto). apply (W a _ _ Hne) in R1. destruct R1 as (c1 & H1 & _ & E1). congruence.
Qed.
Lemma obj_kind_layout k : layout (obj_kind k) = [].
Proof. unfold obj_kind. repeat match goal with |- context [if ?b then _ else _] => destruct b end; reflexivity. Qed.
(** What [objects] of a document has. *)
Definition entry (h : mem) (d : addr) (k : str) (l : addr) : Prop :=
  exists ss o so, isres h d KDoc ss /\ find_slot f_objects ss = Some (Ptr (Some o)) /\ isres h o (KDict DObjs) so /\ In (k, Ptr (Some l)) so.
Lemma entry_fresh n0 h d k l : docres n0 h d -> entry h d k l -> n0 <= l.
Proof.
  intros (ss & o & so & R & F & _ & Ro & Fo) (ss' & o' & so' & R' & F' & Ro' & Hl).
  destruct R as (c & H & _ & E), R' as (c' & H' & _ & E'). assert (c' = c) by congruence. subst c'. assert (ss' = ss) by congruence. subst ss'.
  assert (o' = o) by congruence. subst o'. destruct Ro as (co & Hc & _ & Ec), Ro' as (co' & Hc' & _ & Ec'). assert (co' = co) by congruence. subst co'.
  assert (so' = so) by congruence. apply (Fo k l). congruence.
Qed.
Lemma doc_objects X h e e0 d : G X h e -> own h e0 d KDoc -> ~ In d X ->
  wp (objects d) h (fun h' o => h' = h /\ own h e0 o (KDict DObjs) /\ exists ss, isres h d KDoc ss /\ find_slot f_objects ss = Some (Ptr (Some o))).
Proof.
  intros I O Hx. unfold objects. eapply wp_mono; [eapply (wp_field X h e e0 d KDoc f_objects I O Hx)|].
  - right. now left.
  - intros [_ D]. now rewrite seqb_refl in D.
  - cbv beta. intros h' o (-> & Rs & t & Ot & Ft). change (t = KDict DObjs) in Ft. subst t. auto.
Qed.
Lemma doc_open_ok h e e0 d k : G [] h e -> own h e0 d KDoc -> incl e0 e ->
  wp (doc_open d k) h (fun h' l => G [] h' (l :: e) /\ same (length h) h h' /\ has_kind h' l (obj_kind k) /\ entry h' d k l).
Proof.
  intros I O Hi. unfold doc_open. eapply wp_seq; [eapply doc_objects; [exact I|exact O|intros []]|]. cbv beta. intros h' o (-> & [Vo Ko] & ss & Rd & Fd).
  destruct (has_kind_res _ _ _ Ko) as (so & Ro).
  eapply wp_seq; [eapply (wp_dget [] h e e0 o _ so k I Ro Vo); intros []|]. cbv beta. intros h1 r (I1 & S1 & W1 & F1 & Hb).
  destruct r as [l|].
  - apply wp_ret. destruct (Hb l eq_refl) as (Vl & t & Kt & Ft). change (t = obj_kind k) in Ft. subst t. split; [exact I1|]. split; [exact S1|].
    destruct F1 as [(F1 & _)|(_ & D)]; [|discriminate]. split.
    + eapply has_kind_same; [exact Kt|exact S1|]. eapply in_live; [exact I1|]. now left.
    + exists ss, o, so. split; [now apply W1|]. split; [exact Fd|]. split; [now apply W1|]. now apply find_in.
  - destruct F1 as [(_ & D)|(F1 & _)]; [destruct D|]. cbn [somes app] in I1.
    eapply wp_seq; [apply (wp_new2 [] h1 e (obj_kind k) I1 (obj_kind_layout k))|]. cbv beta. intros h2 n (-> & I2 & S2 & W2 & Rn).
    pose proof (same_length _ _ _ S1) as L1.
    assert (So : same (length h) h h2) by (eapply same_trans; [exact S1|]; eapply same_weak; [|exact S2]; lia).
    destruct (via_same _ _ _ _ e0 _ _ _ I Hi So I2 (ltac:(intros x Hx; right; auto)) Vo) as (Vo2 & _).
    eapply wp_seq; [eapply (wp_dset [] h2 (length h1 :: e) o (KDict DObjs) so k (Some (length h1)) I2)|].
    + apply W2, W1, Ro.
    + reflexivity.
    + eapply via_mono; [|exact Vo2]. intros x Hx. right. auto.
    + intros [].
    + intros x [].
    + exists (obj_kind k). split; [eapply isres_kind; eauto|reflexivity].
    + cbv beta. intros h3 _ (I3 & R3 & (W3 & _) & S3). apply wp_ret. rewrite (put_new _ _ _ F1) in R3. specialize (W3 F1). split; [exact I3|].
      assert (Hno : length h1 <> o) by (pose proof (isres_lt _ _ _ _ Ro); lia).
      assert (Hdo : d <> o). { intros ->. destruct Rd as (c & H & K & _), Ro as (c' & H' & K' & _). congruence. }
      split; [|split].
      * eapply (grow_same h h3 o so [(k, Ptr (Some (length h1)))]).
        -- eapply same_trans; [eapply same_weak; [|exact So]; lia|]. apply S3. lia.
        -- intros b kk s Hne Rb. apply W3; auto.
        -- exact Ro.
        -- exact R3.
        -- intros f l [Hl|[]]. injection Hl as _ <-. lia.
      * eapply isres_kind. apply W3; [exact Hno|exact Rn].
      * exists ss, o, (so ++ [(k, Ptr (Some (length h1)))]). split; [apply W3; auto|]. split; [exact Fd|]. split; [exact R3|]. apply in_or_app. right. now left.
Qed.
Lemma doc_get_ok h e e0 d k : G [] h e -> own h e0 d KDoc -> incl e0 e ->
  wp (doc_get d k) h (fun h' l => G [] h' (l :: e) /\ same (length h) h h' /\ has_kind h' l (obj_kind k) /\ entry h' d k l).
Proof.
  intros I O Hi. unfold doc_get. eapply wp_seq; [eapply doc_objects; [exact I|exact O|intros []]|]. cbv beta. intros h' o (-> & [Vo Ko] & ss & Rd & Fd).
  destruct (has_kind_res _ _ _ Ko) as (so & Ro).
  eapply wp_seq; [eapply (wp_dget [] h e e0 o _ so k I Ro Vo); intros []|]. cbv beta. intros h1 r (I1 & S1 & W1 & F1 & Hb).
  destruct r as [l|].
  - apply wp_ret. destruct (Hb l eq_refl) as (Vl & t & Kt & Ft). change (t = obj_kind k) in Ft. subst t. split; [exact I1|]. split; [exact S1|].
    split; [eapply has_kind_same; [exact Kt|exact S1|]; eapply in_live; [exact I1|]; now left|].
    destruct F1 as [(F1 & _)|(_ & D)]; [|discriminate]. exists ss, o, so. split; [now apply W1|]. split; [exact Fd|]. split; [now apply W1|]. now apply find_in.
  - destruct F1 as [(_ & D)|(F1 & _)]; [destruct D|]. cbn [somes app] in I1.
    eapply wp_seq; [apply (wp_new2 [] h1 e (obj_kind k) I1 (obj_kind_layout k))|]. cbv beta. intros h2 n (-> & I2 & S2 & W2 & Rn).
    pose proof (same_length _ _ _ S1) as L1.
    assert (So : same (length h) h h2) by (eapply same_trans; [exact S1|]; eapply same_weak; [|exact S2]; lia).
    destruct (via_same _ _ _ _ e0 _ _ _ I Hi So I2 (ltac:(intros x Hx; right; auto)) Vo) as (Vo2 & _).
    eapply wp_seq; [eapply (wp_dset_x [] h2 e o (KDict DObjs) so k (Some (length h1)) I2)|].
    + apply W2, W1, Ro.
    + reflexivity.
    + eapply via_mono; [exact Hi|exact Vo2].
    + intros [].
    + intros x [].
    + exists (obj_kind k). split; [eapply isres_kind; eauto|reflexivity].
    + cbv beta. intros h3 _ (I3 & R3 & (U3 & _) & S3). rewrite (put_new _ _ _ F1) in R3. specialize (U3 F1).
      assert (Hno : length h1 <> o) by (pose proof (isres_lt _ _ _ _ Ro); lia).
      pose proof (isres_upd _ _ _ _ _ _ Rn U3 Hno) as Rn3.
      assert (Sg : same (length h) h h3).
      { eapply (grow_same h h3 o so [(k, Ptr (Some (length h1)))]).
        - eapply same_trans; [eapply same_weak; [|exact So]; lia|]. apply S3. lia.
        - intros b kk s Hne Rb. eapply isres_upd; [apply W2, W1, Rb|exact U3|exact Hne].
        - exact Ro.
        - exact R3.
        - intros f l [Hl|[]]. injection Hl as _ <-. lia. }
      eapply wp_seq; [apply (wp_incref2 [] h3 e (Some (length h1)) I3)|].
      { intros a Ha. injection Ha as <-. eapply isres_live; eauto. }
      cbv beta. intros h4 _ (I4 & S4 & W4). apply wp_ret. split; [exact I4|]. split; [eapply same_trans; [exact Sg|]; eapply same_weak; [|exact S4]; apply (same_length _ _ _ Sg)|].
      split; [eapply isres_kind; apply W4; exact Rn3|].
      assert (Hdo : d <> o). { intros ->. destruct Rd as (c & H & K & _), Ro as (c' & H' & K' & _). congruence. }
      exists ss, o, (so ++ [(k, Ptr (Some (length h1)))]). split; [apply W4; eapply isres_upd; [apply W2, W1, Rd|exact U3|exact Hdo]|]. split; [exact Fd|]. split; [now apply W4|].
      apply in_or_app. right. now left.
Qed.
Lemma same_upd_trans n h h1 h2 a : same n h h1 -> upd a h1 h2 -> n <= a -> same n h h2.
Proof. intros S U Hn. eapply same_trans; [exact S|]. eapply upd_same; eauto. Qed.
Lemma new_doc_ok h e enc : G [] h e -> fit_ref h KDoc f_enc enc -> (forall a, enc = Some a -> via h e a) ->
  wp (new_doc enc) h (fun h' r => length h <= r /\ G [] h' (r :: e) /\ same (length h) h h' /\ has_kind h' r KDoc /\ docres (length h) h' r).
Proof.
  intros I He Hv. unfold new_doc. eapply wp_seq; [apply (wp_struct [] h e KDoc I); discriminate|]. cbv beta. intros h1 r (-> & I1 & S1 & R1).
  pose proof (isres_lt _ _ _ _ R1) as L1.
  eapply wp_seq; [eapply (wp_init2 _ h1 _ _ _ _ f_objects (KDict DObjs)); [exact I1|exact R1|reflexivity|reflexivity|reflexivity|reflexivity]|].
  cbv beta. intros h2 _ (o & Lo & I2 & R2 & S2 & Ro2 & W2). pose proof (same_length _ _ _ (S2 0 ltac:(lia))) as L2.
  eapply wp_seq; [eapply (wp_init2 _ h2 _ _ _ _ f_log KLog); [exact I2|exact R2|reflexivity|reflexivity|reflexivity|reflexivity]|].
  cbv beta. intros h3 _ (lg & Llg & I3 & R3 & S3 & _ & W3). pose proof (same_length _ _ _ (S3 0 ltac:(lia))) as L3.
  assert (S03 : same (length h) h h3) by (eapply same_trans; [exact S1|]; eapply same_trans; [apply S2; lia|apply S3; lia]).
  eapply wp_seq; [apply (wp_incref2 _ h3 _ enc I3)|].
  { intros a ->. destruct (via_same _ _ _ _ e _ _ _ I (incl_refl _) S03 I3 (ltac:(inc)) (Hv a eq_refl)) as (_ & c0 & c1 & _ & Hc1 & _). now exists c1. }
  cbv beta. intros h4 _ (I4 & S4 & W4). pose proof (same_length _ _ _ S4) as L4. pose proof (W4 _ _ _ R3) as R4.
  assert (S04 : same (length h) h h4) by (eapply same_trans; [exact S03|]; eapply same_weak; [|exact S4]; lia).
  eapply wp_seq; [eapply (wp_set_member _ h4 (somes [enc] ++ length h :: e) (length h :: e)); [exact I4|exact R4|reflexivity| |]|].
  { intros x. rewrite count_occ_app. destruct enc; cbn; lia. }
  { apply fit_slot. eapply fit_same; [exact He|exact S04|]. intros b ->. eapply in_live; [exact I4|]. now left. }
  cbn [opened]. intros h5 _ (I5 & U5 & R5). pose proof (upd_length _ _ _ U5) as L5.
  eapply wp_seq; [eapply (wp_init2 _ h5 _ _ _ _ f_dtname (KVal _)); [exact I5|exact R5|reflexivity|reflexivity|exact Logic.I|reflexivity]|].
  cbv beta. intros h6 _ (v1 & Lv1 & I6 & R6 & S6 & _ & W6). pose proof (same_length _ _ _ (S6 0 ltac:(lia))) as L6.
  eapply wp_seq; [eapply (wp_init2 _ h6 _ _ _ _ f_dtsys (KVal _)); [exact I6|exact R6|reflexivity|reflexivity|exact Logic.I|reflexivity]|].
  cbv beta. intros h7 _ (v2 & Lv2 & I7 & R7 & S7 & _ & W7). pose proof (same_length _ _ _ (S7 0 ltac:(lia))) as L7.
  eapply wp_seq; [eapply (wp_init2 _ h7 _ _ _ _ f_dtpub (KVal _)); [exact I7|exact R7|reflexivity|reflexivity|exact Logic.I|reflexivity]|].
  cbv beta. intros h8 _ (v3 & Lv3 & I8 & R8 & S8 & _ & W8). apply wp_ret. split; [lia|].
  assert (I9 : G [] h8 (length h :: e)) by (eapply G_unhole; [exact I8|exact R8|solid]). split; [exact I9|]. split; [|split].
  - eapply same_trans; [exact S04|]. eapply same_trans; [eapply upd_same; [|exact U5]; lia|]. eapply same_trans; [apply S6; lia|]. eapply same_trans; [apply S7; lia|apply S8; lia].
  - eapply isres_kind; eauto.
  - assert (Hne : o <> length h) by lia.
    exists [(f_log, Ptr (Some lg)); (f_objects, Ptr (Some o)); (f_enc, Ptr enc); (f_dtname, Ptr (Some v1)); (f_dtsys, Ptr (Some v2)); (f_dtpub, Ptr (Some v3))], o, [].
    split; [exact R8|]. split; [reflexivity|]. split; [lia|]. split; [|intros f l []].
    apply W8, W7, W6; auto. eapply isres_upd; [apply W4, W3, Ro2; exact Hne|exact U5|exact Hne].
Qed.
