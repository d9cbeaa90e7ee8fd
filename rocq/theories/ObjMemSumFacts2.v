(** Facts about the memory of sums of Python lists: the sums, and histories with them. *)
From Verif Require Import CStr CStrFacts ObjMemModel ObjMemFacts1 ObjMemFacts2 ObjMemFacts3 ObjMemFacts4 ObjMemFacts5 ObjMemFacts6 ObjMemFacts7 ObjMemFacts8 ObjMemFacts9 ObjMemFactsA ObjMemFactsB ObjMemFactsE ObjMemFactsF ObjMemSum.
From Verif Require Import SpecX SpecY ObjMemFactsC ObjMemSumFacts1.

Lemma isl_base h0 e0 h E l et rs : ok [] h0 e0 h E -> own h0 e0 l (KList et) -> isl h0 l et rs -> isl h l et rs.
Proof. intros O Ol (sl & R & M). exists sl. split; [|exact M]. eapply base_isres; [exact O|exact Ol|discriminate|exact R]. Qed.
(** What is there after a sum. *)
Definition sum_post (h0 : mem) (e0 : list addr) (et : ety) (kf : tree -> option (str + Z)) (xs ys : list addr) (P : Prop) (h' : mem) (r : addr) : Prop := exists lost news,
  ok [] h0 e0 h' (lost ++ r :: e0) /\ length h0 <= r /\ isl h' r et (map Some (news ++ filter (keep h0 kf xs) ys)) /\ length news = length xs /\ fresh h0 h' news /\ (P -> lost = []).
Lemma sum_ok h0 e0 l1 l2 xs ys et t eqf kf (P : Prop) (D : tree -> Prop) (sec : addr -> list addr -> addr -> M unit) :
  plain t = true -> cmp_spec t eqf kf -> elem et t -> G [] h0 e0 -> own h0 e0 l1 (KList et) -> own h0 e0 l2 (KList et) -> isl h0 l1 et (map Some xs) -> isl h0 l2 et (map Some ys) -> Forall (fun x => own h0 e0 x t) xs ->
  (P -> NoDup (map (key kf h0) xs)) -> (P -> forall x tx, In x xs -> rb room h0 x = Some tx -> D tx) ->
  (forall r s ts, length h0 <= r -> (forall y, In y s -> length h0 <= y) -> (forall v, In v (map kf ts) <-> In v (map (key kf h0) xs)) -> (P -> Forall D ts) ->
    forall pre x post u h, ys = pre ++ x :: post -> second_sum h0 e0 r et t kf P xs s ts pre u h -> wp (sec r s x) h (fun h' u' => second_sum h0 e0 r et t kf P xs s ts (pre ++ [x]) u' h')) ->
  wp (do r <- new_list et; do i1 <- items l1; do s <- sum_first eqf r i1; do i2 <- items l2; each_item (fun _ x => sec r s x) tt i2 ;;; set_destroy s ;;; ret r) h0 (sum_post h0 e0 et kf xs ys P).
Proof.
  intros Pl Cm El I0 Ol1 Ol2 L1 L2 Ox HP HD Hsec. assert (Rk : rank t < rank (KList et)) by (apply (fits_rank (KList et) [] t); exact El).
  eapply wp_seq; [apply (wp_new2 [] h0 e0 (KList et) I0 eq_refl)|]. cbv beta. intros h1 r (Er & I1 & S1 & _ & R1).
  assert (Lr : length h0 <= r) by (rewrite Er; apply Nat.le_refl). clear Er.
  assert (O1 : ok [] h0 e0 h1 (r :: e0)) by (eapply ok_step; [exact (ok_id _ _ I0)|exact S1|apply Nat.le_refl|exact I1|intros x Hx; now right]).
  apply wp_bind. eapply wp_isl_items; [exact (isl_base _ _ _ _ _ _ _ O1 Ol1 L1)|].
  eapply wp_seq; [apply (wp_each_list _ xs (fun pre s h => first_sum h0 e0 r et t kf P D pre s h))|].
  - intros pre x post s h Ex H. rewrite Forall_forall in Ox. eapply (first_sum_step h0 e0 r et t eqf kf Pl Cm El Rk Lr P D xs pre x post s h HP HD Ex); [apply Ox; rewrite Ex; apply in_or_app; right; now left|exact H].
  - exists [], [], []. split; [|split; [reflexivity|split; [split; [constructor|intros a []]|split; [intros a []|split; [reflexivity|intros _; split; [reflexivity|constructor]]]]]].
    constructor; [exact O1|intros x [<-|[]]; now left|exists []; split; [exact R1|reflexivity]|constructor|constructor].
  - cbv beta. intros h2 s (lost & ts & news & Q & Ln & Fn & Is & Kv & Hl).
    assert (Hs : forall y, In y s -> length h0 <= y) by (intros y Hy; apply (proj2 Fn y (Is y Hy))).
    apply wp_bind. eapply wp_isl_items; [exact (isl_base _ _ _ _ _ _ _ (sm_ok _ _ _ _ _ _ _ _ _ _ Q) Ol2 L2)|].
    eapply wp_seq; [apply (wp_each_list _ ys (fun pre u h => second_sum h0 e0 r et t kf P xs s ts pre u h))|].
    + intros pre x post u h Ey H. exact (Hsec r s ts Lr Hs Kv (fun p => proj2 (Hl p)) pre x post u h Ey H).
    + exists lost, news. cbn [filter]. rewrite app_nil_r. split; [exact Q|]. split; [exact Ln|]. split; [exact Fn|]. intros p. split; [apply (Hl p)|]. intros y Hy _. now apply Is.
    + cbv beta. intros h3 _ (lost3 & news3 & Q3 & Ln3 & Fn3 & Hl3).
      assert (Q3' : sm h0 e0 r et t h3 (s ++ lost3 ++ r :: e0) [] [] (news3 ++ filter (keep h0 kf xs) ys)).
      { destruct Q3 as [A B C _ _]. constructor; [exact A|intros x [<-|[]]; apply B; now left|exact C|constructor|constructor]. }
      eapply wp_seq; [apply (sm_destroy h0 e0 r et t Rk Lr s _ h3 lost3 Q3')|]. cbv beta. intros h4 _ (Q4 & L4). apply wp_ret. exists lost3, news3.
      split; [apply (sm_ok _ _ _ _ _ _ _ _ _ _ Q4)|]. split; [exact Lr|]. split; [apply (sm_list _ _ _ _ _ _ _ _ _ _ Q4)|]. split; [exact Ln3|]. split; [eapply fresh_len; eauto|]. intros p. apply (Hl3 p).
Qed.
Section Calls.
Variable oracle : mem -> addr -> addr -> bool.
Variable matches : mem -> addr -> bool.
Lemma sum_objs_ok h e l1 l2 xs ys k et t un : ObjMemFactsB.part k et t -> spec_un t un -> G [] h e -> own h e l1 (KList et) -> own h e l2 (KList et) -> isl h l1 et (map Some xs) -> isl h l2 et (map Some ys) ->
  wp (sum_objs oracle et un l1 l2) h (sum_post h e et tid xs ys (good_list h t xs /\ good_list h t ys)).
Proof.
  intros Pt Sp I O1 O2 L1 L2. pose proof (part_own _ _ _ _ _ _ _ Pt I O1 L1) as Ox. pose proof (part_own _ _ _ _ _ _ _ Pt I O2 L2) as Oy.
  pose proof (part_plain _ _ _ Pt) as Pl. pose proof (part_el _ _ _ Pt) as El. pose proof (idcmp_ok oracle t (p_tag _ _ _ Pt)) as Cm.
  assert (Rk : rank t < rank (KList et)) by (apply (fits_rank (KList et) [] t); exact El).
  assert (HD : forall zs, Forall (fun x => own h e x t) zs -> good_list h t zs -> forall x tx, In x zs -> rb room h x = Some tx -> tdist t tx).
  { intros zs Oz (_ & Dz) x tx Hx Ex. rewrite Forall_forall in Oz, Dz. apply (distinct_tree h e x t tx I (proj2 (Oz x Hx)) (p_tag _ _ _ Pt) Ex). exact (Dz x Hx). }
  apply (sum_ok h e l1 l2 xs ys et t (idcmp oracle) tid (good_list h t xs /\ good_list h t ys) (tdist t)
    (fun r s x => do d <- set_find (idcmp oracle) s x; match d with Some data => do i <- index r data; remove_at r i ;;; do o <- un data x; insert_at_x r i (Some o) | None => append r (Some x) end) Pl Cm El I O1 O2 L1 L2 Ox).
  - intros ((N & _) & _). exact N.
  - intros (Gx & _). exact (HD xs Ox Gx).
  - intros r s ts Lr Hs Kv Dt pre x post u h1 Ey H.
    apply (second_sum_step h e r et t (idcmp oracle) tid Pl Cm El Rk Lr _ xs s ts Hs Kv un Sp (p_tag _ _ _ Pt) ys pre x post h1 u Dt); [intros (_ & N & _); exact N|intros (_ & Gy); exact (HD ys Oy Gy)|exact Ey|exact Oy|exact H].
Qed.
Lemma sum_pkgs_ok h e l1 l2 xs ys : G [] h e -> own h e l1 (KList LPkg) -> own h e l2 (KList LPkg) -> isl h l1 LPkg (map Some xs) -> isl h l2 LPkg (map Some ys) ->
  Forall (fun x => own h e x KPkg) xs -> Forall (fun x => own h e x KPkg) ys ->
  wp (sum_pkgs oracle l1 l2) h (sum_post h e LPkg tname xs ys (NoDup (map (key tname h) xs))).
Proof.
  intros I O1 O2 L1 L2 Ox Oy. assert (Cm : cmp_spec KPkg (namecmp oracle) tname) by (apply namecmp_ok; now left).
  assert (Rk : rank KPkg < rank (KList LPkg)) by (cbn; lia).
  apply (sum_ok h e l1 l2 xs ys LPkg KPkg (namecmp oracle) tname (NoDup (map (key tname h) xs)) (fun _ => True)
    (fun r s x => do d <- set_find (namecmp oracle) s x; match d with Some _ => ret tt | None => append r (Some x) end) eq_refl Cm eq_refl I O1 O2 L1 L2 Ox).
  - auto.
  - auto.
  - intros r s ts Lr Hs Kv Dt pre x post u h1 Ey H. rewrite Forall_forall in Oy.
    apply (second_sum_pkgs h e r LPkg KPkg (namecmp oracle) tname eq_refl Cm eq_refl Rk Lr _ xs s ts Kv pre x h1 u); [apply Oy; rewrite Ey; apply in_or_app; right; now left|exact H].
Qed.

(** * The words of the claims *)
Lemma isl_in h l et xs : isl h l et (map Some xs) -> objects_in h l xs.
Proof. intros (sl & (c & H & _ & E) & M). exists c. split; [exact H|]. rewrite E, M, map_map. reflexivity. Qed.
Lemma in_isl h l et xs : has_kind h l (KList et) -> objects_in h l xs -> isl h l et (map Some xs).
Proof. intros (c' & H' & K) (c & H & E). assert (c' = c) by (unfold at_ in H; congruence). subst c'. exists (slots c). split; [exists c; auto|]. rewrite E, map_map. reflexivity. Qed.
Lemma pkg_items h e l : G [] h e -> own h e l (KList LPkg) -> exists xs, Forall (fun x => own h e x KPkg) xs /\ isl h l LPkg (map Some xs).
Proof. intros I O. destruct (list_items [] h e e l LPkg I O (fun x => x) ltac:(discriminate)) as (sl & xs & R & E & H). exists xs. split; [exact H|]. exists sl. auto. Qed.
Lemma isl_objects h l et xs ys : isl h l et (map Some xs) -> objects_in h l ys -> ys = xs.
Proof. intros L H. pose proof (isl_kind _ _ _ _ L) as K. exact (isl_fun _ _ _ _ _ (in_isl _ _ _ _ K H) L). Qed.
Lemma keep_others h e t kf (id : mem -> addr -> option (str + Z)) xs ys : Forall (fun x => own h e x t) xs -> Forall (fun x => own h e x t) ys -> (forall x, own h e x t -> id h x = key kf h x) ->
  filter (keep h kf xs) ys = others (id h) xs ys.
Proof.
  intros Ox Oy Hid. unfold others, keep. assert (Em : map (id h) xs = map (key kf h) xs) by (apply map_ext_in; intros x Hx; apply Hid; rewrite Forall_forall in Ox; auto). rewrite Em.
  apply filter_ext_in. intros y Hy. rewrite Forall_forall in Oy. rewrite (Hid y (Oy y Hy)). reflexivity.
Qed.
(** One sum. *)
Definition sum_result (h : mem) (c : call2) (h' : mem) (r : addr) : Prop :=
  match c with
  | Old _ => True
  | CSum p l1 l2 => forall xs ys, objects_in h l1 xs -> objects_in h l2 ys -> summed h h' r (length xs) (others (id_of h) xs ys)
  | CSumPkgs l1 l2 => forall xs ys, objects_in h l1 xs -> objects_in h l2 ys -> summed h h' r (length xs) (others (name_of h) xs ys)
  end.
Lemma post_result h e et t kf (id : mem -> addr -> option (str + Z)) xs ys P h' r : Forall (fun x => own h e x t) xs -> Forall (fun x => own h e x t) ys -> (forall x, own h e x t -> id h x = key kf h x) ->
  sum_post h e et kf xs ys P h' r -> summed h h' r (length xs) (others (id h) xs ys).
Proof.
  intros Ox Oy Hid (lost & news & O & Lr & L & Ln & (N & F) & _). rewrite (keep_others h e t kf id xs ys Ox Oy Hid) in L. exists news.
  split; [exact Lr|]. split; [exact (isl_in _ _ _ _ L)|]. split; [exact Ln|]. split; [exact N|]. intros a Ha. apply (F a Ha).
Qed.
Lemma ok_untouched h e h' E kept : ok [] h e h' E -> incl kept e -> untouched h h' kept.
Proof.
  intros O Hi a c F Hc Hk. apply from_via in F. assert (Oa : own h e a (kind c)) by (split; [exact (via_mono _ _ _ _ Hi F)|exists c; auto]).
  destruct (base_isres h e [] h' E a (kind c) (slots c) O Oa Hk) as (c' & Hc' & K' & S'); [exists c; auto|]. exists c'. auto.
Qed.
Lemma call2_ok h kept e c : incl kept e -> G [] h (takes2 c ++ e) -> allowed2 h kept c ->
  wp (run2 oracle matches c) h (fun h' got => exists lost, G [] h' (got ++ lost ++ e) /\ (tidy2 h c -> lost = []) /\
    match c with Old _ => True | _ => exists r, got = [r] /\ untouched h h' kept /\ sum_result h c h' r end).
Proof.
  intros Hi I A. destruct c as [c|p l1 l2|l1 l2]; cbn [takes2 allowed2 app] in *.
  - eapply wp_mono; [exact (call_ok oracle matches h kept e c Hi I A)|]. intros h' got (lost & I' & T). exists lost. auto.
  - destruct A as (U1 & U2). pose proof (usable_own _ _ _ _ _ Hi U1) as O1. pose proof (usable_own _ _ _ _ _ Hi U2) as O2. pose proof (pkey_part p) as Pt.
    destruct (part_items h e e l1 _ _ _ Pt I O1) as (xs & Ox & L1), (part_items h e e l2 _ _ _ Pt I O2) as (ys & Oy & L2).
    assert (Fin : forall un, spec_un (pkind p) un -> wp (gives (sum_objs oracle (pety p) un l1 l2)) h (fun h' got => exists lost, G [] h' (got ++ lost ++ e) /\ (tidy2 h (CSum p l1 l2) -> lost = []) /\
      exists r, got = [r] /\ untouched h h' kept /\ sum_result h (CSum p l1 l2) h' r)).
    { intros un Sp. apply then_gives. eapply wp_mono; [exact (sum_objs_ok h e l1 l2 xs ys _ _ _ un Pt Sp I O1 O2 L1 L2)|]. cbv beta. intros h' r W.
      assert (Hid : forall x, own h e x (pkind p) -> id_of h x = key tid h x) by (intros x Oxx; exact (id_key h e x _ I (proj2 Oxx) (pkind_tag p))).
      pose proof (post_result h e _ _ tid id_of xs ys _ h' r Ox Oy Hid W) as R. destruct W as (lost & news & O & _ & _ & _ & _ & T). exists lost.
      split; [eapply G_perm; [|apply (ok_g _ _ _ _ _ O)]; shift|]. split; [|exists r; split; [reflexivity|split; [exact (ok_untouched _ _ _ _ _ O Hi)|]]].
      - intros (S1 & S2). apply T. assert (Good : forall l zs, Forall (fun x => own h e x (pkind p)) zs -> isl h l (pety p) (map Some zs) -> separate_list h p l -> good_list h (pkind p) zs).
        { intros l zs Oz L S. destruct (S zs (isl_in _ _ _ _ L)) as (N & Df). split.
          - replace (map (key tid h) zs) with (map (id_of h) zs); [exact N|]. apply map_ext_in. intros x Hx. apply Hid. rewrite Forall_forall in Oz. auto.
          - apply Forall_forall. intros x Hx. exact (different_distinct h e p x I (Df x Hx)). }
        split; [exact (Good l1 xs Ox L1 S1)|exact (Good l2 ys Oy L2 S2)].
      - intros xs' ys' Hx Hy. rewrite (isl_objects _ _ _ _ _ L1 Hx), (isl_objects _ _ _ _ _ L2 Hy). exact R. }
    destruct p; apply Fin; [apply group_union_ok|apply cat_union_ok|apply env_union_ok].
  - destruct A as (U1 & U2). pose proof (usable_own _ _ _ _ _ Hi U1) as O1. pose proof (usable_own _ _ _ _ _ Hi U2) as O2.
    destruct (pkg_items h e l1 I O1) as (xs & Ox & L1), (pkg_items h e l2 I O2) as (ys & Oy & L2).
    apply then_gives. eapply wp_mono; [exact (sum_pkgs_ok h e l1 l2 xs ys I O1 O2 L1 L2 Ox Oy)|]. cbv beta. intros h' r W.
    assert (Hid : forall x, own h e x KPkg -> name_of h x = key tname h x) by (intros x Oxx; exact (name_key h e x _ I (proj2 Oxx) (or_introl eq_refl))).
    pose proof (post_result h e _ _ tname name_of xs ys _ h' r Ox Oy Hid W) as R. destruct W as (lost & news & O & _ & _ & _ & _ & T). exists lost.
    split; [eapply G_perm; [|apply (ok_g _ _ _ _ _ O)]; shift|]. split; [|exists r; split; [reflexivity|split; [exact (ok_untouched _ _ _ _ _ O Hi)|]]].
    + intros Ty. apply T. replace (map (key tname h) xs) with (map (name_of h) xs); [exact (Ty xs (isl_in _ _ _ _ L1))|]. apply map_ext_in. intros x Hx. apply Hid. rewrite Forall_forall in Ox. auto.
    + intros xs' ys' Hx Hy. rewrite (isl_objects _ _ _ _ _ L1 Hx), (isl_objects _ _ _ _ _ L2 Hy). exact R.
Qed.
Lemma run2_ok h held lost c kept : G [] h (held ++ lost) -> (forall a, occ a held = occ a (takes2 c ++ kept)) -> allowed2 h kept c ->
  exists h' got, run2 oracle matches c h = Ok (h', got) /\ (exists more, G [] h' ((got ++ kept) ++ more ++ lost) /\ (tidy2 h c -> more = [])) /\
    match c with Old _ => True | _ => exists r, got = [r] /\ untouched h h' kept /\ sum_result h c h' r end.
Proof.
  intros I O A. assert (I1 : G [] h (takes2 c ++ kept ++ lost)).
  { eapply G_perm; [|exact I]. intros a. pose proof (O a) as Oa. unfold occ in Oa. repeat rewrite count_occ_app in *. lia. }
  destruct (call2_ok h kept (kept ++ lost) c (incl_appl _ (incl_refl _)) I1 A) as (h' & got & H & more & I' & T & R). exists h', got. split; [exact H|]. split; [|exact R]. exists more. split; [|exact T].
  eapply G_perm; [|exact I']. intros a. repeat rewrite count_occ_app. lia.
Qed.
Lemma hist2_G t h held : history2 oracle matches t h held -> exists lost, G [] h (held ++ lost) /\ (t = true -> lost = []).
Proof.
  intros H. induction H as [|t t' h held c kept h' got H IH O A R T].
  - exists []. split; [|auto]. split; [exact Inv_nil| |]; intros a c Hc; destruct a; discriminate Hc.
  - destruct IH as (lost & I & L). destruct (run2_ok h held lost c kept I O A) as (h2 & got2 & R2 & (more & I2 & T2) & _). rewrite R in R2. injection R2 as <- <-.
    exists (more ++ lost). split; [exact I2|]. intros E. destruct (T E) as [E1 E2]. rewrite (L E1), (T2 E2). reflexivity.
Qed.
(** * Histories *)
Lemma history2_defined t h held c kept : history2 oracle matches t h held ->
  (forall a, occ a held = occ a (takes2 c ++ kept)) -> allowed2 h kept c -> exists h' got, run2 oracle matches c h = Ok (h', got).
Proof. intros H O A. destruct (hist2_G _ _ _ H) as (lost & I & _). destruct (run2_ok h held lost c kept I O A) as (h' & got & R & _). eauto. Qed.
Lemma history2_sound t h held : history2 oracle matches t h held -> sound h held.
Proof.
  intros H. destruct (hist2_G _ _ _ H) as (lost & I & _). destruct (G_sound _ _ I) as (S1 & S2 & S3). split; [|split; [exact S2|exact S3]].
  intros a Ha. apply S1. apply in_or_app. now left.
Qed.
Lemma history2_counted t h held : history2 oracle matches t h held ->
  exists lost, counted h (held ++ lost) /\ (forall a, alloc h a <-> from h (held ++ lost) a) /\ (t = true -> lost = []).
Proof.
  intros H. destruct (hist2_G _ _ _ H) as (lost & I & L). exists lost. split; [exact (G_counted _ _ I)|]. split; [|exact L]. intros a. exact (G_alloc h _ a I).
Qed.
Lemma history2_tidy h held a : history2 oracle matches true h held -> (alloc h a <-> from h held a).
Proof. intros H. destruct (hist2_G _ _ _ H) as (lost & I & L). rewrite (L eq_refl), app_nil_r in I. exact (G_alloc h _ a I). Qed.
Lemma history2_empty h a : history2 oracle matches true h [] -> ~ alloc h a.
Proof. intros H A. apply (proj1 (history2_tidy h [] a H)) in A. exact (from_nothing _ _ A). Qed.
Lemma history2_sum t h held p l1 l2 xs ys : history2 oracle matches t h held -> allowed2 h held (CSum p l1 l2) -> objects_in h l1 xs -> objects_in h l2 ys ->
  exists h' r, run2 oracle matches (CSum p l1 l2) h = Ok (h', [r]) /\ summed h h' r (length xs) (others (id_of h) xs ys) /\ untouched h h' held.
Proof.
  intros H A Hx Hy. destruct (hist2_G _ _ _ H) as (lost & I & _). destruct (run2_ok h held lost (CSum p l1 l2) held I (fun _ => eq_refl) A) as (h' & got & R & _ & r & -> & U & S). exists h', r. split; [exact R|]. split; [exact (S xs ys Hx Hy)|exact U].
Qed.
Lemma history2_sum_pkgs t h held l1 l2 xs ys : history2 oracle matches t h held -> allowed2 h held (CSumPkgs l1 l2) -> objects_in h l1 xs -> objects_in h l2 ys ->
  exists h' r, run2 oracle matches (CSumPkgs l1 l2) h = Ok (h', [r]) /\ summed h h' r (length xs) (others (name_of h) xs ys) /\ untouched h h' held.
Proof.
  intros H A Hx Hy. destruct (hist2_G _ _ _ H) as (lost & I & _). destruct (run2_ok h held lost (CSumPkgs l1 l2) held I (fun _ => eq_refl) A) as (h' & got & R & _ & r & -> & U & S). exists h', r. split; [exact R|]. split; [exact (S xs ys Hx Hy)|exact U].
Qed.
End Calls.
