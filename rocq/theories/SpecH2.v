(** Every allowed call works and keeps the account. *)
From Verif Require Import CStr CStrFacts HSListModel ObjListModel ObjListFacts RefcModel RefcFacts SpecH.

Lemma nth_error_firstn_lt {A} (l : list A) p i : i < p -> nth_error (firstn p l) i = nth_error l i.
Proof. revert l i; induction p as [|p IH]; intros [|x l] [|i] H; cbn; auto; try lia. apply IH. lia. Qed.
Lemma nth_error_skipn_at {A} (l : list A) p i : nth_error (skipn p l) i = nth_error l (p + i).
Proof. revert l; induction p as [|p IH]; intros [|x l]; cbn; auto. now destruct i. Qed.
Lemma Inv_list h ext l : Inv h ext [] -> is_list h ext l -> exists o, ld h l = Some (Lst o).
Proof.
  intros I [Hr Hv]. apply (Inv_referenced _ _ _ I) in Hr. apply ld_live in Hr. destruct Hr as ([v|o] & Hp); [|eauto]. destruct (Hv v Hp).
Qed.
Lemma rooted_referenced h skip ext a : rooted h skip ext a -> referenced h ext a.
Proof. intros H. destruct H as [a H|l items i a _ H1 H2 _]; [now left|right]. exists l, items. split; [exact H1|]. eapply nth_error_In; eauto. Qed.
Lemma Inv_own_list h ext l : Inv h ext [] -> rooted h nothing ext l -> (forall v, ~ value h l v) -> exists o, ld h l = Some (Lst o).
Proof. intros I Hl Hv. apply (Inv_list _ _ _ I). split; [eapply rooted_referenced; eauto|exact Hv]. Qed.
Lemma holds_kids h l items i a : holds h l items -> nth_error items i = Some (Some a) -> In a (kidsof h l).
Proof. intros (o & Ho & <-) H. rewrite kidsof_ld, Ho. cbn [kids]. apply somes_in. eapply nth_error_In; eauto. Qed.
(** A list is reached without using its own items. *)
Lemma rooted_reach h ext l : rooted h nothing ext l -> reach h [l] ext l.
Proof.
  assert (K : forall x, rooted h nothing ext x -> reach h [l] ext x \/ reach h [l] ext l).
  { intros x H. induction H as [x H|l' items i x _ [IH|IH] Hh Hi _]; [left; now constructor| |now right].
    destruct (Nat.eq_dec l' l) as [->|Hne]; [now right|]. left. eapply reach_kid; [exact IH|intros [->|[]]; congruence|eapply holds_kids; eauto]. }
  intros H. destruct (K l H); assumption.
Qed.
Lemma reach_nil h ext l : reach h [l] ext l -> reach h [] ext l.
Proof. intros H. induction H; [now constructor|eapply reach_kid; eauto]. Qed.
(** What is reached without one item of [l]. *)
Lemma rooted_but h ext l p o x : ld h l = Some (Lst o) -> rooted h (only_at l p) ext x ->
  reach h [l] (somes (firstn p (oitems o) ++ skipn (S p) (oitems o)) ++ ext) x.
Proof.
  intros Hl H. induction H as [x H|l' items i x _ IH Hh Hi Hn]; [constructor; apply in_or_app; now right|].
  destruct (Nat.eq_dec l' l) as [->|Hne].
  - constructor. apply in_or_app. left. destruct Hh as (o' & Ho' & <-). assert (o' = o) as -> by congruence. apply somes_in.
    destruct (Nat.lt_trichotomy i p) as [Hip|[->|Hip]]; [|destruct Hn; now split|].
    + apply in_or_app. left. apply nth_error_In with i. rewrite nth_error_firstn_lt by exact Hip. exact Hi.
    + apply in_or_app. right. apply nth_error_In with (i - S p). rewrite nth_error_skipn_at. replace (S p + (i - S p)) with i by lia. exact Hi.
  - eapply reach_kid; [exact IH|intros [->|[]]; congruence|eapply holds_kids; eauto].
Qed.
Lemma Inv_usable h ext r : Inv h ext [] -> usable h ext r -> some_live h r.
Proof. intros I. destruct r as [a|]; [|auto]. cbn. apply (Inv_referenced _ _ _ I). Qed.
Lemma keeps_change T h h' : length h' = length h -> (forall a, ~ In a T -> ld h' a = ld h a) -> keeps T h h'.
Proof. intros L H. split; [lia|]. intros a p _ Ha Hp. now rewrite <- H. Qed.
Lemma changes_intro h h' l o o' c out : length h' = length h -> ld h l = Some (Lst o) -> ld h' l = Some (Lst o') -> (forall a, a <> l -> ld h' a = ld h a) ->
  lspec ref_eqb (oitems o) c (oitems o') out -> changes h h' l c out.
Proof.
  intros L Hl Hl' Ho Hs. split.
  - apply keeps_change; [exact L|]. intros a Ha. apply Ho. intros ->. apply Ha. now left.
  - exists (oitems o), (oitems o'). split; [now exists o|]. split; [now exists o'|exact Hs].
Qed.
(** The sequence operations as functions on lists. *)
Lemma insert_at_pure o p (r : ref) : ogood o -> p <= length (oitems o) ->
  exists o', ol_insert_at o p r = Ok (o', 1%Z) /\ ogood o' /\ oitems o' = firstn p (oitems o) ++ [r] ++ skipn p (oitems o).
Proof.
  intros Hg Hp. destruct (ol_step_spec ref_eqb o (LInsertAt p r) Hg Logic.I) as (o' & out & E & Hg' & Hs). cbn [ol_step] in E.
  destruct (ol_insert_at o p r) as [[o1 z]| |] eqn:Ei; try discriminate. cbn [bind fst snd] in E. injection E as <- <-.
  destruct Hs as [(_ & Hi & Hz)|(Hlt & _)]; [|lia]. injection Hz as ->. eauto.
Qed.
Lemma insert_after_pure o i (r : ref) : ogood o -> i < length (oitems o) ->
  ogood (ol_insert_after o i r) /\ oitems (ol_insert_after o i r) = firstn (S i) (oitems o) ++ [r] ++ skipn (S i) (oitems o).
Proof.
  intros Hg Hi. destruct (ol_step_spec ref_eqb o (LInsertAfter i r) Hg Hi) as (o' & out & E & Hg' & Hs). cbn [ol_step] in E. injection E as <- <-. split; [exact Hg'|apply Hs].
Qed.
Lemma set_pure o p (r : ref) : ogood o -> p < length (oitems o) ->
  ogood (fst (ol_set o p r)) /\ oitems (fst (ol_set o p r)) = firstn p (oitems o) ++ [r] ++ skipn (S p) (oitems o).
Proof.
  intros Hg Hp. destruct (ol_step_spec ref_eqb o (LSet p r) Hg Logic.I) as (o' & out & E & Hg' & Hs). cbn [ol_step] in E. injection E as <- <-.
  destruct Hs as [(_ & Hi & _)|(Hge & _)]; [|lia]. auto.
Qed.
Lemma cnt_middle a (l1 : list ref) r l2 : cnt a (somes (l1 ++ [r] ++ l2)) = cnt a (somes [r]) + cnt a (somes (l1 ++ l2)).
Proof. rewrite !somes_app, !count_occ_app. lia. Qed.
Lemma cnt_split a (l : list ref) p : cnt a (somes l) = cnt a (somes (firstn p l ++ skipn p l)).
Proof. now rewrite firstn_skipn. Qed.
Lemma split_at (l : list ref) p r : nth_error l p = Some r -> l = firstn p l ++ [r] ++ skipn (S p) l.
Proof.
  revert l; induction p as [|p IH]; intros [|x l] H; try discriminate; cbn in *; [now injection H as ->|]. f_equal. now apply IH.
Qed.

(** ** Removing an item *)
Lemma unlink_ok h ext l o i r : Inv h ext [] -> rooted h nothing ext l -> ld h l = Some (Lst o) -> nth_error (oitems o) i = Some r ->
  exists h' o', unlink h l o i r = Ok h' /\ Inv h' ext [] /\ length h' = length h /\ ld h' l = Some (Lst o') /\
    oitems o' = firstn i (oitems o) ++ skipn (S i) (oitems o) /\ forall a p, a <> l -> ld h' a = Some p -> ld h a = Some p.
Proof.
  intros I Hl Ho Hi. unfold unlink.
  assert (Hlt : i < length (oitems o)) by (apply nth_error_Some; congruence).
  destruct (put_ok h ext (somes [r] ++ ext) l o (ol_unlink o i) I Ho) as (h1 & -> & I1 & L1 & Hl1 & S1).
  { apply ogood_unlink; [eapply Inv_ogood; eauto|exact Hlt]. }
  { intros a. cbn [ol_unlink oitems]. unfold list_del. rewrite (split_at _ _ _ Hi) at 3. rewrite cnt_middle, count_occ_app. lia. }
  cbn [bind]. destruct (release_ok h1 r ext [] I1) as (h2 & -> & I2 & [L2 Sh2] & S2); [intros x []|]. cbn [bind].
  assert (Hl2 : ld h2 l = Some (Lst (ol_unlink o i))).
  { assert (Hv : live h2 l).
    { eapply reach_live; [exact I2|]. eapply (reach_shrinks h1 h2 [] ext ext l I2 (incl_refl _) (conj L2 Sh2)).
      apply reach_nil. apply rooted_reach in Hl. clear -Hl S1.
      assert (K : forall x, reach h [l] ext x -> reach h1 [l] ext x); [|now apply K].
      intros x H. induction H as [x H|l' x _ IH HE Hx]; [now constructor|]. eapply reach_kid; [exact IH|exact HE|].
      rewrite kidsof_ld in *. rewrite S1; [exact Hx|]. intros ->. apply HE. now left. } apply ld_live in Hv. destruct Hv as (p & Hp). pose proof (S2 _ _ Hp). congruence. }
  destruct (peek_list_ok _ _ _ Hl2) as (c & ->). cbn [bind]. exists h2, (ol_unlink o i). split; [reflexivity|]. split; [exact I2|]. split; [congruence|].
  split; [exact Hl2|]. split; [reflexivity|]. intros a p Ha Hp. rewrite <- (S1 a Ha). now apply S2.
Qed.
Lemma changes_shrink h h' l o o' c out : length h' = length h -> ld h l = Some (Lst o) -> ld h' l = Some (Lst o') ->
  (forall a p, a <> l -> ld h' a = Some p -> ld h a = Some p) -> lspec ref_eqb (oitems o) c (oitems o') out -> changes h h' l c out.
Proof.
  intros L Hl Hl' Ho Hs. split.
  - split; [lia|]. intros a p _ Ha. apply Ho. intros ->. apply Ha. now left.
  - exists (oitems o), (oitems o'). split; [now exists o|]. split; [now exists o'|exact Hs].
Qed.
Lemma nochange h l o c out : ld h l = Some (Lst o) -> lspec ref_eqb (oitems o) c (oitems o) out -> changes h h l c out.
Proof. intros Hl Hs. eapply changes_intro; eauto. Qed.
Lemma ref_eqb_eq r1 r2 : ref_eqb r1 r2 = true <-> r1 = r2.
Proof.
  destruct r1 as [a|], r2 as [b|]; cbn; try (split; congruence). rewrite Nat.eqb_eq. split; congruence.
Qed.

(** ** Calls *)
Theorem rstep_ok h ext c : Inv h ext [] -> legal h ext c ->
  exists h' out, rstep h c = Ok (h', out) /\ Inv h' (owns c out ext) [] /\ effect h c h' out.
Proof.
  intros I Hleg. destruct c as [v| |a|a|l r|l r|l p r|l p r|l i r|l p|l p|l r|l p r|l|l1 l2|l1 l2|f l|l s e|d a]; cbn [legal] in Hleg; cbn [rstep].
  - (* new *)
    destruct (create_ok h ext (Leaf v) I eq_refl Logic.I) as (I1 & E1 & Hl1 & L1 & S1). destruct (create h (Leaf v)) as [h1 n]. cbn [fst snd] in *. subst n.
    eexists _, _; split; [reflexivity|]. split; [exact I1|]. cbn [effect]. split; [split; [lia|]; intros a p Ha _ Hp; now rewrite <- S1|].
    exists (length h). auto.
  - (* new list *)
    destruct (create_ok h ext (Lst ol_create) I eq_refl ogood_create) as (I1 & E1 & Hl1 & L1 & S1). destruct (create h (Lst ol_create)) as [h1 n]. cbn [fst snd] in *. subst n.
    eexists _, _; split; [reflexivity|]. split; [exact I1|]. cbn [effect]. split; [split; [lia|]; intros a p Ha _ Hp; now rewrite <- S1|].
    exists (length h). split; [reflexivity|]. split; [lia|]. exists ol_create. auto.
  - (* incref *)
    apply (Inv_referenced _ _ _ I) in Hleg. destruct (incref_ok h ext [] (Some a) I Hleg) as (h1 & -> & I1 & L1 & S1). cbn [bind].
    eexists _, _; split; [reflexivity|]. split; [exact I1|]. cbn [effect]. split; [apply keeps_change; auto|reflexivity].
  - (* release *)
    destruct (release_ok h (Some a) (take a ext) [] (Inv_take _ _ _ (Some a) I Hleg)) as (h1 & -> & I1 & [L1 _] & S1); [intros x []|]. cbn [bind].
    eexists _, _; split; [reflexivity|]. split; [exact I1|]. cbn [effect]. split; [split; [lia|auto]|reflexivity].
  - (* append *)
    destruct Hleg as [Hl Hr]. destruct (Inv_list _ _ _ I Hl) as (o & Ho). destruct (append_ok h ext l o r I Ho (Inv_usable _ _ _ I Hr)) as (h1 & o1 & -> & I1 & L1 & Hl1 & Hi1 & S1).
    cbn [bind]. eexists _, _; split; [reflexivity|]. split; [exact I1|]. cbn [effect fst snd]. split; [|reflexivity]. eapply changes_intro; eauto. split; [exact Hi1|reflexivity].
  - (* append_x *)
    destruct Hleg as [Hl Hr]. destruct (Inv_list _ _ _ I Hl) as (o & Ho).
    destruct (append_x_ok h (take_ref r ext) l o r (Inv_take _ _ _ _ I Hr) Ho) as (h1 & o1 & -> & I1 & L1 & Hl1 & Hi1 & S1).
    cbn [bind]. eexists _, _; split; [reflexivity|]. split; [exact I1|]. cbn [effect fst snd]. split; [|reflexivity]. eapply changes_intro; eauto. split; [exact Hi1|reflexivity].
  - (* insert_at *)
    destruct Hleg as [Hl Hr]. destruct (Inv_list _ _ _ I Hl) as (o & Ho). pose proof (Inv_ogood _ _ _ _ _ I Ho) as Hg. unfold insert_at.
    destruct (peek_list_ok _ _ _ Ho) as (c & ->). cbn [bind snd]. destruct (Nat.ltb_spec (olen o) p) as [Hp|Hp]; cbn [bind fst snd].
    + eexists _, _; split; [reflexivity|]. split; [exact I|]. cbn [effect fst snd]. split; [|reflexivity]. eapply nochange; eauto. right. rewrite <- (proj1 Hg). auto.
    + destruct (incref_ok h ext [] r I (Inv_usable _ _ _ I Hr)) as (h1 & -> & I1 & L1 & S1). cbn [bind].
      assert (Ho1 : ld h1 l = Some (Lst o)) by now rewrite S1. destruct (peek_list_ok _ _ _ Ho1) as (c1 & ->). cbn [bind snd].
      rewrite (proj1 Hg) in Hp. destruct (insert_at_pure o p r Hg Hp) as (o' & -> & Hg' & Hi'). cbn [bind fst snd].
      destruct (put_ok h1 (somes [r] ++ ext) ext l o o' I1 Ho1 Hg') as (h2 & -> & I2 & L2 & Hl2 & S2).
      { intros a. rewrite Hi', cnt_middle, firstn_skipn, count_occ_app. lia. }
      cbn [bind fst snd]. eexists _, _; split; [reflexivity|]. split; [exact I2|]. cbn [effect fst snd]. split; [|reflexivity].
      eapply changes_intro; eauto; [congruence|intros a Ha; now rewrite S2, S1|]. left. auto.
  - (* insert_at_x *)
    destruct Hleg as [Hl Hr]. destruct (Inv_list _ _ _ I Hl) as (o & Ho). pose proof (Inv_ogood _ _ _ _ _ I Ho) as Hg. unfold insert_at.
    destruct (peek_list_ok _ _ _ Ho) as (c & Ec). rewrite Ec. cbn [bind snd]. destruct (Nat.ltb_spec (olen o) p) as [Hp|Hp]; cbn [bind fst snd].
    + eexists _, _; split; [reflexivity|]. split; [exact I|]. cbn [effect fst snd]. split; [|reflexivity]. eapply nochange; eauto. right. rewrite <- (proj1 Hg). auto.
    + rewrite Ec. cbn [bind snd]. rewrite (proj1 Hg) in Hp. destruct (insert_at_pure o p r Hg Hp) as (o' & -> & Hg' & Hi'). cbn [bind fst snd].
      destruct (put_ok h (somes [r] ++ take_ref r ext) (take_ref r ext) l o o' (Inv_take _ _ _ _ I Hr) Ho Hg') as (h2 & -> & I2 & L2 & Hl2 & S2).
      { intros a. rewrite Hi', cnt_middle, firstn_skipn, count_occ_app. lia. }
      cbn [bind fst snd]. eexists _, _; split; [reflexivity|]. split; [exact I2|]. cbn [effect fst snd]. split; [|reflexivity].
      eapply changes_intro; eauto. left. auto.
  - (* insert_after *)
    destruct Hleg as (Hl & Hr & Hi). destruct (Inv_list _ _ _ I Hl) as (o & Ho). pose proof (Inv_ogood _ _ _ _ _ I Ho) as Hg. unfold insert_after.
    specialize (Hi (oitems o) (ex_intro _ o (conj Ho eq_refl))).
    destruct (incref_ok h ext [] r I (Inv_usable _ _ _ I Hr)) as (h1 & -> & I1 & L1 & S1). cbn [bind].
    assert (Ho1 : ld h1 l = Some (Lst o)) by now rewrite S1. destruct (peek_list_ok _ _ _ Ho1) as (c1 & ->). cbn [bind snd].
    destruct (insert_after_pure o i r Hg Hi) as (Hg' & Hi').
    destruct (put_ok h1 (somes [r] ++ ext) ext l o _ I1 Ho1 Hg') as (h2 & -> & I2 & L2 & Hl2 & S2).
    { intros a. rewrite Hi', cnt_middle, firstn_skipn, count_occ_app. lia. }
    cbn [bind fst snd]. eexists _, _; split; [reflexivity|]. split; [exact I2|]. cbn [effect fst snd]. split; [|reflexivity].
    eapply changes_intro; eauto; [congruence|intros a Ha; now rewrite S2, S1|]. split; [exact Hi'|reflexivity].
  - (* get *)
    destruct (Inv_list _ _ _ I Hleg) as (o & Ho). unfold get. destruct (peek_list_ok _ _ _ Ho) as (c & ->). cbn [bind snd]. rewrite ol_get_nth.
    destruct (nth_error (oitems o) p) as [r|] eqn:En.
    + assert (Hr : some_live h r) by (eapply Forall_forall; [eapply items_live; eauto|eapply nth_error_In; eauto]).
      destruct (incref_ok h ext [] r I Hr) as (h1 & -> & I1 & L1 & S1). cbn [bind fst snd].
      eexists _, _; split; [reflexivity|]. split; [exact I1|]. cbn [effect fst snd]. split; [apply keeps_change; auto|]. exists (oitems o). split; [now exists o|]. now rewrite En.
    + cbn [bind fst snd]. eexists _, _; split; [reflexivity|]. split; [exact I|]. cbn [effect fst snd]. split; [apply keeps_change; auto|]. exists (oitems o). split; [now exists o|]. now rewrite En.
  - (* remove_at *)
    destruct Hleg as [Hl Hv]. destruct (Inv_own_list _ _ _ I Hl Hv) as (o & Ho). unfold remove_at. destruct (peek_list_ok _ _ _ Ho) as (c & ->). cbn [bind snd].
    destruct (nth_error (oitems o) p) as [r|] eqn:En.
    + destruct (unlink_ok h ext l o p r I Hl Ho En) as (h1 & o1 & -> & I1 & L1 & Hl1 & Hi1 & S1). cbn [bind fst snd].
      eexists _, _; split; [reflexivity|]. split; [exact I1|]. cbn [effect fst snd]. split; [|reflexivity]. eapply changes_shrink; eauto. left.
      split; [apply nth_error_Some; congruence|auto].
    + cbn [bind fst snd]. eexists _, _; split; [reflexivity|]. split; [exact I|]. cbn [effect fst snd]. split; [|reflexivity]. eapply nochange; eauto. right. apply nth_error_None in En. auto.
  - (* remove *)
    destruct Hleg as [Hl Hv]. destruct (Inv_own_list _ _ _ I Hl Hv) as (o & Ho). unfold remove. destruct (peek_list_ok _ _ _ Ho) as (c & ->). cbn [bind snd].
    unfold ol_index. pose proof (index_loop_spec ref_eqb (oitems o) r 0) as Hx. destruct (index_loop ref_eqb (oitems o) r 0) as [i|].
    + destruct Hx as [_ Hx]. rewrite Nat.sub_0_r in Hx.
      assert (En : nth_error (oitems o) i = Some r).
      { destruct Hx as (q1 & y & q2 & -> & Hq & Hy & _). apply ref_eqb_eq in Hy. subst y i. rewrite nth_error_app2, Nat.sub_diag by lia. reflexivity. }
      destruct (unlink_ok h ext l o i r I Hl Ho En) as (h1 & o1 & -> & I1 & L1 & Hl1 & Hi1 & S1). cbn [bind fst snd].
      eexists _, _; split; [reflexivity|]. split; [exact I1|]. cbn [effect fst snd]. split; [|reflexivity]. eapply changes_shrink; eauto. left. exists i. auto.
    + cbn [bind fst snd]. eexists _, _; split; [reflexivity|]. split; [exact I|]. cbn [effect fst snd]. split; [|reflexivity]. eapply nochange; eauto. right. auto.
  - (* set *)
    destruct Hleg as (Hl & Hv & Hr). destruct (Inv_own_list _ _ _ I Hl Hv) as (o & Ho). pose proof (Inv_ogood _ _ _ _ _ I Ho) as Hg.
    unfold set_at. destruct (peek_list_ok _ _ _ Ho) as (c & ->). cbn [bind snd].
    destruct (nth_error (oitems o) p) as [old|] eqn:En.
    + assert (Hlt : p < length (oitems o)) by (apply nth_error_Some; congruence).
      assert (I0 : Inv h (somes [old] ++ somes (firstn p (oitems o) ++ skipn (S p) (oitems o)) ++ ext) [l]).
      { eapply Inv_perm; [|apply (Inv_aside h ext [] l I (ld_lt _ _ _ Ho)); tauto]. intros a. rewrite kidsof_ld, Ho. cbn [kids].
        rewrite (split_at _ _ _ En) at 3. rewrite !count_occ_app, cnt_middle. lia. }
      assert (Hroot : reach h [l] (somes (firstn p (oitems o) ++ skipn (S p) (oitems o)) ++ ext) l).
      { eapply reach_mono; [|exact (rooted_reach _ _ _ Hl)]. intros x Hx. apply in_or_app. now right. }
      destruct (release_ok h old _ [l] I0) as (h1 & -> & I1 & [L1 Sh1] & S1).
      { intros x [<-|[]]. exact Hroot. }
      assert (Hkeep : forall x, reach h [l] (somes (firstn p (oitems o) ++ skipn (S p) (oitems o)) ++ ext) x -> live h1 x).
      { intros x Hx. eapply reach_live; [exact I1|]. eapply reach_shrinks; [exact I1|apply incl_refl|exact (conj L1 Sh1)|exact Hx]. }
      assert (Hl1 : ld h1 l = Some (Lst o)).
      { pose proof (Hkeep l Hroot) as Hw. apply ld_live in Hw. destruct Hw as (q & Hq). pose proof (S1 _ _ Hq). congruence. }
      cbn [bind]. destruct (incref_ok h1 _ _ r I1) as (h2 & -> & I2 & L2 & S2).
      { destruct r as [b|]; [|exact Logic.I]. apply Hkeep. now apply rooted_but. }
      cbn [bind]. assert (Hl2 : ld h2 l = Some (Lst o)) by now rewrite S2. destruct (peek_list_ok _ _ _ Hl2) as (c2 & ->). cbn [bind snd].
      destruct (set_pure o p r Hg Hlt) as (Hg' & Hi').
      destruct (put_back_ok h2 _ ext l o (fst (ol_set o p r)) I2 Hl2 Hg') as (h3 & -> & I3 & L3 & Hl3 & S3).
      { intros a. rewrite Hi', cnt_middle, !count_occ_app. lia. }
      cbn [bind fst snd]. eexists _, _; split; [reflexivity|]. split; [exact I3|]. cbn [effect fst snd]. split; [|reflexivity].
      eapply changes_shrink; eauto; [congruence| |].
      * intros a q Ha Hq. rewrite S3, S2 in Hq by exact Ha. now apply S1.
      * left. auto.
    + cbn [bind fst snd]. eexists _, _; split; [reflexivity|]. split; [exact I|]. cbn [effect fst snd]. split; [|reflexivity]. eapply nochange; eauto. right. apply nth_error_None in En. auto.
  - (* clear *)
    destruct Hleg as [Hl Hv]. destruct (Inv_own_list _ _ _ I Hl Hv) as (o & Ho). unfold clear. destruct (peek_list_ok _ _ _ Ho) as (c & ->). cbn [bind snd].
    assert (I0 : Inv h (somes (oitems o) ++ ext) [l]).
    { pose proof (Inv_aside h ext [] l I (ld_lt _ _ _ Ho) ltac:(tauto)) as X. rewrite kidsof_ld, Ho in X. exact X. }
    destruct (release_each_ok [l] (oitems o) h ext I0) as (h1 & -> & I1 & [L1 Sh1] & S1).
    { intros x [<-|[]]. now apply rooted_reach. }
    cbn [bind]. assert (Hl1 : ld h1 l = Some (Lst o)).
    { assert (Hw : live h1 l) by (eapply reach_live; [exact I1|]; eapply reach_shrinks; [exact I1|apply incl_refl|exact (conj L1 Sh1)|now apply rooted_reach]). apply ld_live in Hw. destruct Hw as (q & Hq). pose proof (S1 _ _ Hq). congruence. }
    destruct (put_back_ok h1 ext ext l o ol_create I1 Hl1 ogood_create) as (h2 & -> & I2 & L2 & Hl2 & S2); [intros a; reflexivity|].
    cbn [bind fst snd]. eexists _, _; split; [reflexivity|]. split; [exact I2|]. cbn [effect fst snd]. split; [|reflexivity].
    eapply changes_shrink; eauto; [congruence| |split; reflexivity]. intros a q Ha Hq. rewrite S2 in Hq by exact Ha. now apply S1.
  - (* concat_in *)
    destruct Hleg as (Hl1 & Hl2 & Hne). destruct (Inv_list _ _ _ I Hl1) as (o1 & Ho1). destruct (Inv_list _ _ _ I Hl2) as (o2 & Ho2).
    unfold concat_in. destruct (peek_list_ok _ _ _ Ho2) as (c & ->). cbn [bind snd].
    destruct (append_each_ok (oitems o2) h ext l1 o1 I Ho1 (items_live _ _ _ _ I Ho2)) as (h1 & o' & -> & I1 & L1 & Hl1' & Hi1 & S1). cbn [bind].
    eexists _, _; split; [reflexivity|]. split; [exact I1|]. cbn [effect]. exists (oitems o2). split; [now exists o2|]. split; [|reflexivity].
    eapply changes_intro; eauto. split; [exact Hi1|reflexivity].
  - (* concat *)
    destruct Hleg as (Hl1 & Hl2). destruct (Inv_list _ _ _ I Hl1) as (o1 & Ho1). destruct (Inv_list _ _ _ I Hl2) as (o2 & Ho2). unfold concat_new.
    destruct (create_ok h ext (Lst ol_create) I eq_refl ogood_create) as (I1 & E1 & Hn1 & L1 & S1). destruct (create h (Lst ol_create)) as [h1 n]. cbn [fst snd] in *. subst n.
    unfold concat_in. assert (Ho1' : ld h1 l1 = Some (Lst o1)) by (rewrite S1; [exact Ho1|eapply ld_lt; eauto]). destruct (peek_list_ok _ _ _ Ho1') as (c1 & ->). cbn [bind snd].
    destruct (append_each_ok (oitems o1) h1 _ (length h) ol_create I1 Hn1 (items_live _ _ _ _ I1 Ho1')) as (h2 & o' & -> & I2 & L2 & Hn2 & Hi2 & S2). cbn [bind].
    assert (Ho2' : ld h2 l2 = Some (Lst o2)) by (pose proof (ld_lt _ _ _ Ho2); rewrite S2, S1 by lia; exact Ho2). destruct (peek_list_ok _ _ _ Ho2') as (c2 & ->). cbn [bind snd].
    destruct (append_each_ok (oitems o2) h2 _ (length h) o' I2 Hn2 (items_live _ _ _ _ I2 Ho2')) as (h3 & o3 & -> & I3 & L3 & Hn3 & Hi3 & S3). cbn [bind fst snd].
    eexists _, _; split; [reflexivity|]. split; [exact I3|]. cbn [effect]. exists (oitems o1), (oitems o2). split; [now exists o1|]. split; [now exists o2|]. split.
    + split; [lia|]. intros a p Ha _ Hp. rewrite S3, S2, S1 in Hp by lia. exact Hp.
    + exists (length h). split; [reflexivity|]. split; [lia|]. exists o3. split; [exact Hn3|]. now rewrite Hi3, Hi2.
  - (* filter *)
    destruct (Inv_list _ _ _ I Hleg) as (o & Ho). pose proof (Inv_ogood _ _ _ _ _ I Ho) as Hg. unfold pick_new.
    destruct (create_ok h ext (Lst ol_create) I eq_refl ogood_create) as (I1 & E1 & Hn1 & L1 & S1). destruct (create h (Lst ol_create)) as [h1 n]. cbn [fst snd] in *. subst n.
    assert (Ho' : ld h1 l = Some (Lst o)) by (rewrite S1; [exact Ho|eapply ld_lt; eauto]). destruct (peek_list_ok _ _ _ Ho') as (c1 & ->). cbn [bind snd].
    destruct (ol_filter_spec f o Hg) as (os & -> & His & _). cbn [bind]. rewrite His.
    destruct (append_each_ok (filter f (oitems o)) h1 _ (length h) ol_create I1 Hn1) as (h2 & o' & -> & I2 & L2 & Hn2 & Hi2 & S2).
    { pose proof (items_live _ _ _ _ I1 Ho') as Hi. apply Forall_forall. intros x Hx. apply filter_In in Hx. eapply Forall_forall in Hi; [exact Hi|apply Hx]. }
    cbn [bind fst snd]. eexists _, _; split; [reflexivity|]. split; [exact I2|]. cbn [effect]. exists (oitems o). split; [now exists o|]. split.
    + split; [lia|]. intros a p Ha _ Hp. rewrite S2, S1 in Hp by lia. exact Hp.
    + exists (length h). split; [reflexivity|]. split; [lia|]. exists o'. auto.
  - (* sublist *)
    destruct Hleg as [Hl Hse]. destruct (Inv_list _ _ _ I Hl) as (o & Ho). pose proof (Inv_ogood _ _ _ _ _ I Ho) as Hg. unfold pick_new.
    destruct (create_ok h ext (Lst ol_create) I eq_refl ogood_create) as (I1 & E1 & Hn1 & L1 & S1). destruct (create h (Lst ol_create)) as [h1 n]. cbn [fst snd] in *. subst n.
    assert (Ho' : ld h1 l = Some (Lst o)) by (rewrite S1; [exact Ho|eapply ld_lt; eauto]). destruct (peek_list_ok _ _ _ Ho') as (c1 & ->). cbn [bind snd].
    destruct (ol_sublist_indexed_spec o s e Hse) as (os & -> & His & _). cbn [bind]. rewrite His.
    destruct (append_each_ok (firstn (e - s) (skipn s (removelast (oitems o)))) h1 _ (length h) ol_create I1 Hn1) as (h2 & o' & -> & I2 & L2 & Hn2 & Hi2 & S2).
    { pose proof (items_live _ _ _ _ I1 Ho') as Hi. apply Forall_forall. intros x Hx. eapply Forall_forall in Hi; [exact Hi|].
      assert (K1 : forall (q : list ref) n, In x (firstn n q) -> In x q) by (intros q n; revert q; induction n; intros [|y q] Hq; cbn in *; [tauto|tauto|tauto|destruct Hq; auto]).
      assert (K2 : forall (q : list ref) n, In x (skipn n q) -> In x q) by (intros q n; revert q; induction n; intros [|y q] Hq; cbn in *; auto).
      assert (K3 : forall (q : list ref), In x (removelast q) -> In x q).
      { induction q as [|y q IHq]; [auto|]. cbn [removelast]. destruct q as [|z q]; [intros []|]. intros [->|Hq]; [now left|right; auto]. }
      apply K1, K2, K3 in Hx. exact Hx. }
    cbn [bind fst snd]. eexists _, _; split; [reflexivity|]. split; [exact I2|]. cbn [effect]. exists (oitems o). split; [now exists o|]. split.
    + split; [lia|]. intros a p Ha _ Hp. rewrite S2, S1 in Hp by lia. exact Hp.
    + exists (length h). split; [reflexivity|]. split; [lia|]. exists o'. auto.
  - (* copy *)
    destruct Hleg as (_ & t & Ht & Hd). destruct (copy_ok d h ext (Some a) t I Ht Hd) as (h1 & r1 & -> & I1 & L1 & S1 & Sh1). cbn [bind fst snd].
    eexists _, _; split; [reflexivity|]. split; [exact I1|]. cbn [effect fst snd]. split; [split; [exact L1|]; intros b p Hb _ Hp; now rewrite <- S1|]. split; [reflexivity|].
    intros t' Ht'. assert (t' = t) as ->; [|exact Sh1].
    clear -Ht Ht'. generalize (le_n (height t)). generalize (height t) at 2. generalize dependent t'. generalize dependent t. generalize (Some a).
    intros r t Ht t' Ht' n. revert r t Ht t' Ht'. induction n as [|n IH]; intros r t Ht t' Ht' Hn.
    + inversion Ht; subst; cbn in Hn; try lia. now inversion Ht'.
    + inversion Ht as [|x v _ Hx|x items ts _ (o & Ho & Hoi) Hf]; subst; inversion Ht' as [|x' v' _ Hx'|x' items' ts' _ (o' & Ho' & Hoi') Hf']; subst; unfold value in *; try congruence.
      assert (o' = o) as -> by congruence. apply height_list in Hn. f_equal.
      clear -IH Hf Hf' Hn. revert ts' Hf'. induction Hf as [|r t rs ts Hr _ IHf]; intros ts' Hf'; inversion Hf'; subst; [reflexivity|].
      inversion Hn; subst. f_equal; [eapply IH; eauto|auto].
Qed.

(** * Histories *)
Lemma rhist_Inv h ext : rhist h ext -> Inv h ext [].
Proof.
  intros H. induction H as [|h ext c h' out H IH Hl Hs]; [apply Inv_nil|].
  destruct (rstep_ok h ext c IH Hl) as (h1 & out1 & E & I1 & _). rewrite E in Hs. injection Hs as <- <-. exact I1.
Qed.
(** Stored occurrences of [a], over all existing lists. *)
Definition occurrences (a : addr) (c : option cell) : nat :=
  match c with Some (mkCell _ (Lst o)) => length (filter (ref_eqb (Some a)) (oitems o)) | _ => 0 end.
Definition stored (h : heap) (a : addr) : nat := list_sum (map (occurrences a) h).
Lemma cnt_filter a l : cnt a (somes l) = length (filter (ref_eqb (Some a)) l).
Proof.
  induction l as [|[b|] l IH]; cbn [somes filter ref_eqb]; [reflexivity| |exact IH].
  cbn [count_occ]. destruct (Nat.eq_dec b a) as [->|Hne].
  - rewrite Nat.eqb_refl. cbn [length]. now rewrite IH.
  - destruct (Nat.eqb_spec a b); [congruence|exact IH].
Qed.
Lemma occurrences_kids a c : occurrences a c = match c with Some x => cnt a (kids (load x)) | None => 0 end.
Proof. destruct c as [[n [v|o]]|]; cbn; auto. symmetry. apply cnt_filter. Qed.
Lemma sumn_shift n f : sumn (S n) f = f 0 + sumn n (fun i => f (S i)).
Proof. induction n; [cbn; lia|]. change (sumn (S (S n)) f) with (sumn (S n) f + f (S n)). rewrite IHn. cbn [sumn]. lia. Qed.
Lemma stored_held h a : stored h a = heldE h [] a.
Proof.
  unfold stored, heldE. assert (K : forall q, list_sum (map (occurrences a) q) = sumn (length q) (fun c => cnt a (kidsof q c))).
  { induction q as [|x q IH]; [reflexivity|]. cbn [map length]. rewrite sumn_shift. cbn [list_sum fold_right] in *. fold (list_sum (map (occurrences a) q)). rewrite IH.
    f_equal. rewrite occurrences_kids. unfold kidsof. cbn. destruct x as [c|]; reflexivity. }
  rewrite K. apply sumn_ext. intros i _. reflexivity.
Qed.
Lemma rhist_count h ext a c : rhist h ext -> nth_error h a = Some (Some c) -> S (refc c) = cnt a ext + stored h a.
Proof. intros H Hc. rewrite stored_held. exact (inv_refc _ _ _ (rhist_Inv _ _ H) a c Hc). Qed.

(** No list contains itself, directly or through others. *)
Definition acyclic (h : heap) : Prop :=
  exists rank : addr -> nat, forall l items a, holds h l items -> In (Some a) items -> rank a < rank l.
Lemma acyclic_rooted h ext a : Inv h ext [] -> acyclic h -> live h a -> rooted h nothing ext a.
Proof.
  intros I (rank & Hrank) Ha.
  assert (Hb : exists m, forall x, live h x -> rank x <= m).
  { assert (K : forall n, exists m, forall x, x < n -> rank x <= m).
    { induction n as [|n (m & Hm)]; [exists 0; lia|]. exists (Nat.max m (rank n)). intros x Hx. destruct (Nat.eq_dec x n) as [->|]; [lia|]. specialize (Hm x ltac:(lia)). lia. }
    destruct (K (length h)) as (m & Hm). exists m. intros x Hx. apply Hm. now apply live_lt. }
  destruct Hb as (m & Hm).
  assert (K : forall k x, live h x -> m - rank x < k -> rooted h nothing ext x).
  { induction k as [|k IH]; intros x Hx Hk; [lia|]. apply (Inv_referenced _ _ _ I) in Hx. destruct Hx as [Hx|(l & items & Hl & Hi)]; [now constructor|].
    pose proof (Hrank _ _ _ Hl Hi) as Hr. destruct Hl as (o & Ho & <-).
    assert (Hll : live h l) by (apply ld_live; eauto). pose proof (Hm _ Hll).
    destruct (In_nth_error _ _ Hi) as (i & Hn). eapply R_item; [apply IH; [exact Hll|lia]|exists o; split; [exact Ho|reflexivity]|exact Hn|intros []]. }
  exact (K (S (m - rank a)) a Ha (le_n _)).
Qed.
Lemma rooted_live h ext a : Inv h ext [] -> rooted h nothing ext a -> live h a.
Proof. intros I H. apply (Inv_referenced _ _ _ I). eapply rooted_referenced; eauto. Qed.

(** Releasing one reference. *)
Lemma release_last h ext a h' out : Inv h ext [] -> In a ext -> rstep h (RRelease a) = Ok (h', out) ->
  (live h' a <-> 1 < cnt a ext + stored h a).
Proof.
  intros I Ha Hs. destruct (Inv_ext_live _ _ _ _ I Ha) as (c & Hc). pose proof (inv_refc _ _ _ I a c Hc) as Hr. rewrite <- stored_held in Hr.
  destruct (rstep_ok h ext (RRelease a) I Ha) as (h1 & out1 & E & I1 & (_ & Hk) & _). rewrite E in Hs. injection Hs as <- <-.
  cbn [owns] in I1. split.
  - intros Hl. destruct (refc c) as [|n] eqn:Er; [exfalso|lia].
    assert (H0 : cnt a (take a ext) = 0).
    { pose proof (cnt_take a ext a Ha) as X. cbn [count_occ] in X. destruct (Nat.eq_dec a a); [|congruence]. pose proof (proj1 (count_occ_In Nat.eq_dec _ _) Ha). lia. }
    destruct Hl as (c1 & Hc1). pose proof (inv_refc _ _ _ I1 a c1 Hc1) as Hr1. rewrite H0 in Hr1.
    assert (Hp : 0 < heldE h1 [] a) by lia. apply heldE_pos in Hp. destruct Hp as (l & _ & Hl). rewrite kidsof_ld in Hl.
    assert (Hin : In a (kidsof h l)).
    { rewrite kidsof_ld. destruct (ld h1 l) as [p|] eqn:El; [|destruct Hl]. assert (Hlt : l < length h).
      { cbn [rstep] in E. destruct (release_ok h (Some a) (take a ext) [] (Inv_take _ _ _ (Some a) I Ha)) as (h2 & E2 & _ & [L2 _] & _); [intros x []|].
        rewrite E2 in E. cbn [bind] in E. injection E as <- _. rewrite <- L2. eapply ld_lt; eauto. }
      rewrite (Hk l p Hlt) by (auto; exact El). exact Hl. }
    assert (0 < heldE h [] a) by (apply heldE_pos; exists l; tauto). rewrite stored_held in Hr. pose proof (proj1 (count_occ_In Nat.eq_dec _ _) Ha). lia.
  - intros Hlt. cbn [rstep] in E. unfold destroy_ref in E. cbn [destroy] in E. rewrite (peek_ok _ _ _ Hc) in E. cbn [bind] in E.
    destruct (refc c) as [|n]; [lia|]. cbn [bind] in E. injection E as <- _. eexists. apply poke_same. eapply at_lt; eauto.
Qed.

(** Several calls. *)
Inductive rsteps : heap -> list addr -> heap -> list addr -> Prop :=
| RS_refl h ext : rsteps h ext h ext
| RS_step h ext c h1 out h2 ext2 : legal h ext c -> rstep h c = Ok (h1, out) -> rsteps h1 (owns c out ext) h2 ext2 -> rsteps h ext h2 ext2.
Lemma value_step h ext c h1 out a v : Inv h ext [] -> legal h ext c -> rstep h c = Ok (h1, out) -> value h a v -> live h1 a -> value h1 a v.
Proof.
  intros I Hl Hs Hv Ha. destruct (rstep_ok h ext c I Hl) as (h1' & out' & E & _ & Hf). rewrite E in Hs. injection Hs as <- <-.
  apply ld_live in Ha. destruct Ha as (p & Hp). pose proof (ld_lt _ _ _ Hv) as Hlt.
  assert (Kk : keeps [] h h1' -> value h1' a v) by (intros [_ K]; unfold value; rewrite Hp; rewrite <- Hv; symmetry; apply K; auto).
  assert (Kc : forall l lc lo, changes h h1' l lc lo -> value h1' a v).
  { intros l lc lo ([_ K] & i1 & i2 & (o & Ho & _) & _). unfold value in *. rewrite Hp, <- Hv. symmetry. apply K; auto. intros [->|[]]. congruence. }
  destruct c; cbn [effect] in Hf; try (destruct Hf as [Hf _]; (apply Kk; exact Hf) || (eapply Kc; exact Hf)).
  - destruct Hf as (items & _ & Hf & _). eapply Kc; exact Hf.
  - destruct Hf as (i1 & i2 & _ & _ & Hf & _). apply Kk; exact Hf.
  - destruct Hf as (i1 & _ & Hf & _). apply Kk; exact Hf.
  - destruct Hf as (i1 & _ & Hf & _). apply Kk; exact Hf.
Qed.
Lemma step_inv h ext c h1 out : Inv h ext [] -> legal h ext c -> rstep h c = Ok (h1, out) -> Inv h1 (owns c out ext) [].
Proof. intros I Hl Hs. destruct (rstep_ok h ext c I Hl) as (h1' & out' & E & I1 & _). rewrite E in Hs. injection Hs as <- <-. exact I1. Qed.
Lemma effect_length h c h1 out : effect h c h1 out -> length h <= length h1.
Proof.
  destruct c; cbn [effect]; intros H.
  all: repeat match goal with
       | H : _ /\ _ |- _ => destruct H
       | H : exists _, _ |- _ => destruct H
       | H : changes _ _ _ _ _ |- _ => destruct H
       | H : builds _ _ _ _ |- _ => destruct H
       | H : keeps _ _ _ |- _ => destruct H
       end; assumption.
Qed.
(** What is gone stays gone. *)
Lemma gone_step h ext c h1 out a : Inv h ext [] -> legal h ext c -> rstep h c = Ok (h1, out) -> a < length h -> ~ live h a -> ~ live h1 a.
Proof.
  intros I Hl Hs Hlt Hd Ha. apply Hd. destruct (rstep_ok h ext c I Hl) as (h1' & out' & E & _ & Hf). rewrite E in Hs. injection Hs as <- <-.
  apply ld_live in Ha. destruct Ha as (p & Hp). apply ld_live.
  assert (Kk : keeps [] h h1' -> exists p, ld h a = Some p) by (intros [_ K]; exists p; apply K; auto).
  assert (Kc : forall l lc lo, changes h h1' l lc lo -> exists p, ld h a = Some p).
  { intros l lc lo ([_ K] & i1 & i2 & (o & Ho & _) & _). destruct (Nat.eq_dec a l) as [->|Hne]; [eauto|]. exists p. apply K; auto. intros [->|[]]. congruence. }
  destruct c; cbn [effect] in Hf; try (destruct Hf as [Hf _]; (apply Kk; exact Hf) || (eapply Kc; exact Hf)).
  - destruct Hf as (items & _ & Hf & _). eapply Kc; exact Hf.
  - destruct Hf as (i1 & i2 & _ & _ & Hf & _). apply Kk; exact Hf.
  - destruct Hf as (i1 & _ & Hf & _). apply Kk; exact Hf.
  - destruct Hf as (i1 & _ & Hf & _). apply Kk; exact Hf.
Qed.
Lemma gone_steps h ext h2 ext2 a : rsteps h ext h2 ext2 -> Inv h ext [] -> a < length h -> ~ live h a -> ~ live h2 a.
Proof.
  intros H. induction H as [h ext|h ext c h1 out h2 ext2 Hl Hs _ IH]; intros I Hlt Hd; [exact Hd|].
  destruct (rstep_ok h ext c I Hl) as (h1' & out' & E & I1 & Hf). rewrite E in Hs. injection Hs as <- <-.
  apply IH; [exact I1|apply effect_length in Hf; lia|exact (gone_step _ _ _ _ _ _ I Hl E Hlt Hd)].
Qed.
Lemma rsteps_Inv h ext h2 ext2 : rsteps h ext h2 ext2 -> Inv h ext [] -> Inv h2 ext2 [].
Proof. intros H. induction H; intros I; [exact I|]. eapply IHrsteps, step_inv; eauto. Qed.
Lemma live_dec h a : live h a \/ ~ live h a.
Proof.
  destruct (nth_error h a) as [[x|]|] eqn:E; [left; now exists x|right|right]; intros (y & Hy); congruence.
Qed.
Lemma value_steps h ext h2 ext2 a v : rsteps h ext h2 ext2 -> Inv h ext [] -> value h a v -> live h2 a -> value h2 a v.
Proof.
  intros H. induction H as [h ext|h ext c h1 out h2 ext2 Hl Hs Hr IH]; intros I Hv Ha; [exact Hv|].
  destruct (rstep_ok h ext c I Hl) as (h1' & out' & E & I1 & Hf). rewrite E in Hs. injection Hs as <- <-.
  destruct (live_dec h1' a) as [Hl1|Hd].
  - apply IH; [exact I1|exact (value_step _ _ _ _ _ _ _ I Hl E Hv Hl1)|exact Ha].
  - destruct (gone_steps _ _ _ _ a Hr I1); auto. pose proof (ld_lt _ _ _ Hv). apply effect_length in Hf. lia.
Qed.

(** Replacing an element by itself when the list keeps the only reference. *)
Lemma set_self_ub h ext l items p x : Inv h ext [] -> rooted h nothing ext l -> holds h l items -> nth_error items p = Some (Some x) ->
  cnt x ext + stored h x = 1 -> rstep h (RSet l p (Some x)) = UB.
Proof.
  intros I Hl (o & Ho & <-) En H1. cbn [rstep]. unfold set_at. destruct (peek_list_ok _ _ _ Ho) as (c & ->). cbn [bind snd]. rewrite En.
  assert (I0 : Inv h (somes [Some x] ++ somes (firstn p (oitems o) ++ skipn (S p) (oitems o)) ++ ext) [l]).
  { eapply Inv_perm; [|apply (Inv_aside h ext [] l I (ld_lt _ _ _ Ho)); tauto]. intros a. rewrite kidsof_ld, Ho. cbn [kids].
    rewrite (split_at _ _ _ En) at 3. rewrite !count_occ_app, cnt_middle. lia. }
  assert (Hroot : reach h [l] (somes (firstn p (oitems o) ++ skipn (S p) (oitems o)) ++ ext) l).
  { eapply reach_mono; [|exact (rooted_reach _ _ _ Hl)]. intros y Hy. apply in_or_app. now right. }
  destruct (release_ok h (Some x) _ [l] I0) as (h1 & E1 & I1 & [L1 Sh1] & S1).
  { intros y [<-|[]]. exact Hroot. }
  assert (Hx : live h x). { apply (Inv_ext_live _ _ _ _ I0). now left. }
  destruct Hx as (cx & Hcx). pose proof (inv_refc _ _ _ I x cx Hcx) as Hr. rewrite <- stored_held in Hr.
  assert (Hd : ~ live h1 x).
  { unfold destroy_ref in E1. cbn [destroy] in E1. rewrite (peek_ok _ _ _ Hcx) in E1. cbn [bind] in E1.
    destruct (refc cx); [|lia].
    match type of E1 with bind ?e _ = _ => destruct e as [h2| |] eqn:E2; try discriminate end. cbn [bind] in E1.
    destruct (peek h2 x) as [c2| |] eqn:E3; try discriminate. cbn [bind] in E1. injection E1 as <-.
    assert (x < length h2). { unfold peek in E3. apply nth_error_Some. destruct (nth_error h2 x); [discriminate|discriminate]. }
    intros (y & Hy). rewrite poke_same in Hy by assumption. discriminate. }
  rewrite E1. cbn [bind incref]. unfold peek. destruct (nth_error h1 x) as [[y|]|] eqn:Ey; [|reflexivity|reflexivity]. destruct Hd. now exists y.
Qed.
(** A list that contains itself cannot be copied. *)
Lemma cyclic_copy d : forall h l o, ld h l = Some (Lst o) -> oitems o = [Some l] -> copy d h (Some l) = NoFuel.
Proof.
  induction d as [|d IH]; intros h l o Hl Ho; [reflexivity|]. cbn [copy]. pose proof Hl as Hl'. apply ld_at in Hl'. destruct Hl' as (c & Hc & El).
  rewrite (peek_ok _ _ _ Hc). cbn [bind]. rewrite El, Ho. cbn [create copy_each]. rewrite (IH _ l o); [reflexivity| |exact Ho].
  unfold ld in *. rewrite nth_error_app1 by (eapply at_lt; eauto). exact Hl.
Qed.

(** * Checking histories by computation *)
Definition listb (h : heap) (l : addr) : bool := match ld h l with Some (Lst _) => true | _ => false end.
Definition ownb (ext : list addr) (r : ref) : bool := match r with Some a => isin a ext | None => true end.
Fixpoint shapeof (fuel : nat) (h : heap) (r : ref) : option shape :=
  match r with
  | None => Some ShNull
  | Some a =>
    match fuel with
    | O => None
    | S f => match ld h a with
             | Some (Leaf v) => Some (ShLeaf v)
             | Some (Lst o) =>
               match (fix each (l : list ref) : option (list shape) :=
                        match l with
                        | [] => Some []
                        | r :: l' => match shapeof f h r, each l' with Some t, Some ts => Some (t :: ts) | _, _ => None end
                        end) (oitems o) with
               | Some ts => Some (ShList ts)
               | None => None
               end
             | None => None
             end
    end
  end.
Lemma shapeof_ok fuel : forall h r t, shapeof fuel h r = Some t -> shows anywhere h r t /\ height t <= fuel.
Proof.
  induction fuel as [|f IH]; intros h [a|] t H; cbn [shapeof] in H; try discriminate.
  - injection H as <-. split; [constructor|apply Nat.le_0_l].
  - destruct (ld h a) as [[v|o]|] eqn:E; try discriminate.
    + injection H as <-. split; [constructor; [exact Logic.I|exact E]|cbn; lia].
    + match type of H with match ?e with _ => _ end = _ => destruct e as [ts|] eqn:Ets; [|discriminate] end. injection H as <-.
      assert (K : Forall2 (shows anywhere h) (oitems o) ts /\ Forall (fun t => height t <= f) ts).
      { revert ts Ets. induction (oitems o) as [|r l IHl]; intros ts Ets; [injection Ets as <-; split; constructor|].
        destruct (shapeof f h r) as [t|] eqn:Er; [|discriminate].
        match type of Ets with match ?e with _ => _ end = _ => destruct e as [ts'|] eqn:El; [|discriminate] end. injection Ets as <-.
        destruct (IHl ts' eq_refl) as [K1 K2]. destruct (IH h r t Er) as [K3 K4]. split; constructor; auto. }
      destruct K as [K1 K2]. split; [apply Sh_list with (items := oitems o); [exact Logic.I|now exists o|exact K1]|].
      cbn [height]. apply le_n_S. clear -K2. induction K2 as [|t ts H _ IH]; [lia|]. cbn. lia.
  - injection H as <-. split; [constructor|cbn; lia].
Qed.
(** Calls on objects the caller owns. *)
Definition legalb (h : heap) (ext : list addr) (c : rop) : bool :=
  match c with
  | RNew _ | RNewList => true
  | RIncref a | RRelease a => isin a ext
  | RAppend l r | RInsertAt l _ r | RAppendX l r | RInsertAtX l _ r | RSet l _ r => isin l ext && listb h l && ownb ext r
  | RInsertAfter l i r => isin l ext && ownb ext r && match ld h l with Some (Lst o) => i <? length (oitems o) | _ => false end
  | RGet l _ | RRemoveAt l _ | RRemove l _ | RClear l | RFilter _ l => isin l ext && listb h l
  | RConcatIn l1 l2 => isin l1 ext && listb h l1 && (isin l2 ext && listb h l2) && negb (l1 =? l2)
  | RConcat l1 l2 => isin l1 ext && listb h l1 && (isin l2 ext && listb h l2)
  | RSublist l s e => isin l ext && listb h l && (s <=? e)
  | RCopy d a => isin a ext && match shapeof d h (Some a) with Some _ => true | None => false end
  end.
Lemma listb_ok h l v : listb h l = true -> ~ value h l v.
Proof. unfold listb, value. destruct (ld h l) as [[w|o]|]; intros H1 H2; discriminate. Qed.
Lemma ownb_usable h ext r : ownb ext r = true -> usable h ext r.
Proof. destruct r as [a|]; [|intros; exact Logic.I]. cbn. intros H. left. now apply isin_true. Qed.
Lemma legalb_ok h ext c : legalb h ext c = true -> legal h ext c.
Proof.
  assert (KL : forall l, isin l ext = true -> listb h l = true -> is_list h ext l).
  { intros l H1 H2. split; [left; now apply isin_true|]. intros v. now apply listb_ok. }
  destruct c; cbn [legalb legal]; intros H; rewrite ?andb_true_iff in H; try exact Logic.I.
  - left. now apply isin_true.
  - now apply isin_true.
  - destruct H as [[H1 H2] H3]. split; [auto|now apply ownb_usable].
  - destruct H as [[H1 H2] H3]. split; [auto|]. destruct r; [now apply isin_true|exact Logic.I].
  - destruct H as [[H1 H2] H3]. split; [auto|now apply ownb_usable].
  - destruct H as [[H1 H2] H3]. split; [auto|]. destruct r; [now apply isin_true|exact Logic.I].
  - destruct H as [[H1 H2] H3]. destruct (ld h l) as [[v|o]|] eqn:E; try discriminate. split; [apply KL; [exact H1|unfold listb; now rewrite E]|].
    split; [now apply ownb_usable|]. intros items (o' & Ho & <-). assert (o' = o) as -> by congruence. now apply Nat.ltb_lt.
  - destruct H as [H1 H2]. auto.
  - destruct H as [H1 H2]. split; [constructor; now apply isin_true|]. intros v. now apply listb_ok.
  - destruct H as [H1 H2]. split; [constructor; now apply isin_true|]. intros v. now apply listb_ok.
  - destruct H as [[H1 H2] H3]. split; [constructor; now apply isin_true|]. split; [intros v; now apply listb_ok|].
    destruct r; [|exact Logic.I]. constructor. now apply isin_true.
  - destruct H as [H1 H2]. split; [constructor; now apply isin_true|]. intros v. now apply listb_ok.
  - destruct H as [[[H1 H2] [H3 H4]] H5]. split; [auto|]. split; [auto|]. apply negb_true_iff, Nat.eqb_neq in H5. exact H5.
  - destruct H as [[H1 H2] [H3 H4]]. auto.
  - destruct H as [H1 H2]. auto.
  - destruct H as [[H1 H2] H3]. split; [auto|now apply Nat.leb_le].
  - destruct H as [H1 H2]. split; [left; now apply isin_true|]. destruct (shapeof depth h (Some a)) as [t|] eqn:E; [|discriminate]. exists t. now apply shapeof_ok.
Qed.
Fixpoint rplay (h : heap) (ext : list addr) (cs : list rop) : option (heap * list addr) :=
  match cs with
  | [] => Some (h, ext)
  | c :: r => if legalb h ext c then match rstep h c with Ok (h', out) => rplay h' (owns c out ext) r | _ => None end else None
  end.
Lemma rplay_ok cs : forall h ext h' ext', rplay h ext cs = Some (h', ext') -> rsteps h ext h' ext' /\ (rhist h ext -> rhist h' ext').
Proof.
  induction cs as [|c cs IH]; intros h ext h' ext' H; cbn [rplay] in H.
  - injection H as <- <-. split; [constructor|auto].
  - destruct (legalb h ext c) eqn:El; [|discriminate]. apply legalb_ok in El. destruct (rstep h c) as [[h1 out]| |] eqn:Es; try discriminate.
    destruct (IH _ _ _ _ H) as [K1 K2]. split; [econstructor; eauto|]. intros Hh. apply K2. econstructor; eauto.
Qed.
