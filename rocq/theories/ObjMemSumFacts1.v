(** Facts about the memory of sums of Python lists: the two loops. *)
From Verif Require Import CStr CStrFacts ObjMemModel ObjMemFacts1 ObjMemFacts2 ObjMemFacts3 ObjMemFacts4 ObjMemFacts5 ObjMemFacts6 ObjMemFacts7 ObjMemFacts8 ObjMemFacts9 ObjMemFactsA ObjMemFactsB ObjMemFactsE ObjMemFactsF ObjMemSum.
From Verif Require Import SpecX SpecY.

Lemma find_hit kf h x tx s ts : rb room h x = Some tx -> objs h s ts ->
  match find (hit kf h x) s with
  | None => ~ In (kf tx) (map kf ts)
  | Some y => In y s /\ exists ty, In ty ts /\ rb room h y = Some ty /\ kf ty = kf tx
  end.
Proof.
  intros Ex O. induction O as [|y ty s ts Ey O IH]; cbn [find map]; [intros []|].
  assert (Eh : hit kf h x y = oeqb (kf ty) (kf tx)) by (unfold hit; now rewrite (key_rb _ _ _ _ Ex), (key_rb _ _ _ _ Ey)). rewrite Eh. destruct (oeqb (kf ty) (kf tx)) eqn:Eq.
  - apply oeqb_true in Eq. split; [now left|]. exists ty. split; [now left|auto].
  - destruct (find (hit kf h x) s) as [z|].
    + destruct IH as (A & tz & B & C). split; [now right|]. exists tz. split; [now right|exact C].
    + intros [D|D]; [|exact (IH D)]. rewrite D, (proj2 (oeqb_true _ _) eq_refl) in Eq. discriminate.
Qed.
Lemma objs_kf kf h s ts : objs h s ts -> map (key kf h) s = map kf ts.
Proof. induction 1 as [|y tr s ts E O IH]; [reflexivity|]. cbn [map]. rewrite IH. f_equal. now apply key_rb. Qed.
Lemma position_news a news sh i : position a (map Some (news ++ sh)) = Some i -> ~ In a sh -> exists n1 n2, news = n1 ++ a :: n2 /\ length n1 = i.
Proof.
  revert i. induction news as [|b news IH]; cbn [app map position]; intros i H Hn.
  - destruct (position_nth _ _ _ H) as (l1 & l2 & E & _). exfalso. apply Hn. apply (in_map_iff Some sh (Some a)) in E as _ || idtac.
    assert (D : In (Some a) (map Some sh)) by (rewrite E; apply in_or_app; right; now left). apply in_map_iff in D as (z & D & Hz). now injection D as <-.
  - destruct (Nat.eqb_spec a b) as [->|Hne]; [injection H as <-; exists [], news; auto|]. destruct (position a (map Some (news ++ sh))) as [j|]; [|discriminate]. injection H as <-.
    destruct (IH j eq_refl Hn) as (n1 & n2 & -> & <-). exists (b :: n1), n2. auto.
Qed.
Lemma in_somes (a : addr) l : In (Some a) (map Some l) -> In a l.
Proof. intros H. apply in_map_iff in H as (z & E & Hz). now injection E as <-. Qed.

Section Sum.
Variable h0 : mem.
Variable e0 : list addr.
Variable r : addr.
Variable et : ety.
Variable t : tag.
Variable eqf : addr -> addr -> M bool.
Variable kf : tree -> option (str + Z).
Hypothesis Hpl : plain t = true.
Hypothesis Hc : cmp_spec t eqf kf.
Hypothesis Hel : elem et t.
Hypothesis Hrk : rank t < rank (KList et).
Hypothesis Hr : length h0 <= r.
(** In the course of a sum: the references [E], the set [s] with its trees [ts], the
    items of the result. *)
Record sm (h : mem) (E s : list addr) (ts : list tree) (its : list addr) : Prop := mksm {
  sm_ok : ok [] h0 e0 h E; sm_in : incl (r :: s) E; sm_list : isl h r et (map Some its); sm_objs : objs h s ts; sm_root : Forall (fun tr => root tr = t) ts }.
Lemma sm_g h E s ts its : sm h E s ts its -> G [] h E.
Proof. intros Q. apply (ok_g _ _ _ _ _ (sm_ok _ _ _ _ _ Q)). Qed.
Lemma sm_own h E s ts its : sm h E s ts its -> Forall (eown t h E) s.
Proof. intros Q. apply set_own; [eapply objs_kinds; [apply (sm_objs _ _ _ _ _ Q)|apply (sm_root _ _ _ _ _ Q)]|]. intros x Hx. apply (sm_in _ _ _ _ _ Q). now right. Qed.
Lemma sm_keys h E s ts its h' E' its' : sm h E s ts its -> sm h' E' s ts its' -> forall y, In y s -> key kf h' y = key kf h y.
Proof. intros Q Q'. apply ext_in_map. now rewrite (objs_kf _ _ _ _ (sm_objs _ _ _ _ _ Q)), (objs_kf _ _ _ _ (sm_objs _ _ _ _ _ Q')). Qed.
Lemma sm_step h h' E E' s ts its : sm h E s ts its -> same (length h) h h' -> G [] h' E' -> incl (r :: s) E' -> incl e0 E' -> sm h' E' s ts its.
Proof.
  intros [O Hi L Os R] S I' Hi' H0. constructor; [eapply ok_step; [exact O|exact S|apply (ok_len _ _ _ _ _ O)|exact I'|exact H0]|exact Hi'| | |exact R].
  - eapply isl_same; [exact L|exact S|eapply isl_lt; eauto|eapply in_live; [exact I'|apply Hi'; now left]].
  - eapply objs_step; [exact Os|apply (ok_g _ _ _ _ _ O)|intros x Hx; apply Hi; now right|exact S|exact I'|intros x Hx; apply Hi'; now right].
Qed.
Lemma tree_upd h h' e x tx : G [] h e -> upd r h h' -> has_kind h r (KList et) -> rb room h x = Some tx -> root tx = t -> rb room h' x = Some tx.
Proof. intros I U K Ex Er. eapply rb_below; [exact I|exact U|exact K|exact (rb_kind _ _ _ _ Ex)|rewrite Er; exact Hrk|exact Ex]. Qed.
Lemma sm_upd h h' E E' s ts its its' : sm h E s ts its -> upd r h h' -> G [] h' E' -> isl h' r et (map Some its') -> incl (r :: s) E' -> incl e0 E' -> sm h' E' s ts its'.
Proof.
  intros [O Hi L Os R] U I' L' Hi' H0. pose proof (isl_kind _ _ _ _ L) as K.
  constructor; [eapply ok_step; [exact O|eapply upd_same; [exact Hr|exact U]|apply Nat.le_refl|exact I'|exact H0]|exact Hi'|exact L'| |exact R].
  clear Hi Hi'. revert R. induction Os as [|y ty s ts Ey Os IH]; intros R; constructor; [|apply IH; exact (Forall_inv_tail R)].
  eapply tree_upd; [apply (ok_g _ _ _ _ _ O)|exact U|exact K|exact Ey|exact (Forall_inv R)].
Qed.
Lemma sm_snoc h E s ts its o to : sm h E s ts its -> In o E -> rb room h o = Some to -> root to = t -> sm h E (s ++ [o]) (ts ++ [to]) its.
Proof.
  intros [O Hi L Os R] Ho Eo Er. constructor; [exact O| |exact L|now apply objs_snoc|apply Forall_app; split; [exact R|constructor; [exact Er|constructor]]].
  intros x [<-|Hx]; [apply Hi; now left|]. apply in_app_or in Hx. destruct Hx as [Hx|[<-|[]]]; [apply Hi; now right|exact Ho].
Qed.
Lemma sm_less h E s ts its o to : sm h E (s ++ [o]) (ts ++ [to]) its -> sm h E s ts its.
Proof.
  intros [O Hi L Os R]. constructor; [exact O|intros x [<-|Hx]; apply Hi; [now left|right; apply in_or_app; now left]|exact L| |].
  - apply Forall2_app_inv_l in Os as (t1 & t2 & H1 & H2 & E2). inversion H2 as [|? ? ? ? A B]; subst. inversion B; subst. apply app_inj_tail in E2 as (-> & _). exact H1.
  - apply Forall_app in R. apply R.
Qed.
Lemma sm_perm h E E' s ts its : sm h E s ts its -> (forall a, cnt a E' = cnt a E) -> sm h E' s ts its.
Proof.
  intros [O Hi L Os R] C. assert (HE : incl E E') by (intros x Hx; apply (count_occ_In Nat.eq_dec); rewrite C; now apply (count_occ_In Nat.eq_dec)).
  constructor; [eapply ok_perm; eauto|intros x Hx; apply HE, Hi; exact Hx|exact L|exact Os|exact R].
Qed.
Lemma sm_base X h E x tx : ok X h0 e0 h E -> own h0 e0 x t -> rb room h0 x = Some tx -> own h E x t /\ rb room h x = Some tx.
Proof.
  intros O Ox Ex. split; [|eapply ok_rb; [exact O|apply incl_refl|apply Ox|exact Ex]].
  apply (own_mono _ e0); [apply (ok_inc _ _ _ _ _ O)|]. eapply ok_own; [exact O|apply incl_refl|exact Ox].
Qed.
Lemma base_has x : G [] h0 e0 -> own h0 e0 x t -> exists tx, rb room h0 x = Some tx /\ root tx = t /\ kf tx = key kf h0 x.
Proof. intros I Ox. destruct (rb_room h0 e0 x t I (proj2 Ox) Hpl) as (tx & Ex & Er). exists tx. split; [exact Ex|]. split; [exact Er|]. symmetry. now apply key_rb. Qed.
Lemma sm_append h E s ts its x : sm h E s ts its -> incl e0 E -> has_kind h x t -> wp (append r (Some x)) h (fun h' _ => sm h' E s ts (its ++ [x]) /\ length h' = length h).
Proof.
  intros Q H0 K. unfold append. destruct (wp_incref2 [] h E (Some x) (sm_g _ _ _ _ _ Q)) as (h1 & [] & E1 & I1 & S1 & W1); [intros a [= <-]; eapply has_kind_live; eauto|].
  eapply (wp_seq _ _ _ (fun h' _ => h' = h1)); [exists h1, tt; auto|]. cbv beta. intros h1' _ ->. cbn [somes app] in I1.
  assert (L1 : length h1 = length h).
  { unfold incref in E1. destruct (peek h x) as [c| |] eqn:Ep; try discriminate E1. cbn in E1. injection E1 as <-. apply poke_length. }
  assert (Hx : incl (r :: s) (x :: E)) by (intros y Hy; right; apply (sm_in _ _ _ _ _ Q); exact Hy).
  pose proof (sm_step _ _ _ _ _ _ _ Q S1 I1 Hx (fun y Hy => or_intror (H0 y Hy))) as Q1.
  eapply wp_mono; [eapply (wp_isl_append [] h1 E r et (map Some its) x I1 (sm_list _ _ _ _ _ Q1)); exists t; split; [eapply kind_was; eauto|exact Hel]|].
  cbv beta. intros h2 _ (I2 & U2 & L2). split; [|rewrite (upd_length _ _ _ U2); exact L1].
  eapply sm_upd; [exact Q1|exact U2|exact I2|rewrite map_app; exact L2|apply (sm_in _ _ _ _ _ Q)|exact H0].
Qed.
(** Objects that did not exist before. *)
Definition fresh (h : mem) (news : list addr) : Prop := NoDup news /\ forall a, In a news -> length h0 <= a < length h.
Lemma fresh_len h h' news : fresh h news -> length h <= length h' -> fresh h' news.
Proof. intros [N F] L. split; [exact N|]. intros a Ha. specialize (F a Ha). lia. Qed.
Lemma fresh_snoc h h' news o : fresh h news -> length h <= o < length h' -> length h0 <= length h -> fresh h' (news ++ [o]).
Proof.
  intros [N F] L L0. split; [apply NoDup_snoc; [exact N|intros Ho; specialize (F o Ho); lia]|]. intros a Ha. apply in_app_or in Ha. destruct Ha as [Ha|[<-|[]]]; [specialize (F a Ha)|]; lia.
Qed.
Lemma fresh_swap h h' n1 d n2 o : fresh h (n1 ++ d :: n2) -> length h <= o < length h' -> length h0 <= length h -> fresh h' (n1 ++ o :: n2).
Proof.
  intros [N F] L L0. assert (F' : forall a, In a (n1 ++ n2) -> length h0 <= a < length h) by (intros a Ha; apply F; apply in_app_or in Ha; apply in_or_app; destruct Ha; [now left|right; now right]).
  split; [apply NoDup_Add with (a := o) (l := n1 ++ n2); [apply Add_app|]; split; [exact (NoDup_remove_1 _ _ _ N)|intros D; specialize (F' o D); lia]|].
  intros a Ha. apply in_app_or in Ha. assert (D : a = o \/ In a (n1 ++ n2)) by (rewrite in_app_iff; destruct Ha as [Ha|[Ha|Ha]]; auto). destruct D as [->|D]; [lia|]. specialize (F' a D). lia.
Qed.

(** ** The first loop *)
Variable P : Prop.
Variable D : tree -> Prop.
Definition first_sum (pre : list addr) (s : list addr) (h : mem) : Prop := exists lost ts news,
  sm h (s ++ lost ++ r :: e0) s ts news /\ length news = length pre /\ fresh h news /\ incl s news /\
  (forall v, In v (map kf ts) <-> In v (map (key kf h0) pre)) /\ (P -> lost = [] /\ Forall D ts).
Lemma first_sum_step xs pre x post s h : (P -> NoDup (map (key kf h0) xs)) -> (P -> forall x tx, In x xs -> rb room h0 x = Some tx -> D tx) -> xs = pre ++ x :: post -> own h0 e0 x t -> first_sum pre s h ->
  wp (do o <- copy_obj x; do sb <- set_add eqf s o; append r (Some o) ;;; ret (fst sb)) h (fun h' s' => first_sum (pre ++ [x]) s' h').
Proof.
  intros HP HD Ex Ox (lost & ts & news & Q & Ln & Fn & Is & Kv & Hl). set (E := s ++ lost ++ r :: e0) in *. pose proof (sm_ok _ _ _ _ _ Q) as O. pose proof (ok_len _ _ _ _ _ O) as L0.
  assert (HE : incl (r :: s) E) by (unfold E; inc). assert (HE0 : incl e0 E) by (unfold E; inc).
  destruct (base_has x (ok_g0 _ _ _ _ _ O) Ox) as (tx & Ex0 & Er & Ek). destruct (sm_base _ _ _ _ _ O Ox Ex0) as (Oh & Exh).
  eapply wp_seq; [apply (wp_copy_obj [] h E x tx (sm_g _ _ _ _ _ Q) (proj1 Oh) Exh)|]. cbv beta. intros h1 o (Lo & I1 & S1 & T1 & K1). rewrite Er in K1.
  pose proof (sm_step _ _ _ _ _ _ _ Q S1 I1 (ltac:(inc)) (ltac:(inc))) as Q1. pose proof (sm_snoc _ _ _ _ _ o tx Q1 (in_eq _ _) T1 Er) as Q1'.
  assert (Os : Forall (eown t h1 (o :: E)) (o :: s)) by (constructor; [apply own_in; [now left|exact K1]|exact (sm_own _ _ _ _ _ Q1)]).
  eapply wp_seq; [eapply (wp_set_add t eqf kf Hpl Hc s h1 _ o I1 Os)|]. cbv beta. intros h2 sb (I2 & S2 & Esb).
  assert (HEo : incl (r :: s ++ [o]) (o :: E)) by (intros y [<-|Hy]; [right; apply HE; now left|]; apply in_app_or in Hy; destruct Hy as [Hy|[<-|[]]]; [right; apply HE; now right|now left]).
  pose proof (sm_step _ _ _ _ _ _ _ Q1' S2 I2 HEo (fun y Hy => or_intror (HE0 y Hy))) as Q2.
  assert (K2 : has_kind h2 o t) by (eapply has_kind_same; [exact K1|exact S2|eapply in_live; [exact I2|now left]]).
  pose proof (same_length _ _ _ S1) as L1. pose proof (same_length _ _ _ S2) as L2.
  eapply wp_seq; [apply (sm_append h2 (o :: E) (s ++ [o]) (ts ++ [tx]) news o Q2 (fun y Hy => or_intror (HE0 y Hy)) K2)|]. cbv beta. intros h3 _ (Q3 & L3). apply wp_ret.
  assert (Lo3 : length h <= o < length h3) by (split; [exact Lo|]; rewrite L3; destruct K1 as (c & Hc1 & _); apply at_lt in Hc1; lia).
  pose proof (fresh_snoc h h3 news o Fn Lo3 L0) as F3. pose proof (find_hit kf h1 o tx s ts T1 (sm_objs _ _ _ _ _ Q1)) as Fd.
  assert (In3 : incl s (news ++ [o])) by (intros y Hy; apply in_or_app; left; auto). assert (Ln3 : length (news ++ [o]) = length (pre ++ [x])) by (rewrite !app_length, Ln; reflexivity).
  rewrite Esb. destruct (find (hit kf h1 o) s) as [y|]; cbn [fst].
  - destruct Fd as (_ & ty & Hty & _ & Ey). exists (o :: lost), ts, (news ++ [o]).
    split; [eapply sm_perm; [eapply sm_less; exact Q3|unfold E; cnts]|]. split; [exact Ln3|]. split; [exact F3|]. split; [exact In3|].
    assert (Hin : In (key kf h0 x) (map (key kf h0) pre)) by (apply Kv; rewrite <- Ek, <- Ey; now apply in_map). split.
    + intros v. rewrite map_app, in_app_iff. cbn [map In]. rewrite Kv. split; [auto|]. intros [H|[<-|[]]]; assumption.
    + intros HPP. exfalso. specialize (HP HPP). rewrite Ex, map_app in HP. cbn [map] in HP. apply NoDup_remove_2 in HP. apply HP. apply in_or_app. now left.
  - exists lost, (ts ++ [tx]), (news ++ [o]). split; [eapply sm_perm; [exact Q3|unfold E; cnts]|]. split; [exact Ln3|]. split; [exact F3|]. split; [|split].
    + intros y Hy. apply in_app_or in Hy. apply in_or_app. destruct Hy as [Hy|Hy]; [left; auto|now right].
    + intros v. rewrite !map_app, !in_app_iff. cbn [map In]. rewrite Kv, Ek. tauto.
    + intros HPP. destruct (Hl HPP) as (A & B). split; [exact A|]. apply Forall_app. split; [exact B|]. constructor; [|constructor]. apply (HD HPP x); [|exact Ex0]. rewrite Ex. apply in_or_app. right. now left.
Qed.

(** ** The second loop *)
Definition keep (xs : list addr) (y : addr) : bool := if in_dec value_dec (key kf h0 y) (map (key kf h0) xs) then false else true.
Definition second_sum (xs s : list addr) (ts : list tree) (pre : list addr) (_ : unit) (h : mem) : Prop := exists lost news,
  sm h (s ++ lost ++ r :: e0) s ts (news ++ filter (keep xs) pre) /\ length news = length xs /\ fresh h news /\
  (P -> lost = [] /\ forall y, In y s -> ~ In (key kf h y) (map (key kf h0) pre) -> In y news).
Variable xs s : list addr.
Variable ts : list tree.
Hypothesis Hs : forall y, In y s -> length h0 <= y.
Hypothesis Hkeys : forall v, In v (map kf ts) <-> In v (map (key kf h0) xs).
(** What the set says about an object of the second list. *)
Lemma second_find h E its x : sm h E s ts its -> own h0 e0 x t -> incl e0 E ->
  wp (set_find eqf s x) h (fun h' d => sm h' E s ts its /\ length h <= length h' /\
    match d with
    | None => keep xs x = true
    | Some y => keep xs x = false /\ In y s /\ key kf h y = key kf h0 x /\ exists ty, In ty ts /\ rb room h' y = Some ty
    end).
Proof.
  intros Q Ox H0. pose proof (sm_ok _ _ _ _ _ Q) as O. destruct (base_has x (ok_g0 _ _ _ _ _ O) Ox) as (tx & Ex0 & Er & Ek). destruct (sm_base _ _ _ _ _ O Ox Ex0) as (Oh & Exh).
  assert (Os : Forall (eown t h E) (x :: s)) by (constructor; [exact Oh|exact (sm_own _ _ _ _ _ Q)]).
  eapply wp_mono; [eapply (wp_set_find t eqf kf Hpl Hc s h E x (sm_g _ _ _ _ _ Q) Os)|]. cbv beta. intros h1 d (I1 & S1 & ->).
  pose proof (sm_step _ _ _ _ _ _ _ Q S1 I1 (sm_in _ _ _ _ _ Q) H0) as Q1. split; [exact Q1|]. split; [exact (same_length _ _ _ S1)|].
  pose proof (find_hit kf h x tx s ts Exh (sm_objs _ _ _ _ _ Q)) as Fd. unfold keep. destruct (find (hit kf h x) s) as [y|].
  - destruct Fd as (Hy & ty & Hty & Ey & Ek'). rewrite Ek in Ek'. destruct (in_dec value_dec (key kf h0 x) (map (key kf h0) xs)) as [_|N]; [|exfalso; apply N, Hkeys; rewrite <- Ek'; now apply in_map].
    split; [reflexivity|]. split; [exact Hy|]. split; [rewrite (key_rb _ _ _ _ Ey); exact Ek'|]. exists ty. split; [exact Hty|].
    eapply (rb_same _ h h1 E E E); [apply (sm_g _ _ _ _ _ Q)|apply incl_refl|exact S1|exact I1|apply incl_refl|apply via_in; apply (sm_in _ _ _ _ _ Q); now right|exact Ey].
  - rewrite Ek in Fd. destruct (in_dec value_dec (key kf h0 x) (map (key kf h0) xs)) as [N|_]; [exfalso; apply Fd, Hkeys, N|reflexivity].
Qed.
(** An object that is appended itself. *)
Lemma second_keep pre x h h1 lost news : sm h (s ++ lost ++ r :: e0) s ts (news ++ filter (keep xs) pre) -> sm h1 (s ++ lost ++ r :: e0) s ts (news ++ filter (keep xs) pre) -> length h <= length h1 -> own h0 e0 x t -> keep xs x = true ->
  length news = length xs -> fresh h news -> (P -> lost = [] /\ forall y, In y s -> ~ In (key kf h y) (map (key kf h0) pre) -> In y news) ->
  wp (append r (Some x)) h1 (fun h' u => second_sum xs s ts (pre ++ [x]) u h').
Proof.
  intros Q Q1 L1 Ox Ke Ln Fn Hl. destruct (ok_own _ _ _ _ _ _ _ _ (sm_ok _ _ _ _ _ Q1) (incl_refl _) Ox) as (_ & K1).
  eapply wp_mono; [apply (sm_append h1 _ s ts _ x Q1 (ltac:(inc)) K1)|]. cbv beta. intros h2 u2 (Q2 & L2). exists lost, news.
  rewrite filter_app. cbn [filter]. rewrite Ke, (app_assoc news). split; [exact Q2|]. split; [exact Ln|]. split; [eapply fresh_len; [exact Fn|lia]|].
  intros HPP. destruct (Hl HPP) as (A & B). split; [exact A|]. intros y Hy Ny. apply (B y Hy). rewrite (sm_keys _ _ _ _ _ _ _ _ Q Q2 y Hy), map_app, in_app_iff in Ny. tauto.
Qed.
Lemma second_sum_pkgs pre x h u : own h0 e0 x t -> second_sum xs s ts pre u h ->
  wp (do d <- set_find eqf s x; match d with Some _ => ret tt | None => append r (Some x) end) h (fun h' u' => second_sum xs s ts (pre ++ [x]) u' h').
Proof.
  intros Ox (lost & news & Q & Ln & Fn & Hl). eapply wp_seq; [apply (second_find h _ _ x Q Ox); inc|]. cbv beta. intros h1 d (Q1 & L1 & Hd).
  destruct d as [y|]; [|eapply (second_keep pre x h h1 lost news); eauto].
  destruct Hd as (Ke & _). apply wp_ret. exists lost, news. rewrite filter_app. cbn [filter]. rewrite Ke, app_nil_r. split; [exact Q1|]. split; [exact Ln|]. split; [eapply fresh_len; eauto|].
  intros HPP. destruct (Hl HPP) as (A & B). split; [exact A|]. intros z Hz Nz. apply (B z Hz). rewrite (sm_keys _ _ _ _ _ _ _ _ Q Q1 z Hz), map_app, in_app_iff in Nz. tauto.
Qed.
(** Removing an item, and writing one in its place. *)
Lemma sm_remove h E n1 d n2 : sm h E s ts (n1 ++ d :: n2) -> incl e0 E -> wp (remove_at r (Some (length n1))) h (fun h' _ => sm h' E s ts (n1 ++ n2) /\ length h <= length h').
Proof.
  intros Q H0. pose proof (sm_list _ _ _ _ _ Q) as L. pose proof (sm_g _ _ _ _ _ Q) as I. unfold remove_at. apply wp_bind. eapply wp_isl_items; [exact L|].
  rewrite map_app. cbn [map]. rewrite nth_error_app2, map_length, Nat.sub_diag by (rewrite map_length; apply Nat.le_refl). cbn [nth_error].
  replace (length n1) with (length (map Some n1)) by apply map_length. rewrite list_del_app.
  eapply wp_seq; [eapply (wp_rewrite_isl [] h E (d :: E) r et _ (map Some n1 ++ map Some n2) I L)|].
  - intros a. rewrite map_app. cbn [map]. rewrite !somes_app. cbn [somes]. rewrite !count_occ_app. cbn [count_occ]. destruct (Nat.eq_dec d a); lia.
  - intros z Hz. eapply isl_fits; [exact I|exact L|]. rewrite map_app. cbn [map]. apply in_app_or in Hz. apply in_or_app. destruct Hz; [now left|right; now right].
  - cbv beta. intros h1 _ (I1 & U1 & L1). rewrite <- map_app in L1.
    pose proof (sm_upd _ _ _ _ _ _ _ _ Q U1 I1 L1 (fun y Hy => or_intror (sm_in _ _ _ _ _ Q y Hy)) (fun y Hy => or_intror (H0 y Hy))) as Q1.
    eapply wp_mono; [apply (wp_release0 h1 E (Some d) I1)|]. cbv beta. intros h2 _ (I2 & _ & S2).
    split; [exact (sm_step _ _ _ _ _ _ _ Q1 S2 I2 (sm_in _ _ _ _ _ Q) H0)|]. pose proof (same_length _ _ _ S2). rewrite (upd_length _ _ _ U1) in *. lia.
Qed.
Lemma sm_insert h E n1 o n2 : sm h (o :: E) s ts (n1 ++ n2) -> incl (r :: s) E -> incl e0 E -> has_kind h o t -> wp (insert_at_x r (Some (length n1)) (Some o)) h (fun h' _ => sm h' E s ts (n1 ++ o :: n2) /\ length h' = length h).
Proof.
  intros Q HE H0 Ko. pose proof (sm_list _ _ _ _ _ Q) as L. pose proof (sm_g _ _ _ _ _ Q) as I. unfold insert_at_x. apply wp_bind. eapply wp_isl_items; [exact L|].
  replace (length (map Some (n1 ++ n2)) <? length n1) with false by (symmetry; apply Nat.ltb_ge; rewrite map_length, app_length; lia).
  rewrite map_app. replace (length n1) with (length (map Some n1)) by apply map_length. rewrite list_ins_app.
  eapply wp_mono; [eapply (wp_rewrite_isl [] h (o :: E) E r et _ (map Some n1 ++ Some o :: map Some n2) I L)|].
  - intros a. rewrite map_app, !somes_app. cbn [somes]. rewrite !count_occ_app. cbn [count_occ]. destruct (Nat.eq_dec o a); lia.
  - intros z Hz. apply in_app_or in Hz. destruct Hz as [Hz|[<-|Hz]]; [|exists t; split; [exact Ko|exact Hel]|]; (eapply isl_fits; [exact I|exact L|]; rewrite map_app; apply in_or_app; auto).
  - cbv beta. intros h1 _ (I1 & U1 & L1). split; [|exact (upd_length _ _ _ U1)]. eapply sm_upd; [exact Q|exact U1|exact I1|rewrite map_app; exact L1|exact HE|exact H0].
Qed.
Variable un : addr -> addr -> M addr.
Hypothesis Sp : spec_un t un.
Hypothesis Ht : obj_tag t.
Lemma second_sum_step ys pre x post h u : (P -> Forall (tdist t) ts) -> (P -> NoDup (map (key kf h0) ys)) -> (P -> forall x tx, In x ys -> rb room h0 x = Some tx -> tdist t tx) -> ys = pre ++ x :: post -> Forall (fun y => own h0 e0 y t) ys ->
  second_sum xs s ts pre u h ->
  wp (do d <- set_find eqf s x;
      match d with
      | Some data => do i <- index r data; remove_at r i ;;; do o <- un data x; insert_at_x r i (Some o)
      | None => append r (Some x)
      end) h (fun h' u' => second_sum xs s ts (pre ++ [x]) u' h').
Proof.
  intros Dts HP HD Ey Oys (lost & news & Q & Ln & Fn & Hl). set (E := s ++ lost ++ r :: e0) in *.
  assert (HE : incl (r :: s) E) by (unfold E; inc). assert (HE0 : incl e0 E) by (unfold E; inc).
  assert (Hx : In x ys) by (rewrite Ey; apply in_or_app; right; now left). rewrite Forall_forall in Oys. pose proof (Oys x Hx) as Ox.
  eapply wp_seq; [apply (second_find h _ _ x Q Ox HE0)|]. cbv beta. intros h1 d (Q1 & L1 & Hd). destruct d as [data|]; [|eapply (second_keep pre x h h1 lost news); eauto].
  destruct Hd as (Ke & Hdata & Kd & ty & Hty & Eyt). pose proof (ok_len _ _ _ _ _ (sm_ok _ _ _ _ _ Q)) as L0.
  assert (Nsh : ~ In data (filter (keep xs) pre)).
  { intros Hin. apply filter_In in Hin as (Hin & _). assert (Hy : In data ys) by (rewrite Ey; apply in_or_app; now left). destruct (Oys data Hy) as (_ & c & Hcd & _). apply at_lt in Hcd. specialize (Hs data Hdata). lia. }
  unfold index. apply wp_bind. apply wp_bind. eapply wp_isl_items; [apply (sm_list _ _ _ _ _ Q1)|]. apply wp_ret.
  (* the union *)
  assert (Tree : forall h2 its, sm h2 E s ts its -> exists tz, In tz ts /\ rb room h2 data = Some tz).
  { intros h2 its Q2. pose proof (sm_objs _ _ _ _ _ Q2) as Ob. clear - Ob Hdata. induction Ob as [|y tz s ts A B IH]; [destruct Hdata|].
    destruct Hdata as [->|Hd]; [exists tz; split; [now left|exact A]|]. destruct (IH Hd) as (tw & C & F). exists tw. split; [now right|exact F]. }
  assert (Un : forall h2 its, sm h2 E s ts its ->
    wp (un data x) h2 (fun h3 o => exists more, length h2 <= o < length h3 /\ length h2 <= length h3 /\ sm h3 (o :: more ++ E) s ts its /\ has_kind h3 o t /\ (P -> more = []))).
  { intros h2 its Q2. destruct (Tree h2 its Q2) as (tz & Htz & Ez). pose proof (sm_ok _ _ _ _ _ Q2) as O2. destruct (base_has x (ok_g0 _ _ _ _ _ O2) Ox) as (tx & Ex0 & Er & _). destruct (sm_base _ _ _ _ _ O2 Ox Ex0) as (Oh & Exh).
    pose proof (sm_own _ _ _ _ _ Q2) as Os2. rewrite Forall_forall in Os2. pose proof (Os2 data Hdata) as Od.
    eapply wp_mono; [apply (Sp h2 E data x (sm_g _ _ _ _ _ Q2) Od Oh)|]. cbv beta. intros h3 o (more & Lo & I3 & S3 & K3 & Dl). exists more.
    split; [split; [exact Lo|destruct K3 as (c & Hc3 & _); exact (at_lt _ _ _ Hc3)]|]. split; [exact (same_length _ _ _ S3)|]. split; [|split; [exact K3|]].
    - eapply sm_step; [exact Q2|exact S3|exact I3|intros y Hy; right; apply in_or_app; right; auto|intros y Hy; right; apply in_or_app; right; auto].
    - intros HPP. apply Dl; [apply (distinct_tree _ _ _ _ _ (sm_g _ _ _ _ _ Q2) (proj2 Od) Ht Ez)|apply (distinct_tree _ _ _ _ _ (sm_g _ _ _ _ _ Q2) (proj2 Oh) Ht Exh)].
      + specialize (Dts HPP). rewrite Forall_forall in Dts. auto.
      + exact (HD HPP x tx Hx Ex0). }
  destruct (position data (map Some (news ++ filter (keep xs) pre))) as [i|] eqn:Ep.
  - destruct (position_news _ _ _ _ Ep Nsh) as (n1 & n2 & En & <-). rewrite En, <- app_assoc in Q1. cbn [app] in Q1.
    eapply wp_seq; [apply (sm_remove h1 E n1 data (n2 ++ filter (keep xs) pre) Q1 HE0)|]. cbv beta. intros h2 _ (Q2 & L2).
    eapply wp_seq; [exact (Un h2 _ Q2)|]. cbv beta. intros h3 o (more & Lo & L3 & Q3 & K3 & Hm).
    eapply wp_mono; [apply (sm_insert h3 (more ++ E) n1 o (n2 ++ filter (keep xs) pre) Q3); [intros y Hy; apply in_or_app; right; auto|intros y Hy; apply in_or_app; right; auto|exact K3]|].
    cbv beta. intros h4 u4 (Q4 & L4). exists (more ++ lost), (n1 ++ o :: n2). rewrite filter_app. cbn [filter]. rewrite Ke, app_nil_r.
    split; [replace ((n1 ++ o :: n2) ++ filter (keep xs) pre) with (n1 ++ o :: n2 ++ filter (keep xs) pre) by (rewrite <- app_assoc; reflexivity); eapply sm_perm; [exact Q4|unfold E; cnts]|]. split; [rewrite <- Ln, En, !app_length; reflexivity|].
    split; [rewrite En in Fn; eapply fresh_swap; [exact Fn|lia|exact L0]|].
    intros HPP. destruct (Hl HPP) as (A & B). split; [now rewrite A, (Hm HPP)|]. intros y Hy Ny. rewrite (sm_keys _ _ _ _ _ _ _ _ Q Q4 y Hy), map_app, in_app_iff in Ny.
    specialize (B y Hy (fun D0 => Ny (or_introl D0))). rewrite En in B. apply in_app_or in B. apply in_or_app. destruct B as [B|[B|B]]; [now left| |right; now right].
    exfalso. subst y. apply Ny. right. left. exact (eq_sym Kd).
  - eapply (wp_seq _ _ _ (fun h2 _ => h2 = h1)); [unfold remove_at; apply wp_bind; eapply wp_isl_items; [apply (sm_list _ _ _ _ _ Q1)|]; now apply wp_ret|]. cbv beta. intros h2 u2 E2. subst h2. clear u2.
    eapply wp_seq; [exact (Un h1 _ Q1)|]. cbv beta. intros h3 o (more & Lo & L3 & Q3 & K3 & Hm).
    unfold insert_at_x. apply wp_bind. eapply wp_isl_items; [apply (sm_list _ _ _ _ _ Q3)|]. apply wp_ret. exists (o :: more ++ lost), news.
    rewrite filter_app. cbn [filter]. rewrite Ke, app_nil_r. split; [eapply sm_perm; [exact Q3|unfold E; cnts]|]. split; [exact Ln|]. split; [eapply fresh_len; [exact Fn|lia]|].
    intros HPP. exfalso. destruct (Hl HPP) as (A & B). specialize (HP HPP). apply (position_none _ _ Ep). apply in_map. apply in_or_app. left. apply (B data Hdata). rewrite Kd.
    rewrite Ey, map_app in HP. cbn [map] in HP. apply NoDup_remove_2 in HP. intros D0. apply HP. apply in_or_app. now left.
Qed.
(** ** The end *)
Lemma sm_destroy z its : forall h lost, sm h (z ++ lost ++ r :: e0) [] [] its -> wp (set_destroy z) h (fun h' _ => sm h' (lost ++ r :: e0) [] [] its /\ length h <= length h').
Proof.
  unfold set_destroy, forM. induction z as [|a z IH]; intros h lost Q; cbn [foldM]; [apply wp_ret; auto|]. cbn [app] in Q.
  eapply wp_seq; [apply (wp_release0 h (z ++ lost ++ r :: e0) (Some a)); exact (sm_g _ _ _ _ _ Q)|]. cbv beta. intros h1 [] (I1 & _ & S1).
  eapply wp_mono; [apply (IH h1 lost)|].
  - exact (sm_step _ _ _ _ _ _ _ Q S1 I1 (ltac:(inc)) (ltac:(inc))).
  - cbv beta. intros h2 _ (Q2 & L2). split; [exact Q2|]. pose proof (same_length _ _ _ S1). lia.
Qed.
End Sum.
