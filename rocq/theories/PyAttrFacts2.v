(** Attributes of Python objects: counted memory against the specification, part 1. *)
From Verif Require Import CStr CStrFacts CountMem CountMemFacts PyAttrModel PyAttrSpec PyAttrFacts1.

(** What an address stands for. *)
Inductive tag := GVal (v : nat) | GObj (o : nat) | GPy (t : vtype) (v : nat) | GWrap (n : nat) | GTemp.

Section Facts.
Context {V : Type}.
Variable blank : vtype -> V.
Notation mem := (mem (pbody V)).
Notation Inv := (Inv kids (@rank V)).
Notation heap := (nat -> option (pbody V)).
Implicit Types (m : mem) (h : heap) (g : list tag) (w : world V) (ca : list (kind * slots)).

Definition same g (mk : attr -> nat -> tag) (f : slots) (F : names) : Prop :=
  forall a, match f a, F a with Some x, Some v => nth_error g x = Some (mk a v) | None, None => True | _, _ => False end.
Definition is_val : attr -> nat -> tag := fun _ v => GVal v.
Definition is_py : attr -> nat -> tag := fun a v => GPy (atype a) v.
Definition full (k : kind) (f : slots) : Prop := is_comps k = false -> forall a, In a (fields k) -> f a <> None.
Definition fits g w ca (b : pbody V) (t : tag) : Prop :=
  match t, b with
  | GVal v, CVal x => nth_error (w_vals w) v = Some x
  | GObj o, CObj k f => exists F, nth_error (w_objs w) o = Some (k, F) /\ same g is_val f F /\ full k f
  | GPy t v, PyVal t' c => t' = t /\ nth_error g c = Some (GVal v)
  | GWrap n, PyObj k c cache =>
      exists o R, nth_error (w_wraps w) n = Some (k, o, R) /\ nth_error g c = Some (GObj o) /\ nth_error ca n = Some (k, cache)
  | GTemp, _ => True
  | _, _ => False
  end.
Definition rem_ok g w ca : Prop := forall n k o R, nth_error (w_wraps w) n = Some (k, o, R) ->
  (exists cache, nth_error ca n = Some (k, cache) /\ same g is_py cache R /\ (is_comps k = false -> forall a, by_lang a = false -> cache a = None)) /\
  (exists F, nth_error (w_objs w) o = Some (k, F)).
Record Typed h g w ca : Prop := mkT {
  t_fit : forall a b, h a = Some b -> exists t, nth_error g a = Some t /\ fits g w ca b t;
  t_val : forall v a a', nth_error g a = Some (GVal v) -> nth_error g a' = Some (GVal v) -> a = a';
  t_obj : forall v a a', nth_error g a = Some (GObj v) -> nth_error g a' = Some (GObj v) -> a = a';
  t_wrap : forall v a a', nth_error g a = Some (GWrap v) -> nth_error g a' = Some (GWrap v) -> a = a';
  t_bval : forall v a, nth_error g a = Some (GVal v) -> v < length (w_vals w);
  t_bobj : forall v a, nth_error g a = Some (GObj v) -> v < length (w_objs w);
  t_bwrap : forall v a, nth_error g a = Some (GWrap v) -> v < length (w_wraps w);
  t_len : length ca = length (w_wraps w);
  t_rem : rem_ok g w ca }.

Lemma nth_app_old {A} (l r : list A) i x : nth_error l i = Some x -> nth_error (l ++ r) i = Some x.
Proof. intros H. rewrite nth_error_app1; [exact H|]. apply nth_error_Some. rewrite H. discriminate. Qed.
Lemma nth_app_new {A} (l : list A) x : nth_error (l ++ [x]) (length l) = Some x.
Proof. rewrite nth_error_app2, Nat.sub_diag by lia. reflexivity. Qed.
Lemma nth_app_inv {A} (l : list A) x i y : nth_error (l ++ [x]) i = Some y -> nth_error l i = Some y \/ i = length l /\ y = x.
Proof.
  intros H. destruct (Nat.lt_ge_cases i (length l)) as [L|L]; [rewrite nth_error_app1 in H by exact L; auto|].
  rewrite nth_error_app2 in H by exact L. destruct (i - length l) as [|[|]] eqn:E; cbn in H; try discriminate. injection H as <-. right. split; [lia|reflexivity].
Qed.
Lemma same_mono g e mk f F : same g mk f F -> same (g ++ e) mk f F.
Proof. intros H a. specialize (H a). destruct (f a), (F a); try exact H. apply nth_app_old. exact H. Qed.
Lemma same_empty g mk : same g mk empty_slots no_names.
Proof. intros a. exact Logic.I. Qed.
Lemma same_upd g mk f F a x v : same g mk f F -> nth_error g x = Some (mk a v) -> same g mk (upd f a (Some x)) (name F a v).
Proof. intros H Hx b. unfold upd, name. destruct (attr_eqb_ok a b) as [<-|]; [exact Hx|apply H]. Qed.

(** ** Preservation *)
Lemma T_sub h h' g w ca : (forall a b, h' a = Some b -> h a = Some b) -> Typed h g w ca -> Typed h' g w ca.
Proof. intros S []. constructor; auto. Qed.
Lemma T_world h g w w' ca : w_vals w' = w_vals w -> w_objs w' = w_objs w -> w_wraps w' = w_wraps w -> Typed h g w ca -> Typed h g w' ca.
Proof.
  intros Ev Eo Ew [F]. constructor; rewrite ?Ev, ?Eo, ?Ew; auto.
  - intros a b H. destruct (F _ _ H) as (t & Ht & K). exists t. split; [exact Ht|]. unfold fits in *. destruct t, b; rewrite ?Ev, ?Eo, ?Ew; exact K.
  - unfold rem_ok in *. rewrite Ew, Eo. auto.
Qed.
Lemma T_lt h g w ca a b : Typed h g w ca -> h a = Some b -> a < length g.
Proof. intros T H. destruct (t_fit _ _ _ _ T _ _ H) as (t & Ht & _). apply nth_error_Some. rewrite Ht. discriminate. Qed.
Definition with_vals w vals : world V := mkW vals (w_objs w) (w_wraps w) (w_vars w) (w_lost w).
Lemma T_temp h h' g w ca n : Typed h g w ca -> (forall a b, h' a = Some b -> h a = Some b \/ length g <= a < length g + n) ->
  Typed h' (g ++ repeat GTemp n) w ca.
Proof.
  intros T H. pose proof T as [F].
  assert (G : forall a t, nth_error (g ++ repeat GTemp n) a = Some t -> t <> GTemp -> nth_error g a = Some t).
  { intros a t Ha N. destruct (Nat.lt_ge_cases a (length g)) as [L|L]; [rewrite nth_error_app1 in Ha by exact L; exact Ha|].
    rewrite nth_error_app2 in Ha by exact L. apply nth_error_In in Ha. apply repeat_spec in Ha. congruence. }
  constructor.
  - intros a b Hb. destruct (H _ _ Hb) as [Hb'|Hl].
    + destruct (F _ _ Hb') as (t & Ht & K). exists t. split; [apply nth_app_old; exact Ht|].
      unfold fits in *. destruct t, b; try exact K.
      * destruct K as (G0 & K1 & K2 & K3). exists G0. split; [exact K1|]. split; [apply same_mono; exact K2|exact K3].
      * destruct K as [K1 K2]. split; [exact K1|]. apply nth_app_old. exact K2.
      * destruct K as (o & R & K1 & K2 & K3). exists o, R. split; [exact K1|]. split; [apply nth_app_old; exact K2|exact K3].
    + exists GTemp. split; [|exact Logic.I]. rewrite nth_error_app2 by lia. apply nth_error_repeat. lia.
  - intros v a a' H1 H2. apply t_val0 with (v := v); apply G; (assumption || discriminate).
  - intros v a a' H1 H2. apply t_obj0 with (v := v); apply G; (assumption || discriminate).
  - intros v a a' H1 H2. apply t_wrap0 with (v := v); apply G; (assumption || discriminate).
  - intros v a H1. apply t_bval0 with (a := a); apply G; (assumption || discriminate).
  - intros v a H1. apply t_bobj0 with (a := a); apply G; (assumption || discriminate).
  - intros v a H1. apply t_bwrap0 with (a := a); apply G; (assumption || discriminate).
  - exact t_len0.
  - intros m k o R HR. destruct (t_rem0 _ _ _ _ HR) as ((cache & C1 & C2 & C3) & K). split; [|exact K].
    exists cache. split; [exact C1|]. split; [apply same_mono; exact C2|exact C3].
Qed.
(** A new cell with its meaning. *)
Lemma T_cell h h' g w w' ca ca' t0 : Typed h g w ca -> (forall a b, h' a = Some b -> h a = Some b \/ a = length g /\ fits (g ++ [t0]) w' ca' b t0) ->
  (forall v x, nth_error (w_vals w) v = Some x -> nth_error (w_vals w') v = Some x) ->
  (forall v x, nth_error (w_objs w) v = Some x -> nth_error (w_objs w') v = Some x) ->
  (forall v x, nth_error (w_wraps w) v = Some x -> nth_error (w_wraps w') v = Some x) ->
  (forall v x, nth_error ca v = Some x -> nth_error ca' v = Some x) ->
  match t0 with GVal v => length (w_vals w) <= v < length (w_vals w') | GObj v => length (w_objs w) <= v < length (w_objs w') | GWrap v => length (w_wraps w) <= v < length (w_wraps w') | _ => True end ->
  length (w_vals w) <= length (w_vals w') -> length (w_objs w) <= length (w_objs w') -> length (w_wraps w) <= length (w_wraps w') ->
  length ca' = length (w_wraps w') -> rem_ok (g ++ [t0]) w' ca' ->
  Typed h' (g ++ [t0]) w' ca'.
Proof.
  intros T H Ev Eo Ew Ec New Lv Lo Lw Lc Rem. pose proof T as [F].
  constructor; auto.
  - intros a b Hb. destruct (H _ _ Hb) as [Hb'|[-> Fit]].
    + destruct (F _ _ Hb') as (t & Ht & K). exists t. split; [apply nth_app_old; exact Ht|].
      unfold fits in *. destruct t, b; try exact K.
      * apply Ev. exact K.
      * destruct K as (G0 & K1 & K2 & K3). exists G0. split; [apply Eo; exact K1|]. split; [apply same_mono; exact K2|exact K3].
      * destruct K as [K1 K2]. split; [exact K1|]. apply nth_app_old. exact K2.
      * destruct K as (o & R & K1 & K2 & K3). exists o, R. split; [apply Ew; exact K1|]. split; [apply nth_app_old; exact K2|apply Ec; exact K3].
    + exists t0. split; [apply nth_app_new|exact Fit].
  - intros v a a' H1 H2. apply nth_app_inv in H1, H2. destruct H1 as [H1|[-> E1]], H2 as [H2|[-> E2]]; subst; cbn in *; eauto.
    + specialize (t_bval0 _ _ H1). lia.
    + specialize (t_bval0 _ _ H2). lia.
  - intros v a a' H1 H2. apply nth_app_inv in H1, H2. destruct H1 as [H1|[-> E1]], H2 as [H2|[-> E2]]; subst; cbn in *; eauto.
    + specialize (t_bobj0 _ _ H1). lia.
    + specialize (t_bobj0 _ _ H2). lia.
  - intros v a a' H1 H2. apply nth_app_inv in H1, H2. destruct H1 as [H1|[-> E1]], H2 as [H2|[-> E2]]; subst; cbn in *; eauto.
    + specialize (t_bwrap0 _ _ H1). lia.
    + specialize (t_bwrap0 _ _ H2). lia.
  - intros v a H1. apply nth_app_inv in H1. destruct H1 as [H1|[-> E1]]; [specialize (t_bval0 _ _ H1); lia|subst; cbn in New; lia].
  - intros v a H1. apply nth_app_inv in H1. destruct H1 as [H1|[-> E1]]; [specialize (t_bobj0 _ _ H1); lia|subst; cbn in New; lia].
  - intros v a H1. apply nth_app_inv in H1. destruct H1 as [H1|[-> E1]]; [specialize (t_bwrap0 _ _ H1); lia|subst; cbn in New; lia].
Qed.
Lemma rem_mono g e w w' ca : w_wraps w' = w_wraps w -> (forall v x, nth_error (w_objs w) v = Some x -> nth_error (w_objs w') v = Some x) ->
  rem_ok g w ca -> rem_ok (g ++ e) w' ca.
Proof.
  intros Ew Eo H n k o R HR. rewrite Ew in HR. destruct (H _ _ _ _ HR) as ((cache & C1 & C2 & C3) & F & K). split; [|exists F; apply Eo; exact K].
  exists cache. split; [exact C1|]. split; [apply same_mono; exact C2|exact C3].
Qed.
Lemma T_new_val h h' g w ca x : Typed h g w ca -> (forall a b, h' a = Some b -> h a = Some b \/ a = length g /\ b = CVal x) ->
  Typed h' (g ++ [GVal (length (w_vals w))]) (with_vals w (w_vals w ++ [x])) ca.
Proof.
  intros T H. eapply (T_cell h h' g w _ ca ca _ T); cbn; auto.
  - intros a b Hb. destruct (H _ _ Hb) as [Hb'|[-> ->]]; [auto|]. right. split; [reflexivity|]. apply nth_app_new.
  - intros v y. apply nth_app_old.
  - rewrite app_length. cbn. lia.
  - rewrite app_length. lia.
  - apply (t_len _ _ _ _ T).
  - apply (rem_mono g _ w); [reflexivity|auto|apply (t_rem _ _ _ _ T)].
Qed.
Lemma T_new_obj h h' g w ca k f F : Typed h g w ca -> (forall a b, h' a = Some b -> h a = Some b \/ a = length g /\ b = CObj k f) ->
  same g is_val f F -> full k f ->
  Typed h' (g ++ [GObj (length (w_objs w))]) (mkW (w_vals w) (w_objs w ++ [(k, F)]) (w_wraps w) (w_vars w) (w_lost w)) ca.
Proof.
  intros T H S Fu. eapply (T_cell h h' g w _ ca ca _ T); cbn; auto.
  - intros a b Hb. destruct (H _ _ Hb) as [Hb'|[-> ->]]; [auto|]. right. split; [reflexivity|].
    exists F. split; [apply nth_app_new|]. split; [apply same_mono; exact S|exact Fu].
  - intros v y. apply nth_app_old.
  - rewrite app_length. cbn. lia.
  - rewrite app_length. lia.
  - apply (t_len _ _ _ _ T).
  - apply (rem_mono g _ w); [reflexivity| |apply (t_rem _ _ _ _ T)]. cbn. intros v x. apply nth_app_old.
Qed.
Lemma T_new_py h h' g w ca t v : Typed h g w ca -> (forall a b, h' a = Some b -> h a = Some b \/ a = length g /\ exists c, b = PyVal t c /\ nth_error g c = Some (GVal v)) ->
  Typed h' (g ++ [GPy t v]) w ca.
Proof.
  intros T H. eapply (T_cell h h' g w _ ca ca _ T); cbn; auto.
  - intros a b Hb. destruct (H _ _ Hb) as [Hb'|[-> (c & -> & Hc)]]; [auto|]. right. split; [reflexivity|].
    split; [reflexivity|]. apply nth_app_old. exact Hc.
  - apply (t_len _ _ _ _ T).
  - apply (rem_mono g _ w); [reflexivity|auto|apply (t_rem _ _ _ _ T)].
Qed.
Lemma T_put_py h h' g w ca a0 t v c : Typed h g w ca -> nth_error g a0 = Some (GPy t v) -> nth_error g c = Some (GVal v) ->
  (forall a b, h' a = Some b -> h a = Some b \/ a0 = a /\ b = PyVal t c) -> Typed h' g w ca.
Proof.
  intros T Ha Hc H. pose proof T as [F]. constructor; auto.
  intros a b Hb. destruct (H _ _ Hb) as [Hb'|[<- ->]]; [auto|]. exists (GPy t v). split; [exact Ha|]. cbn. auto.
Qed.
Lemma T_new_wrap h h' g w ca k c o F : Typed h g w ca -> (forall a b, h' a = Some b -> h a = Some b \/ a = length g /\ b = PyObj k c empty_slots) ->
  nth_error g c = Some (GObj o) -> nth_error (w_objs w) o = Some (k, F) ->
  Typed h' (g ++ [GWrap (length (w_wraps w))]) (add_wrap w k o) (ca ++ [(k, empty_slots)]).
Proof.
  intros T H Hc Ho. pose proof (t_len _ _ _ _ T) as L. eapply (T_cell h h' g w _ ca _ _ T); cbn; auto.
  - intros a b Hb. destruct (H _ _ Hb) as [Hb'|[-> ->]]; [auto|]. right. split; [reflexivity|].
    exists o, no_names. split; [apply nth_app_new|]. split; [apply nth_app_old; exact Hc|]. rewrite <- L. apply nth_app_new.
  - intros v y. apply nth_app_old.
  - intros v y. apply nth_app_old.
  - rewrite app_length. cbn. lia.
  - rewrite app_length. lia.
  - rewrite !app_length. cbn. lia.
  - intros n k' o' R' HR. cbn in HR. apply nth_app_inv in HR. destruct HR as [HR|[-> E]].
    + destruct (t_rem _ _ _ _ T _ _ _ _ HR) as ((cache & C1 & C2 & C3) & F' & K). split; [|exists F'; exact K].
      exists cache. split; [apply nth_app_old; exact C1|]. split; [apply same_mono; exact C2|exact C3].
    + injection E as -> -> ->. cbn. split; [|exists F; exact Ho].
      exists empty_slots. split; [rewrite <- L; apply nth_app_new|]. split; [apply same_empty|reflexivity].
Qed.
(** A changed cell. *)
Lemma nth_upd_inv {A} (l : list A) i x j y : nth_error (list_upd l i x) j = Some y -> i <> j /\ nth_error l j = Some y \/ i = j /\ y = x.
Proof.
  intros H. destruct (Nat.eq_dec i j) as [<-|N]; [|rewrite upd_other in H by exact N; auto].
  assert (L : i < length l) by (rewrite <- (list_upd_length l i x); apply nth_error_Some; rewrite H; discriminate).
  rewrite upd_same in H by exact L. injection H as <-. auto.
Qed.
Lemma T_put_val h h' g w ca a0 v x : Typed h g w ca -> nth_error g a0 = Some (GVal v) ->
  (forall a b, h' a = Some b -> a0 <> a /\ h a = Some b \/ a0 = a /\ b = CVal x) ->
  Typed h' g (with_vals w (list_upd (w_vals w) v x)) ca.
Proof.
  intros T Ha H. pose proof T as [F]. pose proof (t_bval0 _ _ Ha) as Lv. constructor; cbn; auto.
  - intros a b Hb. destruct (H _ _ Hb) as [[N Hb']|[<- ->]].
    + destruct (F _ _ Hb') as (t & Ht & K). exists t. split; [exact Ht|]. unfold fits in *. destruct t, b; try exact K. cbn.
      rewrite upd_other; [exact K|]. intros ->. apply N. eapply t_val0; eassumption.
    + exists (GVal v). split; [exact Ha|]. cbn. apply upd_same. exact Lv.
  - rewrite list_upd_length. exact t_bval0.
Qed.
Lemma T_put_obj h h' g w ca a0 o k F f' F' : Typed h g w ca -> nth_error g a0 = Some (GObj o) -> nth_error (w_objs w) o = Some (k, F) ->
  (forall a b, h' a = Some b -> a0 <> a /\ h a = Some b \/ a0 = a /\ b = CObj k f') -> same g is_val f' F' -> full k f' ->
  Typed h' g (set_obj w o (k, F')) ca.
Proof.
  intros T Ha Ho H S Fu. pose proof T as [Fi]. pose proof (t_bobj0 _ _ Ha) as Lv. constructor; cbn; auto.
  - intros a b Hb. destruct (H _ _ Hb) as [[N Hb']|[<- ->]].
    + destruct (Fi _ _ Hb') as (t & Ht & K). exists t. split; [exact Ht|]. unfold fits in *. destruct t, b; try exact K. cbn.
      destruct K as (F0 & K1 & K2 & K3). exists F0. split; [|auto]. rewrite upd_other; [exact K1|]. intros ->. apply N. eapply t_obj0; eassumption.
    + exists (GObj o). split; [exact Ha|]. cbn. exists F'. split; [apply upd_same; exact Lv|auto].
  - rewrite list_upd_length. exact t_bobj0.
  - intros n k0 o0 R HR. cbn in HR. destruct (t_rem0 _ _ _ _ HR) as (C & F0 & K). split; [exact C|]. cbn.
    destruct (Nat.eq_dec o o0) as [<-|N].
    + exists F'. rewrite upd_same by exact Lv. congruence.
    + exists F0. rewrite upd_other by exact N. exact K.
Qed.
Lemma T_put_wrap h h' g w ca a0 n k o0 R0 c' cache' o' R' F' : Typed h g w ca -> nth_error g a0 = Some (GWrap n) -> nth_error (w_wraps w) n = Some (k, o0, R0) ->
  (forall a b, h' a = Some b -> a0 <> a /\ h a = Some b \/ a0 = a /\ b = PyObj k c' cache') ->
  nth_error g c' = Some (GObj o') -> nth_error (w_objs w) o' = Some (k, F') -> same g is_py cache' R' ->
  (is_comps k = false -> forall a, by_lang a = false -> cache' a = None) ->
  Typed h' g (set_wrap w n (k, o', R')) (list_upd ca n (k, cache')).
Proof.
  intros T Ha Hn H Hc Ho S By. pose proof T as [Fi]. pose proof (t_bwrap0 _ _ Ha) as Lv. constructor; cbn; auto.
  - intros a b Hb. destruct (H _ _ Hb) as [[N Hb']|[<- ->]].
    + destruct (Fi _ _ Hb') as (t & Ht & K). exists t. split; [exact Ht|]. unfold fits in *. destruct t, b; try exact K. cbn.
      destruct K as (o1 & R1 & K1 & K2 & K3). assert (n <> n0) by (intros ->; apply N; eapply t_wrap0; eassumption).
      exists o1, R1. rewrite !upd_other by assumption. auto.
    + exists (GWrap n). split; [exact Ha|]. cbn. exists o', R'. rewrite !upd_same by lia. auto.
  - rewrite list_upd_length. exact t_bwrap0.
  - rewrite !list_upd_length. exact t_len0.
  - intros n1 k1 o1 R1 HR. cbn in HR. apply nth_upd_inv in HR. destruct HR as [[N HR]|[<- E]].
    + rewrite upd_other by exact N. apply t_rem0. exact HR.
    + injection E as -> -> ->. rewrite upd_same by lia. split; [exists cache'; auto|exists F'; exact Ho].
Qed.
(** ** New objects *)
Lemma T_new_fields k c L : NoDup (map fst L) -> (forall a t, In (a, t) L -> t = atype a) -> forall m g w ca h, Typed h g w ca -> length g = length m ->
  forall m' f, new_fields blank m k c (map fst L) = (m', f) -> forall vals F, make_parts blank (w_vals w) k c L = (vals, F) ->
  exists e, length (g ++ e) = length m' /\ same (g ++ e) is_val f F /\ (is_comps k = false -> forall a, In a (map fst L) -> f a <> None) /\
    length m <= length m' /\
    forall h', (forall q b, h' q = Some b -> h q = Some b \/ length m <= q /\ at_ m' q = Some b) -> Typed h' (g ++ e) (with_vals w vals) ca.
Proof.
  induction L as [|[a t] L IH]; intros ND Ty m g w ca h T Lg m' f E vals F EV; cbn in E, EV.
  - injection E as <- <-. injection EV as <- <-. exists []. rewrite app_nil_r. split; [exact Lg|]. split; [apply same_empty|]. split; [intros _ b []|].
    split; [lia|]. intros h' H. apply (T_world h' g w); [reflexivity|reflexivity|reflexivity|]. apply (T_sub h); [|exact T].
    intros q b Hq. destruct (H _ _ Hq) as [H1|[H1 H2]]; [exact H1|]. apply at_lt in H2. lia.
  - cbn in ND. inversion ND as [|? ? N ND']; subst.
    destruct (new_fields blank m k c (map fst L)) as [m1 f1] eqn:E1. destruct (make_parts blank (w_vals w) k c L) as [vals1 F1] eqn:EV1.
    destruct (IH ND' (fun a t H => Ty a t (or_intror H)) m g w ca h T Lg m1 f1 E1 vals1 F1 EV1) as (e & Le & Sm & Fu & Lm & Typ).
    assert (New : forall x, (m', f) = (let (m2, y) := alloc m1 (CVal x) in (m2, upd f1 a (Some y))) -> (vals, F) = (vals1 ++ [x], name F1 a (length vals1)) ->
      exists e, length (g ++ e) = length m' /\ same (g ++ e) is_val f F /\ (is_comps k = false -> forall b, In b (a :: map fst L) -> f b <> None) /\
        length m <= length m' /\
        forall h', (forall q b, h' q = Some b -> h q = Some b \/ length m <= q /\ at_ m' q = Some b) -> Typed h' (g ++ e) (with_vals w vals) ca).
    { intros x Hx HV. injection Hx as -> ->. injection HV as -> ->.
      exists (e ++ [GVal (length vals1)]). rewrite app_assoc.
      assert (Ln : length (m1 ++ [Some (mkC 1 (CVal x))]) = S (length m1)) by (rewrite app_length; cbn; lia).
      split; [rewrite Ln, app_length; cbn; lia|]. split.
      { apply same_upd; [apply same_mono; exact Sm|]. rewrite <- Le. apply nth_app_new. }
      split.
      { intros Hk b Hb. unfold upd. destruct (attr_eqb_ok a b) as [<-|Nb]; [discriminate|]. apply Fu; [exact Hk|]. destruct Hb as [->|Hb]; [congruence|exact Hb]. }
      split; [lia|]. intros h' H.
      apply (T_new_val (fun q => if Nat.eq_dec q (length m1) then None else h' q) h' (g ++ e) (with_vals w vals1) ca x).
      - apply Typ. intros q b Hq. destruct (Nat.eq_dec q (length m1)) as [->|Nq]; [discriminate|].
        destruct (H _ _ Hq) as [H1|[H1 H2]]; [auto|]. right. split; [exact H1|]. destruct (at_alloc m1 (CVal x) q b H2) as [H3|[-> _]]; [exact H3|congruence].
      - intros q b Hq. rewrite Le. destruct (Nat.eq_dec q (length m1)) as [->|Nq]; [|auto]. right. split; [reflexivity|].
        destruct (H _ _ Hq) as [H1|[H1 H2]]; [pose proof (T_lt _ _ _ _ _ _ T H1); lia|].
        assert (X : at_ (m1 ++ [Some (mkC 1 (CVal x))]) (length m1) = Some (CVal x)) by apply (at_alloc_new m1 (CVal x)). congruence. }
    cbn [map fst]. rewrite (Ty a t (or_introl eq_refl)) in *.
    destruct (c a) as [v|] eqn:Ec; [|destruct k].
    1-4: eapply New; [symmetry; exact E|symmetry; exact EV].
    injection E as <- <-. injection EV as <- <-. exists e. split; [exact Le|]. split; [exact Sm|]. split; [discriminate|]. split; [exact Lm|exact Typ].
Qed.
Lemma table_ok k : map fst (table k) = fields k /\ (forall a t, In (a, t) (table k) -> t = atype a).
Proof. destruct k; split; try reflexivity; cbn; intros a t H; repeat (destruct H as [H|H]; [injection H as <- <-; reflexivity|]); destruct H. Qed.
Lemma T_make_obj k c m g w ca h : Typed h g w ca -> length g = length m -> forall m' o, new_obj blank m k c = (m', o) ->
  exists e F, length (g ++ e) = length m' /\ nth_error (g ++ e) o = Some (GObj (length (w_objs w))) /\
    w_objs (make_obj blank w k c) = w_objs w ++ [(k, F)] /\ length m <= o /\
    forall h', (forall q b, h' q = Some b -> h q = Some b \/ length m <= q /\ at_ m' q = Some b) -> Typed h' (g ++ e) (make_obj blank w k c) ca.
Proof.
  intros T Lg m' o E. unfold new_obj in E. destruct (new_fields blank m k c (fields k)) as [m1 f] eqn:E1. injection E as <- <-.
  destruct (table_ok k) as [Tm Ta]. unfold make_obj. destruct (make_parts blank (w_vals w) k c (table k)) as [vals F] eqn:EV.
  rewrite <- Tm in E1. pose proof (fields_nodup k) as ND. rewrite <- Tm in ND.
  destruct (T_new_fields k c (table k) ND Ta m g w ca h T Lg m1 f E1 vals F EV) as (e & Le & Sm & Fu & Lm & Typ).
  assert (Ln : length (m1 ++ [Some (mkC 1 (CObj k f))]) = S (length m1)) by (rewrite app_length; cbn; lia).
  exists (e ++ [GObj (length (w_objs w))]), F. rewrite app_assoc.
  split; [rewrite Ln, app_length; cbn; lia|]. split; [rewrite <- Le; apply nth_app_new|]. split; [reflexivity|]. split; [exact Lm|].
  intros h' H. apply (T_new_obj (fun q => if Nat.eq_dec q (length m1) then None else h' q) h' (g ++ e) (with_vals w vals) ca k f F).
  - apply Typ. intros q b Hq. destruct (Nat.eq_dec q (length m1)) as [->|Nq]; [discriminate|].
    destruct (H _ _ Hq) as [H1|[H1 H2]]; [auto|]. right. split; [exact H1|]. destruct (at_alloc m1 (CObj k f) q b H2) as [H3|[-> _]]; [exact H3|congruence].
  - intros q b Hq. rewrite Le. destruct (Nat.eq_dec q (length m1)) as [->|Nq]; [|auto]. right. split; [reflexivity|].
    destruct (H _ _ Hq) as [H1|[H1 H2]]; [pose proof (T_lt _ _ _ _ _ _ T H1); lia|].
    assert (X : at_ (m1 ++ [Some (mkC 1 (CObj k f))]) (length m1) = Some (CObj k f)) by apply (at_alloc_new m1 (CObj k f)). congruence.
  - exact Sm.
  - intros Hk a Ha. apply Fu; [exact Hk|]. rewrite Tm. exact Ha.
Qed.
End Facts.
