(** Attributes of Python objects: the end of a program, and when what is remembered
    is up to date. *)
From Verif Require Import CStr CStrFacts CountMem CountMemFacts PyAttrModel PyAttrSpec PyAttrFacts1 PyAttrFacts2 PyAttrFacts3 PyAttrFacts4 PyAttrFacts5.

Section Facts.
Context {V : Type}.
Variable blank : vtype -> V.
Notation mem := (mem (pbody V)).
Notation Inv := (Inv kids (@rank V)).
Implicit Types (m : mem) (g : list tag) (w : world V) (ca : list (kind * slots)) (s : state V).

(** ** The end of a program *)
Lemma lsum_cons x l : list_sum (x :: l) = x + list_sum l.
Proof. reflexivity. Qed.
Lemma sum_cells {C} (f : C -> nat) R : forall (l : list C) k, (forall i c, nth_error l i = Some c -> f c = occ (k + i) R) ->
  list_sum (map f l) = list_sum (map (fun a => occ a R) (seq k (length l))).
Proof.
  induction l as [|c l IH]; intros k H; [reflexivity|]. cbn [map length seq]. rewrite !lsum_cons, (H 0 c eq_refl), Nat.add_0_r. f_equal.
  apply IH. intros i d Hd. rewrite (H (S i) d Hd). f_equal. lia.
Qed.
Lemma sum_add (f h : nat -> nat) l : list_sum (map (fun a => f a + h a) l) = list_sum (map f l) + list_sum (map h l).
Proof. induction l as [|x l IH]; [reflexivity|]. cbn [map]. rewrite !lsum_cons, IH. lia. Qed.
Lemma sum_one x : forall n k, k <= x < k + n -> list_sum (map (fun a => if Nat.eq_dec x a then 1 else 0) (seq k n)) = 1.
Proof.
  assert (Z : forall n k, x < k -> list_sum (map (fun a => if Nat.eq_dec x a then 1 else 0) (seq k n)) = 0).
  { induction n as [|n IH]; intros k L; [reflexivity|]. cbn. destruct (Nat.eq_dec x k); [lia|]. apply IH. lia. }
  induction n as [|n IH]; intros k L; [lia|]. cbn. destruct (Nat.eq_dec x k) as [->|N]; [rewrite Z by lia; reflexivity|]. apply IH. lia.
Qed.
Lemma sum_occ n R : (forall a, In a R -> a < n) -> list_sum (map (fun a => occ a R) (seq 0 n)) = length R.
Proof.
  induction R as [|x R IH]; intros H.
  - clear. generalize 0. induction n; intros k; cbn; auto.
  - rewrite (map_ext _ (fun a => (if Nat.eq_dec x a then 1 else 0) + occ a R)) by (intros; apply occ_cons).
    rewrite sum_add, sum_one by (specialize (H x (or_introl eq_refl)); lia). cbn [length]. apply (f_equal S). apply IH. intros a Ha. apply H. right. exact Ha.
Qed.
Lemma held_none m a : (forall p b, at_ m p = Some b -> ~ In a (@kids V b)) -> held kids m a = 0.
Proof.
  induction m as [|c m IH]; intros H; [reflexivity|]. cbn. rewrite IH.
  - destruct c as [c|]; [|reflexivity]. cbn. specialize (H 0 (body c) eq_refl). unfold occ. rewrite (proj1 (count_occ_not_In Nat.eq_dec _ _) H). reflexivity.
  - intros p b Hp. apply (H (S p) b Hp).
Qed.
Lemma held_some m a : 0 < held kids m a -> exists p b, at_ m p = Some b /\ In a (@kids V b).
Proof.
  induction m as [|c m IH]; cbn; [lia|]. intros H. destruct (held kids m a) eqn:E.
  - destruct c as [c|]; cbn in H; [|lia]. exists 0, (body c). split; [reflexivity|]. apply (count_occ_In Nat.eq_dec). unfold occ in H. lia.
  - destruct IH as (p & b & Hp & K); [lia|]. exists (S p), b. auto.
Qed.
Lemma extra_length g w ca h : Typed h g w ca -> length (extra ca) = list_sum (map kept (w_wraps w)).
Proof.
  intros T. pose proof (t_len _ _ _ _ T) as L. pose proof (t_rem _ _ _ _ T) as H. unfold rem_ok in H.
  assert (H' : forall n k o R, nth_error (w_wraps w) n = Some (k, o, R) -> exists cache, nth_error ca n = Some (k, cache) /\ forall a, match cache a, R a with Some _, Some _ | None, None => True | _, _ => False end).
  { intros n k o R Hn. destruct (H _ _ _ _ Hn) as [(cache & K1 & K2 & _) _]. exists cache. split; [exact K1|]. intros a. specialize (K2 a). destruct (cache a), (R a); auto. }
  clear H T. revert ca L H'. induction (w_wraps w) as [|[[k o] R] l IH]; intros [|[k' c] ca] L H'; cbn in L; try discriminate; [reflexivity|].
  cbn [map list_sum]. unfold extra. cbn [flat_map fst snd]. rewrite app_length. fold (extra ca). change (list_sum (kept (k, o, R) :: map kept l)) with (kept (k, o, R) + list_sum (map kept l)). f_equal.
  - destruct (H' 0 _ _ _ eq_refl) as (cache & Hc & Hs). cbn in Hc. injection Hc as -> <-. destruct k; try reflexivity. unfold opts. cbn.
    pose proof (Hs ALangpacks) as P1. pose proof (Hs ABlacklist) as P2. pose proof (Hs AWhiteout) as P3.
    destruct (c ALangpacks), (R ALangpacks), (c ABlacklist), (R ABlacklist), (c AWhiteout), (R AWhiteout); try contradiction; reflexivity.
  - apply IH; [lia|]. intros n. apply (H' (S n)).
Qed.

Lemma finish_sim s w : Sim s w -> exists m', finish s = Ok m' /\ py_counters m' = lost w /\
  (forall a c, nth_error m' a = Some (Some c) -> 0 < cnt c /\
     match body c with
     | PyVal t l => exists d v, nth_error m' l = Some (Some d) /\ body d = CVal v
     | CVal _ => exists p d t, nth_error m' p = Some (Some d) /\ body d = PyVal t a
     | _ => False
     end).
Proof.
  intros (g & ca & A & G). pose proof (g_typ _ _ _ _ _ G) as T. pose proof (g_inv _ _ _ _ _ G) as I.
  unfold finish. change (flat_map _ (s_vars s)) with (addrs (s_vars s)).
  destruct (rel_all_ok _ _ _ I) as (m' & E & I' & S'). exists m'. split; [exact E|].
  assert (T' : Typed (at_ m') g w ca) by (apply (T_sub (at_ (s_mem s))); [apply S'|exact T]).
  set (R := A ++ extra ca) in *.
  assert (Rt : forall a, In a R -> exists t v, nth_error g a = Some (GPy t v)).
  { intros a Ha. apply in_app_or in Ha. destruct Ha as [Ha|Ha]; [apply (g_A _ _ _ _ _ G); exact Ha|].
    unfold extra in Ha. apply in_flat_map in Ha. destruct Ha as ([k cache] & Hk & Ha). apply In_nth_error in Hk. destruct Hk as [n Hn].
    cbn [fst snd] in Ha. unfold opts in Ha. apply in_flat_map in Ha. destruct Ha as (b & _ & Ha). destruct (cache b) as [p|] eqn:Ep; [|destruct Ha]. destruct Ha as [<-|[]].
    assert (Ln : n < length (w_wraps w)) by (rewrite <- (t_len _ _ _ _ T); apply nth_error_Some; rewrite Hn; discriminate).
    destruct (nth_error (w_wraps w) n) as [[[k' o] Rm]|] eqn:Hw; [|apply nth_error_None in Hw; lia].
    destruct (t_rem _ _ _ _ T _ _ _ _ Hw) as [(cache' & K1 & K2 & _) _]. rewrite Hn in K1. injection K1 as -> <-. specialize (K2 b). rewrite Ep in K2. destruct (Rm b); [|contradiction]. unfold is_py in K2. eauto. }
  assert (Rp : forall a, In a R -> exists t l, at_ m' a = Some (PyVal t l)).
  { intros a Ha. destruct (Rt a Ha) as (t & v & Ht). destruct (root_live _ _ _ _ _ I' Ha) as [b Hb]. destruct (t_fit _ _ _ _ T' _ _ Hb) as (t' & Ht' & K).
    rewrite Ht in Ht'. injection Ht' as <-. cbn in K. destruct b; try contradiction. eauto. }
  assert (Live : forall a c, nth_error m' a = Some (Some c) -> at_ m' a = Some (body c)) by (intros a c H; unfold at_; rewrite H; reflexivity).
  assert (Par : forall a c, nth_error m' a = Some (Some c) -> In a R \/ exists p b, at_ m' p = Some b /\ In a (kids b)).
  { intros a c H. pose proof (inv_pos _ _ _ _ I' _ _ H) as P. pose proof (inv_cnt _ _ _ _ I' a) as C. unfold count in C. rewrite H in C.
    destruct (held kids m' a) eqn:Eh; [left; apply (count_occ_In Nat.eq_dec); unfold occ in C; lia|right; apply held_some; lia]. }
  assert (NoTop : forall a c k o ch, nth_error m' a = Some (Some c) -> body c <> PyObj k o ch).
  { intros a c k o ch H Eb. pose proof (Live _ _ H) as L. rewrite Eb in L. destruct (Par _ _ H) as [Hr|(p & b & Hp & K)].
    - destruct (Rp _ Hr) as (t & l & Hq). congruence.
    - exact (top_unpointed _ _ _ _ _ _ I' L _ _ Hp K). }
  assert (NoTop' : forall a k o ch, at_ m' a <> Some (PyObj k o ch)).
  { intros a k o ch H. unfold at_ in H. destruct (nth_error m' a) as [[c|]|] eqn:Ec; try discriminate. injection H as H. exact (NoTop _ _ _ _ _ Ec H). }
  assert (R1 : forall a c, nth_error m' a = Some (Some c) -> 1 <= rank (body c) -> In a R /\ held kids m' a = 0).
  { intros a c H Hr. assert (Hh : forall p b, at_ m' p = Some b -> ~ In a (kids b)).
    { intros p b Hp K. pose proof (inv_rank _ _ _ _ I' _ _ _ _ Hp K (Live _ _ H)) as L. destruct b; cbn in L; try lia. exact (NoTop' _ _ _ _ Hp). }
    split; [|apply held_none; exact Hh]. destruct (Par _ _ H) as [Hq|(p & b & Hp & K)]; [exact Hq|]. destruct (Hh _ _ Hp K). }
  split.
  - unfold py_counters. rewrite (sum_cells _ R m' 0).
    + rewrite sum_occ; [unfold R; rewrite app_length, (g_lost _ _ _ _ _ G), (extra_length _ _ _ _ T); reflexivity|].
      intros a Ha. destruct (Rp a Ha) as (t & l & H). exact (at_lt _ _ _ H).
    + intros i c Hc. cbn [Nat.add]. destruct c as [c|].
      * destruct (body c) eqn:Eb.
        -- symmetry. apply count_occ_not_In. intros K. destruct (Rp _ K) as (t & l & H). rewrite (Live _ _ Hc) in H. congruence.
        -- symmetry. apply count_occ_not_In. intros K. destruct (Rp _ K) as (t & l & H). rewrite (Live _ _ Hc) in H. congruence.
        -- destruct (R1 _ _ Hc) as [_ Z]; [rewrite Eb; cbn; lia|]. pose proof (inv_cnt _ _ _ _ I' i) as C. unfold count in C. rewrite Hc in C. lia.
        -- destruct (NoTop _ _ _ _ _ Hc Eb).
      * symmetry. apply count_occ_not_In. intros K. destruct (Rp _ K) as (t & l & H). unfold at_ in H. rewrite Hc in H. discriminate.
  - intros a c Hc. split; [exact (inv_pos _ _ _ _ I' _ _ Hc)|]. destruct (body c) eqn:Eb.
    + destruct (Par _ _ Hc) as [Hr|(p & b & Hp & K)].
      * destruct (Rp _ Hr) as (t & l & H). rewrite (Live _ _ Hc) in H. congruence.
      * unfold at_ in Hp. destruct (nth_error m' p) as [[d|]|] eqn:Ed; try discriminate. injection Hp as Hp. destruct b as [u|k f|t l|k o ch].
        -- destruct K.
        -- destruct (R1 _ _ Ed) as [K1 _]; [rewrite Hp; cbn; lia|]. destruct (Rp _ K1) as (t & l & H). rewrite (Live _ _ Ed) in H. congruence.
        -- destruct K as [<-|[]]. exists p, d, t. auto.
        -- destruct (NoTop _ _ _ _ _ Ed Hp).
    + destruct (R1 _ _ Hc) as [K1 _]; [rewrite Eb; cbn; lia|]. destruct (Rp _ K1) as (t & l & H). rewrite (Live _ _ Hc) in H. congruence.
    + pose proof (Live _ _ Hc) as L. rewrite Eb in L. destruct (kid_live _ _ _ _ _ _ c0 I' L (or_introl eq_refl)) as [b Hb].
      pose proof (inv_rank _ _ _ _ I' _ _ _ _ L (or_introl eq_refl) Hb) as Lr. cbn in Lr. unfold at_ in Hb. destruct (nth_error m' c0) as [[d|]|] eqn:Ed; try discriminate. injection Hb as Hb.
      destruct b as [u|k f|t' l|k o ch]; cbn in Lr; try lia. eauto.
    + exact (NoTop _ _ _ _ _ Hc Eb).
Qed.

(** ** When what is remembered is up to date *)
Record Good (again : bool) w : Prop := mkG {
  gd_one : forall n n' k k' o R R', nth_error (w_wraps w) n = Some (k, o, R) -> nth_error (w_wraps w) n' = Some (k', o, R') -> n <> n' -> again = true /\ is_comps k = false;
  gd_obj : forall n k o R, nth_error (w_wraps w) n = Some (k, o, R) -> exists F, nth_error (w_objs w) o = Some (k, F) /\ forall a v, R a = Some v -> F a = Some v;
  gd_none : again = true -> forall n k o R, nth_error (w_wraps w) n = Some (k, o, R) -> is_comps k = false -> forall a, R a = None;
  gd_lang : forall n k o R, nth_error (w_wraps w) n = Some (k, o, R) -> is_comps k = false -> forall a, by_lang a = false -> R a = None }.
Lemma gd_lt b w n k o R : Good b w -> nth_error (w_wraps w) n = Some (k, o, R) -> o < length (w_objs w).
Proof. intros G H. destruct (gd_obj _ _ G _ _ _ _ H) as (F & K & _). apply nth_error_Some. rewrite K. discriminate. Qed.
Lemma Good_same b w w' : w_wraps w' = w_wraps w -> w_objs w' = w_objs w -> Good b w -> Good b w'.
Proof. intros E1 E2 [A B C D]. constructor; rewrite ?E1, ?E2; assumption. Qed.
Lemma make_obj_objs w k c : exists F, w_objs (make_obj blank w k c) = w_objs w ++ [(k, F)].
Proof. unfold make_obj. destruct (make_parts blank (w_vals w) k c (table k)) as [vals F]. exists F. reflexivity. Qed.
Lemma Good_make b w k c : Good b w -> Good b (make_obj blank w k c).
Proof.
  intros [A B C D]. destruct (make_obj_frame blank w k c) as (Mw & _ & _). destruct (make_obj_objs w k c) as [F0 Mo]. constructor; rewrite ?Mw, ?Mo; auto.
  intros n k' o R H. destruct (B _ _ _ _ H) as (F & K & K2). exists F. split; [apply nth_app_old; exact K|exact K2].
Qed.
Lemma Good_add b w k o F : Good b w -> nth_error (w_objs w) o = Some (k, F) ->
  (b = true /\ is_comps k = false \/ forall n k' R, nth_error (w_wraps w) n <> Some (k', o, R)) -> Good b (add_wrap w k o).
Proof.
  intros [A B C D] Ho H. constructor; cbn [w_wraps w_objs add_wrap].
  - intros n n' k1 k2 o1 R1 R2 H1 H2 N. apply nth_app_inv in H1. apply nth_app_inv in H2. destruct H1 as [H1|[-> E1]], H2 as [H2|[-> E2]].
    + eapply A; eassumption.
    + injection E2 as -> -> ->. destruct H as [[H3 H4]|H3]; [|destruct (H3 _ _ _ H1)]. split; [exact H3|]. destruct (B _ _ _ _ H1) as (F' & K & _). congruence.
    + injection E1 as -> -> ->. destruct H as [H3|H3]; [exact H3|destruct (H3 _ _ _ H2)].
    + congruence.
  - intros n k' o' R Hn. apply nth_app_inv in Hn. destruct Hn as [Hn|[-> E]]; [eauto|]. injection E as -> -> ->. exists F. split; [exact Ho|]. intros a v K. discriminate K.
  - intros Hb n k' o' R Hn Hk a. apply nth_app_inv in Hn. destruct Hn as [Hn|[-> E]]; [eapply C; eassumption|]. injection E as -> -> ->. reflexivity.
  - intros n k' o' R Hn Hk a Ha. apply nth_app_inv in Hn. destruct Hn as [Hn|[-> E]]; [eapply D; eassumption|]. injection E as -> -> ->. reflexivity.
Qed.
(** Changing one Python object and the object behind it. *)
Lemma Good_upd b w vals n k o R F F' R' ls : Good b w -> nth_error (w_wraps w) n = Some (k, o, R) -> nth_error (w_objs w) o = Some (k, F) ->
  (forall a v, R' a = Some v -> F' a = Some v) -> (b = true -> is_comps k = false -> forall a, R' a = None) ->
  (is_comps k = false -> forall a, by_lang a = false -> R' a = None) ->
  Good b (mkW vals (list_upd (w_objs w) o (k, F')) (list_upd (w_wraps w) n (k, o, R')) (w_vars w) ls).
Proof.
  intros [A B C D] Hn Ho H1 H2 H3. assert (Ln : n < length (w_wraps w)) by (apply nth_error_Some; rewrite Hn; discriminate).
  assert (Lo : o < length (w_objs w)) by (apply nth_error_Some; rewrite Ho; discriminate).
  assert (W : forall n' x, nth_error (list_upd (w_wraps w) n (k, o, R')) n' = Some x -> n' = n /\ x = (k, o, R') \/ n' <> n /\ nth_error (w_wraps w) n' = Some x).
  { intros n' x H. destruct (Nat.eq_dec n' n) as [->|N]; [rewrite upd_same in H by exact Ln; left; split; congruence|rewrite upd_other in H by congruence; auto]. }
  constructor; cbn [w_wraps w_objs].
  - intros n1 n2 k1 k2 o1 R1 R2 K1 K2 N. destruct (W _ _ K1) as [[-> E1]|[N1 E1]], (W _ _ K2) as [[-> E2]|[N2 E2]]; try congruence.
    + injection E1 as -> -> ->. eapply A; [exact Hn|exact E2|congruence].
    + injection E2 as -> -> ->. destruct (A _ _ _ _ _ _ _ E1 Hn N1). auto.
    + eapply A; eassumption.
  - intros n1 k1 o1 R1 K1. destruct (W _ _ K1) as [[-> E1]|[N1 E1]].
    + injection E1 as -> -> ->. exists F'. split; [apply upd_same; exact Lo|exact H1].
    + destruct (B _ _ _ _ E1) as (F1 & K2 & K3). destruct (Nat.eq_dec o1 o) as [->|No].
      * rewrite Ho in K2. injection K2 as <- <-. exists F'. split; [apply upd_same; exact Lo|].
        destruct (A _ _ _ _ _ _ _ E1 Hn N1) as [Hb Hk]. intros a v Hv. rewrite (C Hb _ _ _ _ E1 Hk a) in Hv. discriminate.
      * exists F1. split; [rewrite upd_other by congruence; exact K2|exact K3].
  - intros Hb n1 k1 o1 R1 K1 Hk. destruct (W _ _ K1) as [[-> E1]|[N1 E1]]; [injection E1 as -> -> ->; auto|eapply C; eassumption].
  - intros n1 k1 o1 R1 K1 Hk. destruct (W _ _ K1) as [[-> E1]|[N1 E1]]; [injection E1 as -> -> ->; auto|eapply D; eassumption].
Qed.
Lemma upd_id {A} (l : list A) : forall i x, nth_error l i = Some x -> list_upd l i x = l.
Proof. induction l as [|y l IH]; intros [|i] x H; cbn in *; try discriminate; [congruence|]. f_equal. apply IH. exact H. Qed.
Lemma look_good b w n k o R a t : Good b w -> nth_error (w_wraps w) n = Some (k, o, R) ->
  look blank true w n a t = look blank false w n a t /\ Good b (fst (look blank true w n a t)).
Proof.
  intros G Hn. destruct (gd_obj _ _ G _ _ _ _ Hn) as (F & Ho & HF). unfold look. rewrite Hn, Ho.
  destruct (R a) as [v|] eqn:ER.
  - rewrite (HF _ _ ER). split; [destruct (is_comps k); reflexivity|exact G].
  - split; [reflexivity|]. assert (Hx : forall v, F a = Some v \/ F a = None -> forall a' v', R a' = Some v' -> name F a v a' = Some v').
    { intros v _ a' v' H. unfold name. destruct (attr_eqb_ok a a') as [<-|]; [congruence|auto]. }
    destruct (F a) as [v|] eqn:EF; cbn [fst].
    + destruct (is_comps k) eqn:Ek; [|exact G]. unfold set_wrap. rewrite <- (upd_id _ _ _ Ho).
      eapply (Good_upd b w (w_vals w) n k o R F F (name R a v) (w_lost w) G Hn Ho); [|congruence|congruence].
      intros a' v' H. unfold name in H. destruct (attr_eqb_ok a a') as [<-|]; [congruence|auto].
    + destruct (is_comps k) eqn:Ek; cbn.
      * eapply (Good_upd b w _ n k o R F (name F a (length (w_vals w))) (name R a (length (w_vals w))) _ G Hn Ho); [|congruence|congruence].
        intros a' v' H. unfold name in *. destruct (attr_eqb_ok a a') as [<-|]; auto.
      * rewrite <- (upd_id _ _ _ Hn).
        eapply (Good_upd b w _ n k o R F (name F a (length (w_vals w))) R _ G Hn Ho); [apply Hx; auto|intros Hb _ a'; exact (gd_none _ _ G Hb _ _ _ _ Hn Ek a')|intros _; exact (gd_lang _ _ G _ _ _ _ Hn Ek)].
Qed.
Lemma store_good b w n k o R a v : Good b w -> nth_error (w_wraps w) n = Some (k, o, R) -> (b = true -> by_lang a = false) -> Good b (store w n a v).
Proof.
  intros G Hn Hb. pose proof (gd_lang _ _ G _ _ _ _ Hn) as Hl. destruct (gd_obj _ _ G _ _ _ _ Hn) as (F & Ho & HF). unfold store. rewrite Hn, Ho.
  assert (X : forall a' v', name R a v a' = Some v' -> name F a v a' = Some v').
  { intros a' v' H. unfold name in *. destruct (attr_eqb_ok a a') as [<-|]; auto. }
  destruct (is_comps k || by_lang a) eqn:Ek; unfold set_wrap, set_obj; cbn [w_vals w_objs w_wraps w_vars w_lost].
  - eapply (Good_upd b w _ n k o R F (name F a v) (name R a v) _ G Hn Ho); [exact X| |].
    + intros Eb Hk. rewrite Hk, (Hb Eb) in Ek. discriminate.
    + intros Hk a' Ha'. rewrite Hk in Ek. cbn in Ek. unfold name. destruct (attr_eqb_ok a a') as [<-|]; [congruence|apply Hl; assumption].
  - apply orb_false_iff in Ek. destruct Ek as [Ek El]. rewrite <- (upd_id _ _ _ Hn).
    eapply (Good_upd b w _ n k o R F (name F a v) R _ G Hn Ho); [|intros Eb _ a'; exact (gd_none _ _ G Eb _ _ _ _ Hn Ek a')|intros _; exact (gd_lang _ _ G _ _ _ _ Hn Ek)].
    intros a' v' H. unfold name. destruct (attr_eqb_ok a a') as [<-|]; [rewrite Hl in H by assumption; discriminate|auto].
Qed.
Lemma Good_new b w k c n R : Good b w -> nth_error (w_wraps w) n = Some R -> is_comps k = true ->
  Good b (set_wrap (make_obj blank w k c) n (k, length (w_objs w), no_names)).
Proof.
  intros G Hn Hk. pose proof (Good_make b w k c G) as G'. pose proof G' as [A B C D]. destruct (make_obj_frame blank w k c) as (Mw & _ & _). destruct (make_obj_objs w k c) as [F0 Mo].
  assert (Fr : forall n k' R, nth_error (w_wraps w) n <> Some (k', length (w_objs w), R)).
  { intros n' k' R' H. apply (gd_lt _ _ _ _ _ _ G) in H. lia. }
  rewrite Mw, Mo in *.
  assert (W : forall n' x, nth_error (list_upd (w_wraps w) n (k, length (w_objs w), no_names)) n' = Some x -> n' = n /\ x = (k, length (w_objs w), no_names) \/ n' <> n /\ nth_error (w_wraps w) n' = Some x).
  { intros n' x H. apply nth_upd_inv in H. destruct H as [[N H]|[-> ->]]; auto. }
  constructor; unfold set_wrap; cbn [w_wraps w_objs]; rewrite ?Mw, ?Mo.
  - intros n1 n2 k1 k2 o1 R1 R2 K1 K2 N. destruct (W _ _ K1) as [[-> E1]|[N1 E1]], (W _ _ K2) as [[-> E2]|[N2 E2]]; try congruence.
    + injection E1 as -> -> ->. destruct (Fr _ _ _ E2).
    + injection E2 as -> -> ->. destruct (Fr _ _ _ E1).
    + eapply A; eassumption.
  - intros n1 k1 o1 R1 K1. destruct (W _ _ K1) as [[-> E1]|[N1 E1]]; [|eauto]. injection E1 as -> -> ->. exists F0. split; [apply nth_app_new|]. intros a v H. discriminate H.
  - intros Hb n1 k1 o1 R1 K1. destruct (W _ _ K1) as [[-> E1]|[N1 E1]]; [|eauto]. injection E1 as -> -> ->. reflexivity.
  - intros n1 k1 o1 R1 K1. destruct (W _ _ K1) as [[-> E1]|[N1 E1]]; [|eauto]. injection E1 as -> -> ->. reflexivity.
Qed.
Lemma step_good b w p : Good b w -> allowed b p = true ->
  istep blank true w p = istep blank false w p /\ match istep blank true w p with Some (w', _) => Good b w' | None => True end.
Proof.
  intros G Hp. destruct p as [k c|t v|x|x|x|x a|x a y|x v|x|x|x c]; cbn [istep]; cbn in Hp.
  - split; [reflexivity|]. cbn. destruct (make_obj_objs w k c) as [F Mo].
    apply (Good_same b (add_wrap (make_obj blank w k c) k (length (w_objs w)))); [reflexivity|reflexivity|].
    apply (Good_add b _ k _ F); [apply Good_make; exact G|rewrite Mo; apply nth_app_new|].
    right. intros n k' R H. destruct (make_obj_frame blank w k c) as (Mw & _ & _). rewrite Mw in H. apply (gd_lt _ _ _ _ _ _ G) in H. lia.
  - split; [reflexivity|]. cbn. apply (Good_same b w); [reflexivity|reflexivity|exact G].
  - split; [reflexivity|]. destruct (wvar w x) as [[|n]|]; try exact G. destruct (nth_error (w_wraps w) n) as [[[k o] R]|] eqn:Hn; [|exact G].
    destruct (is_comps k) eqn:Ek; [exact G|]. cbn. apply (Good_same b (add_wrap w k o)); [reflexivity|reflexivity|].
    destruct (gd_obj _ _ G _ _ _ _ Hn) as (F & Ho & _). apply (Good_add b w k o F G Ho). auto.
  - split; [reflexivity|]. destruct (wvar w x); [|exact G]. cbn. apply (Good_same b w); [reflexivity|reflexivity|exact G].
  - split; [reflexivity|]. destruct (wvar w x); [|exact G]. apply (Good_same b w); [reflexivity|reflexivity|exact G].
  - destruct (wvar w x) as [[|n]|]; try (split; [reflexivity|exact G]). destruct (nth_error (w_wraps w) n) as [[[k o] R]|] eqn:Hn; [|split; [reflexivity|exact G]].
    destruct (find_attr a (table k)) as [t|]; [|split; [reflexivity|exact G]]. destruct (look_good b w n k o R a t G Hn) as [E G']. rewrite <- E. split; [reflexivity|].
    destruct (look blank true w n a t) as [w1 v]. cbn in *. apply (Good_same b w1); [reflexivity|reflexivity|exact G'].
  - split; [reflexivity|]. destruct (wvar w x) as [[|n]|]; try exact G. destruct (nth_error (w_wraps w) n) as [[[k o] R]|] eqn:Hn; [|exact G].
    destruct (find_attr a (table k)) as [t|]; [|exact G]. destruct y as [z| |]; [|exact G|destruct (is_comps k); [exact Logic.I|exact G]].
    destruct (wvar w z) as [[t' v|]|]; try exact G. destruct (vtype_eqb t' t); [|exact G]. eapply store_good; [exact G|exact Hn|].
    intros ->. destruct (by_lang a); [discriminate Hp|reflexivity].
  - split; [reflexivity|]. destruct (wvar w x) as [[t' u|]|]; try exact G. apply (Good_same b w); [reflexivity|reflexivity|exact G].
  - split; [reflexivity|]. destruct (wvar w x) as [[t' u|]|]; try exact G. destruct (nth_error (w_vals w) u); exact G.
  - discriminate Hp.
  - split; [reflexivity|]. destruct (wvar w x) as [[t' u|n]|]; try exact G. destruct (nth_error (w_wraps w) n) as [[[k o] R]|] eqn:Hn; [|exact G].
    destruct (is_comps k) eqn:Ek; [|exact G]. eapply Good_new; [exact G|exact Hn|exact Ek].
Qed.
Lemma run_good b l : forall w, Good b w -> forallb (allowed b) l = true -> irun blank true w l = irun blank false w l.
Proof.
  induction l as [|p l IH]; intros w G H; [reflexivity|]. cbn in H. apply andb_true_iff in H. destruct H as [Hp Hl].
  cbn [irun]. destruct (step_good b w p G Hp) as [E G']. rewrite <- E. destruct (istep blank true w p) as [[w1 o]|]; [|reflexivity].
  rewrite (IH w1 G' Hl). reflexivity.
Qed.
Lemma Good_empty b : Good b (@empty_world V).
Proof. constructor; cbn; intros; destruct n; discriminate. Qed.

(** ** Programs that crash, programs that leak *)
Lemma step_safe b w p : deletes p = false -> istep blank b w p <> None.
Proof.
  intros H. destruct p as [k c|t v|x|x|x|x a|x a y|x v|x|x|x c]; cbn [istep]; unfold ierr, new_var; try discriminate;
    destruct (wvar w x) as [[t' u|n]|]; try discriminate; try (destruct (nth_error (w_wraps w) n) as [[[k o] R]|]; try discriminate).
  - destruct (is_comps k); discriminate.
  - destruct (find_attr a (table k)) as [t|]; [|discriminate]. destruct (look blank b w n a t). discriminate.
  - destruct (find_attr a (table k)) as [t|]; [|discriminate]. destruct y as [z| |]; [|discriminate|discriminate H].
    destruct (wvar w z) as [[t' v|]|]; try discriminate. destruct (vtype_eqb t' t); discriminate.
  - destruct (nth_error (w_vals w) u); discriminate.
  - destruct (is_comps k); discriminate.
  - destruct (is_comps k); discriminate.
Qed.
Lemma run_safe b l : forallb (fun p => negb (deletes p)) l = true -> forall w, irun blank b w l <> None.
Proof.
  induction l as [|p l IH]; intros H w; cbn in *; [discriminate|]. apply andb_true_iff in H. destruct H as [Hp Hl]. apply negb_true_iff in Hp.
  pose proof (step_safe b w p Hp). destruct (istep blank b w p) as [[w1 o]|]; [|congruence]. specialize (IH Hl w1). destruct (irun blank b w1 l) as [[w2 os]|]; [discriminate|congruence].
Qed.

Definition Quiet w : Prop := w_lost w = 0 /\ forall n k o R, nth_error (w_wraps w) n = Some (k, o, R) -> forall a, unfreed a = true -> R a = None.
Lemma Quiet_same w w' : w_wraps w' = w_wraps w -> w_lost w' = w_lost w -> Quiet w -> Quiet w'.
Proof. intros E1 E2 [A B]. unfold Quiet. rewrite E1, E2. auto. Qed.
Lemma Quiet_upd w w' n k o R : w_wraps w' = list_upd (w_wraps w) n (k, o, R) -> w_lost w' = w_lost w -> (forall a, unfreed a = true -> R a = None) -> Quiet w -> Quiet w'.
Proof. intros E1 E2 H [A B]. unfold Quiet. rewrite E1, E2. split; [exact A|]. intros n' k' o' R' K. apply nth_upd_inv in K. destruct K as [[_ K]|[_ K]]; [eauto|]. injection K as -> -> ->. exact H. Qed.
Lemma Quiet_add w w' k o : w_wraps w' = w_wraps w ++ [(k, o, no_names)] -> w_lost w' = w_lost w -> Quiet w -> Quiet w'.
Proof. intros E1 E2 [A B]. unfold Quiet. rewrite E1, E2. split; [exact A|]. intros n' k' o' R' K. apply nth_app_inv in K. destruct K as [K|[_ K]]; [eauto|]. injection K as -> -> ->. reflexivity. Qed.
Lemma step_quiet w p w' o : Quiet w -> clean p = true -> istep blank true w p = Some (w', o) -> Quiet w'.
Proof.
  intros Q Hp E. destruct p as [k c|t v|x|x|x|x a|x a y|x v|x|x|x c]; cbn [istep] in E; unfold ierr, new_var in E.
  - injection E as <- _. destruct (make_obj_frame blank w k c) as (Mw & _ & Ml). eapply Quiet_add; [cbn [w_wraps add_wrap]; rewrite Mw; reflexivity|exact Ml|exact Q].
  - injection E as <- _. exact Q.
  - destruct (wvar w x) as [[t' u|n]|]; try (injection E as <- _; exact Q). destruct (nth_error (w_wraps w) n) as [[[k o'] R]|] eqn:Hn; [|injection E as <- _; exact Q].
    destruct (is_comps k); injection E as <- _; [exact Q|]. eapply Quiet_add; [reflexivity|reflexivity|exact Q].
  - destruct (wvar w x); injection E as <- _; exact Q.
  - destruct (wvar w x); injection E as <- _; exact Q.
  - destruct (wvar w x) as [[t' u|n]|]; try (injection E as <- _; exact Q). destruct (nth_error (w_wraps w) n) as [[[k o'] R]|] eqn:Hn; [|injection E as <- _; exact Q].
    destruct (find_attr a (table k)) as [t|]; [|injection E as <- _; exact Q]. destruct (look blank true w n a t) as [w1 v1] eqn:El. injection E as <- _.
    apply (Quiet_same w1); [reflexivity|reflexivity|]. unfold look in El. rewrite Hn in El. destruct (R a) eqn:ER; [injection El as <- _; exact Q|].
    destruct (nth_error (w_objs w) o') as [[k' f]|]; [|injection El as <- _; exact Q]. cbn in Hp. apply negb_true_iff in Hp.
    assert (X : forall v a', unfreed a' = true -> name R a v a' = None).
    { intros v a' Ha'. unfold name. destruct (attr_eqb_ok a a') as [<-|]; [congruence|]. exact (proj2 Q _ _ _ _ Hn a' Ha'). }
    destruct (f a), (is_comps k); injection El as <- _; try exact Q; (eapply Quiet_upd; [reflexivity|reflexivity|apply X|exact Q]).
  - destruct (wvar w x) as [[t' u|n]|]; try (injection E as <- _; exact Q). destruct (nth_error (w_wraps w) n) as [[[k o'] R]|] eqn:Hn; [|injection E as <- _; exact Q].
    destruct (find_attr a (table k)) as [t|] eqn:Ef; [|injection E as <- _; exact Q]. destruct y as [z| |]; [|injection E as <- _; exact Q|destruct (is_comps k); [discriminate|injection E as <- _; exact Q]].
    destruct (wvar w z) as [[t' v|]|]; try (injection E as <- _; exact Q). destruct (vtype_eqb t' t); injection E as <- _; [|exact Q].
    unfold store. rewrite Hn. destruct (nth_error (w_objs w) o') as [[k' f]|]; [|exact Q]. cbn in Hp. apply negb_true_iff in Hp. apply orb_false_iff in Hp. destruct Hp as [Hu Hl].
    assert (Z : is_comps k || by_lang a = true) by (destruct k, a; cbn in *; congruence). rewrite Z.
    eapply Quiet_upd; [reflexivity|reflexivity| |exact Q]. intros a' Ha'. unfold name. destruct (attr_eqb_ok a a') as [<-|]; [congruence|]. exact (proj2 Q _ _ _ _ Hn a' Ha').
  - destruct (wvar w x) as [[t' u|n]|]; injection E as <- _; exact Q.
  - destruct (wvar w x) as [[t' u|n]|]; try (injection E as <- _; exact Q). destruct (nth_error (w_vals w) u); injection E as <- _; exact Q.
  - destruct (wvar w x) as [[t' u|n]|]; try (injection E as <- _; exact Q). destruct (nth_error (w_wraps w) n) as [[[k o'] R]|] eqn:Hn; [|injection E as <- _; exact Q].
    destruct (is_comps k); injection E as <- _; [|exact Q]. destruct (make_obj_frame blank w k (fun _ => None)) as (Mw & _ & Ml).
    eapply Quiet_upd; [unfold set_wrap; cbn [w_wraps]; rewrite Mw; reflexivity|exact Ml| |exact Q]. intros a' Ha'. exact (proj2 Q _ _ _ _ Hn a' Ha').
  - destruct (wvar w x) as [[t' u|n]|]; try (injection E as <- _; exact Q). destruct (nth_error (w_wraps w) n) as [[[k o'] R]|] eqn:Hn; [|injection E as <- _; exact Q].
    destruct (is_comps k); injection E as <- _; [|exact Q]. destruct (make_obj_frame blank w k c) as (Mw & _ & Ml).
    eapply Quiet_upd; [unfold set_wrap; cbn [w_wraps]; rewrite Mw; reflexivity|exact Ml| |exact Q]. reflexivity.
Qed.
Lemma run_quiet l : forall w w' os, Quiet w -> forallb clean l = true -> irun blank true w l = Some (w', os) -> Quiet w'.
Proof.
  induction l as [|p l IH]; intros w w' os Q H E; cbn [irun] in E; [injection E as <- _; exact Q|]. cbn in H. apply andb_true_iff in H. destruct H as [Hp Hl].
  destruct (istep blank true w p) as [[w1 o]|] eqn:E1; [|discriminate]. destruct (irun blank true w1 l) as [[w2 os2]|] eqn:E2; [|discriminate]. injection E as <- _.
  eapply IH; [|exact Hl|exact E2]. eapply step_quiet; eassumption.
Qed.
Lemma Quiet_lost w : Quiet w -> lost w = 0.
Proof.
  intros [A B]. unfold lost. rewrite A. cbn [Nat.add]. induction (w_wraps w) as [|[[k o] R] l IH]; [reflexivity|]. cbn [map]. rewrite lsum_cons.
  rewrite IH by (intros n; apply (B (S n))). pose proof (B 0 _ _ _ eq_refl) as H. destruct k; try reflexivity. cbn. rewrite !H by reflexivity. reflexivity.
Qed.

(** ** Programs *)
Theorem program l :
  match irun blank true empty_world l with
  | None => run blank start l = UB
  | Some (w, os) => exists s m, run blank start l = Ok (s, os) /\ finish s = Ok m /\ py_counters m = lost w /\
      (forall a c, nth_error m a = Some (Some c) -> 0 < cnt c /\
         match body c with
         | PyVal t l => exists d v, nth_error m l = Some (Some d) /\ body d = CVal v
         | CVal _ => exists p d t, nth_error m p = Some (Some d) /\ body d = PyVal t a
         | _ => False
         end)
  end.
Proof.
  pose proof (run_sim blank l _ _ (@Sim_start V)) as H. destruct (irun blank true empty_world l) as [[w os]|]; [|exact H].
  destruct H as (s & E & S). destruct (finish_sim s w S) as (m & F & P & Q). exists s, m. auto.
Qed.
Theorem clean_program l s os m : forallb clean l = true -> run blank start l = Ok (s, os) -> finish s = Ok m -> forall a, nth_error m a = Some None \/ length m <= a.
Proof.
  intros Hc E F a. pose proof (program l) as P. destruct (irun blank true empty_world l) as [[w os']|] eqn:Ew; [|congruence].
  destruct P as (s' & m' & E' & F' & Cn & Lv). rewrite E in E'. injection E' as <- <-. rewrite F in F'. injection F' as <-.
  assert (Q : Quiet w). { eapply run_quiet; [|exact Hc|exact Ew]. split; [reflexivity|]. intros n k o R H. destruct n; discriminate. }
  rewrite (Quiet_lost _ Q) in Cn.
  assert (N : forall a c t l, nth_error m a = Some (Some c) -> body c = PyVal t l -> False).
  { intros a0 c t l0 Hc0 Hb. destruct (Lv _ _ Hc0) as [Pos _]. unfold py_counters in Cn. apply nth_error_In in Hc0.
    assert (G : forall L : mem, In (Some c) L -> cnt c <= list_sum (map (fun c => match c with Some x => match body x with PyVal _ _ => cnt x | _ => 0 end | None => 0 end) L)).
    { induction L as [|x L IH]; intros H; [destruct H|]. cbn [map]. rewrite lsum_cons. destruct H as [->|H]; [rewrite Hb; lia|]. specialize (IH H). lia. }
    specialize (G m Hc0). lia. }
  destruct (nth_error m a) as [[c|]|] eqn:Ec; [|left; reflexivity|right; apply nth_error_None; exact Ec].
  exfalso. destruct (Lv _ _ Ec) as [_ K]. destruct (body c) eqn:Eb; [|exact K| |exact K].
  - destruct K as (p & d & t & Hd & Hb). exact (N _ _ _ _ Hd Hb).
  - exact (N _ _ _ _ Ec Eb).
Qed.
Theorem crash_only l p s os : run blank start l = Ok (s, os) -> step blank s p = UB ->
  exists x a n c cache, p = PSet x a ArgDel /\ var s x = Some n /\ nth_error (s_mem s) n = Some (Some c) /\
    (exists o, body c = PyObj KComps o cache) /\ styleof KComps a <> None.
Proof.
  intros E U. pose proof (run_sim blank l _ _ (@Sim_start V)) as P. destruct (irun blank true empty_world l) as [[w os']|]; [|congruence].
  destruct P as (s' & E' & HS). rewrite E in E'. injection E' as <- <-. pose proof (step_sim blank s w p HS) as A. unfold agrees in A.
  destruct (deletes p) eqn:Dp.
  - destruct p as [ | | | | | |x a [ | | ]| | | | ]; try discriminate Dp. destruct HS as (g & ca & A0 & G). pose proof (g_typ _ _ _ _ _ G) as T. pose proof (g_inv _ _ _ _ _ G) as I.
    cbn [step] in U. destruct (var_cases s w g ca A0 x G) as [[H1 H2]|[(b & t & v & H1 & H2 & H3 & H4)|(b & n & H1 & H2 & H3 & H4)]]; rewrite H1 in U.
    + discriminate U.
    + destruct (at_val _ g w ca _ b t v T I) as (l0 & xl & Ha & _); [apply in_or_app; left; exact H4|exact H3|].
      destruct (peek_body _ _ _ Ha) as (ba & Ep & Eb). rewrite Ep in U. cbn [bind] in U. rewrite Eb in U. discriminate U.
    + destruct (at_obj _ g w ca _ b n T I) as (k & c0 & cache & o & Rm & f & F & Ha & Hw & _); [apply in_or_app; left; exact H4|exact H3|].
      destruct (peek_at _ _ _ Ha) as (ba & Ep & Eb & En). rewrite Ep in U. cbn [bind] in U. rewrite Eb in U.
      destruct (styleof k a) as [st|] eqn:Es; [|discriminate U]. destruct st; try discriminate U.
      assert (k = KComps) by (destruct k, a; cbn in Es; congruence). subst k. exists x, a, b, ba, cache. split; [reflexivity|]. split; [exact H1|]. split; [exact En|]. split; [exists c0; exact Eb|]. rewrite Es. discriminate.
  - pose proof (step_safe true w p Dp) as N. destruct (istep blank true w p) as [[w1 o]|]; [|congruence]. destruct A as (s' & E' & _). congruence.
Qed.
End Facts.
