(** Attributes of Python objects: what the operations do to counted memory. *)
From Verif Require Import CStr CStrFacts CountMem CountMemFacts PyAttrModel.

Section Facts.
Context {V : Type}.
Variable blank : vtype -> V.
Definition rank (b : pbody V) : nat := match b with CVal _ => 0 | CObj _ _ => 1 | PyVal _ _ => 1 | PyObj _ _ _ => 2 end.
Notation mem := (mem (pbody V)).
Notation Inv := (Inv kids rank).
Implicit Types (m : mem) (R : list nat).
Definition oo (x : option nat) : list nat := match x with Some a => [a] | None => [] end.
(** The cached objects that no destructor releases. *)
Definition lostattrs (k : kind) : list attr := match k with KComps => [ALangpacks; ABlacklist; AWhiteout] | _ => [] end.

Lemma attr_eqb_ok a b : reflect (a = b) (attr_eqb a b).
Proof. destruct a, b; constructor; congruence. Qed.
Lemma vtype_eqb_ok a b : reflect (a = b) (vtype_eqb a b).
Proof. destruct a, b; constructor; congruence. Qed.
Lemma upd_eq s a x : upd s a x a = x.
Proof. unfold upd. destruct (attr_eqb_ok a a); congruence. Qed.
Lemma upd_neq s a b x : a <> b -> upd s a x b = s b.
Proof. unfold upd. intros H. destruct (attr_eqb_ok a b); congruence. Qed.
Lemma opts_upd_notin s a x l : ~ In a l -> opts (upd s a x) l = opts s l.
Proof.
  unfold opts. induction l as [|b l IH]; intros H; cbn; [reflexivity|].
  rewrite upd_neq by (intros ->; apply H; left; reflexivity). rewrite IH; [reflexivity|]. intros K. apply H. right. exact K.
Qed.
Lemma opts_upd s a x l : NoDup l -> In a l -> forall q, occ q (opts (upd s a x) l) + occ q (oo (s a)) = occ q (opts s l) + occ q (oo x).
Proof.
  induction l as [|b l IH]; intros ND H q; [destruct H|]. inversion ND as [|? ? N ND']; subst.
  change (opts (upd s a x) (b :: l)) with (oo (upd s a x b) ++ opts (upd s a x) l). change (opts s (b :: l)) with (oo (s b) ++ opts s l).
  destruct (attr_eqb_ok a b) as [<-|E].
  - rewrite upd_eq, opts_upd_notin by assumption. rewrite !occ_app. unfold oo. lia.
  - rewrite upd_neq by assumption. rewrite !occ_app. destruct H as [->|H]; [congruence|]. specialize (IH ND' H q). lia.
Qed.
Lemma fields_nodup k : NoDup (fields k).
Proof. destruct k; repeat constructor; cbn; intuition discriminate. Qed.
Lemma styled k a st : styleof k a = Some st -> In a (fields k).
Proof. destruct k, a; cbn; intros H; try discriminate; auto 8. Qed.
(** Every cached object is released by the destructor or never. *)
Lemma cache_upd k a st s x q : styleof k a = Some st ->
  occ q (opts (upd s a x) (freed k)) + occ q (opts (upd s a x) (lostattrs k)) + occ q (oo (s a)) =
  occ q (opts s (freed k)) + occ q (opts s (lostattrs k)) + occ q (oo x).
Proof.
  intros H.
  assert (F : NoDup (freed k)) by (destruct k; repeat constructor; cbn; intuition discriminate).
  assert (L : NoDup (lostattrs k)) by (destruct k; repeat constructor; cbn; intuition discriminate).
  assert (C : In a (freed k) /\ ~ In a (lostattrs k) \/ ~ In a (freed k) /\ In a (lostattrs k)).
  { clear F L. destruct k, a; cbn in H; try discriminate; cbn; intuition discriminate. }
  destruct C as [[C1 C2]|[C1 C2]].
  - rewrite (opts_upd_notin _ _ _ _ C2). pose proof (opts_upd s a x _ F C1 q). lia.
  - rewrite (opts_upd_notin _ _ _ _ C1). pose proof (opts_upd s a x _ L C2 q). lia.
Qed.
Lemma opts_empty l : opts empty_slots l = [].
Proof. induction l; cbn; auto. Qed.
Lemma cache_all k s q : occ q (opts s (fields k)) = occ q (opts s (freed k)) + occ q (opts s (lostattrs k)).
Proof. unfold opts. destruct k; cbn [fields freed lostattrs flat_map]; rewrite ?occ_app; cbn; lia. Qed.
Lemma rank_le b : rank b <= 2. Proof. destruct b; cbn; lia. Qed.
Lemma rank_at_lt m a : rank_at rank m a < 3.
Proof. unfold rank_at. destruct (at_ m a); [pose proof (rank_le p)|]; lia. Qed.
Lemma rel_ok m a R : Inv m (a :: R) -> exists m', rel m a = Ok m' /\ Inv m' R /\ shrinks m m'.
Proof. intros I. apply (release_ok kids rank 3 m a R I). apply rank_at_lt. Qed.
Lemma rel_all_ok l : forall m R, Inv m (l ++ R) -> exists m', rel_all m l = Ok m' /\ Inv m' R /\ shrinks m m'.
Proof.
  induction l as [|a l IH]; intros m R I; cbn [rel_all].
  - exists m. split; [reflexivity|]. split; [exact I|apply shrinks_refl].
  - destruct (rel_ok m a (l ++ R) I) as (m1 & E1 & I1 & S1). rewrite E1. cbn [bind].
    destruct (IH m1 R I1) as (m2 & E2 & I2 & S2). exists m2. split; [exact E2|]. split; [exact I2|]. eapply shrinks_trans; eassumption.
Qed.

(** ** Cells nothing refers to *)
Definition unpointed m x : Prop := forall p b, at_ m p = Some b -> ~ In x (kids b).
Lemma top_unpointed m R x k c s : Inv m R -> at_ m x = Some (PyObj k c s) -> unpointed m x.
Proof. intros I H p b Hp K. pose proof (inv_rank _ _ _ _ I _ _ _ _ Hp K H) as L. cbn in L. pose proof (rank_le b). lia. Qed.
Lemma fresh_unpointed m R (b : pbody V) : Inv m R -> unpointed m (length m) /\ (In (length m) (kids b ++ R) -> ~ Inv m (kids b ++ R)).
Proof.
  intros I. split.
  - intros p x Hp K. destruct (kid_live _ _ _ _ _ _ _ I Hp K) as [y Hy]. apply at_lt in Hy. lia.
  - intros H J. destruct (root_live _ _ _ _ _ J H) as [y Hy]. apply at_lt in Hy. lia.
Qed.
Lemma shrinks_unpointed m m' x : shrinks m m' -> unpointed m x -> unpointed m' x.
Proof. intros [_ S] U p b Hp. apply U with (p := p). apply S. exact Hp. Qed.
(** The body of a cell whose references have been taken away. *)
Definition hole : pbody V := CObj KComps empty_slots.
Lemma open_ok m R x b : Inv m R -> at_ m x = Some b -> unpointed m x ->
  exists m0, Inv m0 (kids b ++ R) /\ differ x m m0 /\ unpointed m0 x /\ length m0 = length m /\
             (forall q, at_ m0 q = if Nat.eq_dec x q then Some hole else at_ m q).
Proof.
  intros I H U. destruct (put_ok2 kids rank m R (kids b ++ R) x b hole I H) as (m0 & E & I0 & L & A).
  - intros q. cbn. rewrite occ_app. lia.
  - intros k c []. 
  - intros p bp Hp K. exfalso. exact (U _ _ Hp K).
  - exists m0. split; [exact I0|]. split; [eapply differ_put; exact E|]. split; [|auto].
    intros p bp Hp. rewrite A in Hp. destruct (Nat.eq_dec x p); [injection Hp as <-; cbn; auto|]. eapply U; eassumption.
Qed.
Lemma close_ok m m0 R x b b' : differ x m m0 -> Inv m0 (kids b' ++ R) -> at_ m0 x = Some b -> kids b = [] -> unpointed m0 x ->
  (forall k c, In k (kids b') -> at_ m0 k = Some c -> k <> x /\ rank c < rank b') ->
  exists m', put m x b' = Ok m' /\ Inv m' R /\ length m' = length m0 /\ (forall q, at_ m' q = if Nat.eq_dec x q then Some b' else at_ m0 q).
Proof.
  intros D I H Hb U K. rewrite (differ_close _ _ _ _ D).
  apply (put_ok2 kids rank m0 (kids b' ++ R) R x b b' I H).
  - intros q. rewrite Hb, occ_app. cbn. lia.
  - exact K.
  - intros p bp Hp Hk. exfalso. exact (U _ _ Hp Hk).
Qed.
Lemma under_rel x m m0 a R : differ x m m0 -> unpointed m0 x -> a <> x -> Inv m0 (a :: R) ->
  exists m' m0', rel m a = Ok m' /\ differ x m' m0' /\ Inv m0' R /\ shrinks m0 m0' /\ unpointed m0' x.
Proof.
  intros D U N I. destruct (rel_ok m0 a R I) as (m0' & E & I' & S).
  destruct (differ_release kids 3 (fun q => q <> x) x m m0 a m0' D N) with (3 := E) as (m' & E' & D').
  - tauto.
  - intros p b k _ Hp Hk ->. exact (U _ _ Hp Hk).
  - exists m', m0'. split; [exact E'|]. split; [exact D'|]. split; [exact I'|]. split; [exact S|]. eapply shrinks_unpointed; eassumption.
Qed.
Lemma under_rel_all x l : forall m m0 R, differ x m m0 -> unpointed m0 x -> ~ In x l -> Inv m0 (l ++ R) ->
  exists m' m0', rel_all m l = Ok m' /\ differ x m' m0' /\ Inv m0' R /\ shrinks m0 m0' /\ unpointed m0' x.
Proof.
  induction l as [|a l IH]; intros m m0 R D U N I; cbn [rel_all].
  - exists m, m0. split; [reflexivity|]. split; [exact D|]. split; [exact I|]. split; [apply shrinks_refl|exact U].
  - destruct (under_rel x m m0 a (l ++ R) D U) as (m1 & m1' & E1 & D1 & I1 & S1 & U1); [intros ->; apply N; left; reflexivity|exact I|].
    rewrite E1. cbn [bind]. destruct (IH m1 m1' R D1 U1) as (m2 & m2' & E2 & D2 & I2 & S2 & U2); [intros K; apply N; right; exact K|exact I1|].
    exists m2, m2'. split; [exact E2|]. split; [exact D2|]. split; [exact I2|]. split; [eapply shrinks_trans; eassumption|exact U2].
Qed.
Lemma under_rel_opt x m m0 o R : differ x m m0 -> unpointed m0 x -> o <> Some x -> Inv m0 (oo o ++ R) ->
  exists m' m0', rel_opt m o = Ok m' /\ differ x m' m0' /\ Inv m0' R /\ shrinks m0 m0' /\ unpointed m0' x.
Proof.
  intros D U N I. destruct o as [a|]; cbn [rel_opt].
  - apply under_rel; try assumption. congruence.
  - exists m, m0. split; [reflexivity|]. split; [exact D|]. split; [exact I|]. split; [apply shrinks_refl|exact U].
Qed.
Lemma under_incr x m m0 a b R : differ x m m0 -> unpointed m0 x -> a <> x -> Inv m0 R -> at_ m0 a = Some b ->
  exists m' m0', incr m a = Ok m' /\ differ x m' m0' /\ Inv m0' (a :: R) /\ unpointed m0' x /\ length m0' = length m0 /\ (forall q, at_ m0' q = at_ m0 q).
Proof.
  intros D U N I H. destruct (incr_ok kids rank m0 R a b I H) as (m0' & E & I' & L & A).
  destruct (differ_incr x m m0 a m0' D N E) as (m' & E' & D').
  exists m', m0'. split; [exact E'|]. split; [exact D'|]. split; [exact I'|]. split; [|auto].
  intros p bp Hp. rewrite A in Hp. eapply U; eassumption.
Qed.
Lemma differ_at x m m0 : differ x m m0 -> exists b, at_ m0 x = Some b.
Proof. intros (_ & _ & y & y0 & _ & H & _). unfold at_. rewrite H. eauto. Qed.

(** ** New objects *)
Lemma new_fields_app k c l : forall m, exists e f, new_fields blank m k c l = (m ++ e, f) /\
  forall m0, length m0 = length m -> new_fields blank m0 k c l = (m0 ++ e, f).
Proof.
  induction l as [|a l IH]; intros m; cbn.
  - exists [], empty_slots. rewrite app_nil_r. split; [reflexivity|]. intros m0 _. rewrite app_nil_r. reflexivity.
  - destruct (IH m) as (e & f & E & H). rewrite E.
    destruct (c a) as [v|] eqn:Ec; [|destruct k].
    5: { exists e, f. split; [reflexivity|]. intros m0 L. rewrite (H m0 L). reflexivity. }
    all: unfold alloc; eexists (e ++ [_]), _; rewrite app_assoc; (split; [reflexivity|]);
         intros m0 L; rewrite (H m0 L), app_assoc; rewrite !app_length, L; reflexivity.
Qed.
Lemma new_fields_inv k c l : NoDup l -> forall m R, Inv m R -> forall m' f, new_fields blank m k c l = (m', f) ->
  Inv m' (opts f l ++ R) /\ length m <= length m' /\ (forall q, q < length m -> at_ m' q = at_ m q) /\
  (forall q, length m <= q < length m' -> exists v, at_ m' q = Some (CVal v)) /\
  (forall a x, f a = Some x -> length m <= x < length m') /\ (forall a, ~ In a l -> f a = None).
Proof.
  induction l as [|a l IH]; intros ND m R I m' f E; cbn in E.
  - injection E as <- <-. cbn. split; [exact I|]. split; [lia|]. split; [auto|]. split; [intros; lia|]. split; [discriminate|reflexivity].
  - inversion ND as [|? ? N ND']; subst.
    destruct (new_fields blank m k c l) as [m1 f1] eqn:E1.
    destruct (IH ND' m R I m1 f1 E1) as (I1 & L1 & O1 & C1 & F1 & N1).
    assert (New : forall x, (m', f) = (let (m2, y) := alloc m1 (CVal x) in (m2, upd f1 a (Some y))) ->
      Inv m' (opts f (a :: l) ++ R) /\ length m <= length m' /\ (forall q, q < length m -> at_ m' q = at_ m q) /\
      (forall q, length m <= q < length m' -> exists v, at_ m' q = Some (CVal v)) /\
      (forall b x, f b = Some x -> length m <= x < length m') /\ (forall b, ~ In b (a :: l) -> f b = None)).
    { intros x Hx. injection Hx as -> ->.
      assert (Ln : length (m1 ++ [Some (mkC 1 (CVal x))]) = S (length m1)) by (rewrite app_length; cbn; lia).
      split; [|split; [lia|split; [|split; [|split]]]].
      - cbn. change (flat_map _ l) with (opts (upd f1 a (Some (length m1))) l). rewrite upd_eq, opts_upd_notin by assumption. cbn.
        apply (Inv_alloc kids rank m1 (opts f1 l ++ R) (CVal x)); [exact I1|intros ? ? []].
      - intros q Hq. rewrite <- O1 by assumption. apply (at_alloc_old m1 (CVal x) q). lia.
      - intros q Hq. destruct (Nat.eq_dec q (length m1)) as [->|Nq].
        + exists x. apply (at_alloc_new m1 (CVal x)).
        + destruct (C1 q) as [v Hv]; [lia|]. exists v. rewrite <- Hv. apply (at_alloc_old m1 (CVal x) q). lia.
      - intros b y. unfold upd. destruct (attr_eqb a b); [intros H; injection H as <-; lia|intros H; specialize (F1 _ _ H); lia].
      - intros b Hb. rewrite upd_neq; [apply N1; intros K; apply Hb; right; exact K|intros ->; apply Hb; left; reflexivity]. }
    destruct (c a) as [v|] eqn:Ec; [|destruct k].
    1-4: eapply New; symmetry; exact E.
    injection E as <- <-. split; [|split; [lia|split; [exact O1|split; [exact C1|split; [exact F1|]]]]].
    + cbn. rewrite (N1 a N). cbn. exact I1.
    + intros b Hb. apply N1. intros K. apply Hb. right. exact K.
Qed.
Lemma new_obj_inv m R k c : Inv m R -> exists m' o f, new_obj blank m k c = (m', o) /\ Inv m' (o :: R) /\ length m <= o /\ length m' = S o /\
  (forall q, q < length m -> at_ m' q = at_ m q) /\ at_ m' o = Some (CObj k f).
Proof.
  intros I. unfold new_obj. destruct (new_fields blank m k c (fields k)) as [m1 f] eqn:E.
  destruct (new_fields_inv k c (fields k) (fields_nodup k) m R I m1 f E) as (I1 & L1 & O1 & C1 & F1 & N1).
  exists (fst (alloc m1 (CObj k f))), (length m1), f. split; [reflexivity|]. split.
  { apply (Inv_alloc kids rank m1 R (CObj k f)); [exact I1|]. intros q b Hq Hb.
    assert (Lq : length m <= q < length m1).
    { cbn in Hq. unfold opts in Hq. apply in_flat_map in Hq. destruct Hq as (a & _ & Hq). destruct (f a) as [y|] eqn:Ef; [|destruct Hq].
      destruct Hq as [->|[]]. exact (F1 _ _ Ef). }
    destruct (C1 q Lq) as [v Hv]. rewrite Hv in Hb. injection Hb as <-. cbn. lia. }
  split; [exact L1|]. split; [unfold alloc; cbn; rewrite app_length; cbn; lia|]. split.
  - intros q Hq. rewrite at_alloc_old by lia. auto.
  - apply at_alloc_new.
Qed.
Lemma new_obj_app m k c : exists e o, new_obj blank m k c = (m ++ e, o) /\ forall m0, length m0 = length m -> new_obj blank m0 k c = (m0 ++ e, o).
Proof.
  unfold new_obj. destruct (new_fields_app k c (fields k) m) as (e & f & E & H). rewrite E. unfold alloc.
  eexists (e ++ [_]), _. rewrite app_assoc. split; [reflexivity|]. intros m0 L. rewrite (H m0 L). rewrite app_assoc, !app_length, L. reflexivity.
Qed.

(** ** What the program still holds *)
Inductive path m R : nat -> Prop :=
| path_root a : In a R -> path m R a
| path_kid p b a : path m R p -> at_ m p = Some b -> In a (kids b) -> path m R a.
Lemma path_live m R a : Inv m R -> path m R a -> exists b, at_ m a = Some b.
Proof.
  intros I H. destruct H as [a H|p b a _ H K].
  - eapply root_live; eassumption.
  - eapply kid_live; eassumption.
Qed.
Lemma path_keep m m' R R' a : Inv m' R' -> (forall r, In r R -> In r R') ->
  (forall p b b', at_ m p = Some b -> at_ m' p = Some b' -> b' = b) -> path m R a -> path m' R' a.
Proof.
  intros I HR HB H. induction H as [a H|p b a H IH Hp K].
  - apply path_root. auto.
  - destruct (path_live _ _ _ I IH) as [b' Hb']. pose proof (HB _ _ _ Hp Hb') as ->. eapply path_kid; eassumption.
Qed.
Lemma path_body m m' R R' a b : Inv m' R' -> (forall r, In r R -> In r R') ->
  (forall p b b', at_ m p = Some b -> at_ m' p = Some b' -> b' = b) -> path m R a -> at_ m a = Some b -> at_ m' a = Some b.
Proof.
  intros I HR HB H Ha. destruct (path_live _ _ _ I (path_keep _ _ _ _ _ I HR HB H)) as [b' Hb']. rewrite (HB _ _ _ Ha Hb') in Hb'. exact Hb'.
Qed.

(** ** A Python object for a list that is there already *)
Lemma wrap_ok m R t c xc : Inv m R -> path m R c -> at_ m c = Some (CVal xc) ->
  exists m', wrap blank m t c = Ok (m', S (length m)) /\ Inv m' (S (length m) :: R) /\ length m' = S (S (length m)) /\
  (forall q b, at_ m' q = Some b -> at_ m q = Some b \/ q = length m \/ q = S (length m) /\ b = PyVal t c).
Proof.
  intros I Pc Hc. pose proof (at_lt _ _ _ Hc) as Lc.
  pose proof (Inv_alloc kids rank m R (CVal (blank t)) I ltac:(intros ? ? [])) as I1.
  pose proof (at_alloc_new m (CVal (blank t))) as A1. pose proof (at_alloc_old m (CVal (blank t))) as O1. pose proof (at_alloc m (CVal (blank t))) as D1.
  unfold wrap. unfold alloc at 1. change (m ++ [Some (mkC 1 (CVal (blank t)))]) with (fst (alloc m (CVal (blank t)))).
  assert (L1 : length (fst (alloc m (CVal (blank t)))) = S (length m)) by (unfold alloc; cbn; rewrite app_length; cbn; lia).
  set (m1 := fst (alloc m (CVal (blank t)))) in *. clearbody m1.
  assert (I2 : Inv (fst (alloc m1 (PyVal t (length m)))) (length m1 :: R)).
  { apply Inv_alloc; [exact I1|]. intros k b Hk Hb. cbn in Hk. destruct Hk as [<-|[]]. rewrite A1 in Hb. injection Hb as <-. cbn. lia. }
  pose proof (at_alloc_new m1 (PyVal t (length m))) as A2. pose proof (at_alloc_old m1 (PyVal t (length m))) as O2. pose proof (at_alloc m1 (PyVal t (length m))) as D2.
  assert (U2 : unpointed (fst (alloc m1 (PyVal t (length m)))) (length m1)).
  { intros p b Hp K. apply D2 in Hp. destruct Hp as [Hp|[-> ->]].
    - exact (proj1 (fresh_unpointed _ _ (CVal (blank t)) I1) _ _ Hp K).
    - cbn in K. destruct K as [K|[]]. lia. }
  unfold alloc at 1. change (m1 ++ [Some (mkC 1 (PyVal t (length m)))]) with (fst (alloc m1 (PyVal t (length m)))).
  assert (L2 : length (fst (alloc m1 (PyVal t (length m)))) = S (S (length m))) by (unfold alloc; cbn; rewrite app_length; cbn; lia).
  set (m2 := fst (alloc m1 (PyVal t (length m)))) in *. clearbody m2.
  destruct (open_ok m2 (length m1 :: R) (length m1) _ I2 A2 U2) as (h2 & J2 & Df2 & V2 & Lh2 & Ah2).
  destruct (under_rel (length m1) m2 h2 (length m) (length m1 :: R) Df2 V2) as (m3 & h3 & E3 & Df3 & J3 & S3 & V3); [lia|exact J2|].
  rewrite E3. cbn [bind].
  assert (Old : forall q b, at_ h3 q = Some b -> q = length m1 /\ b = hole \/ q < length m1 /\ (at_ m q = Some b \/ q = length m)).
  { intros q b Hq. apply (proj2 S3) in Hq. rewrite Ah2 in Hq. destruct (Nat.eq_dec (length m1) q) as [<-|N]; [injection Hq as <-; auto|].
    right. apply D2 in Hq. destruct Hq as [Hq|[-> _]]; [|lia]. split; [apply at_lt in Hq; exact Hq|].
    apply D1 in Hq. destruct Hq as [Hq|[-> _]]; auto. }
  assert (Hc3 : at_ h3 c = Some (CVal xc)).
  { apply (path_body m h3 R (length m1 :: R) c _ J3); [intros r Hr; right; exact Hr| |exact Pc|exact Hc].
    intros p b b' Hp Hp'. pose proof (at_lt _ _ _ Hp). destruct (Old _ _ Hp') as [[-> _]|[_ [Hp''| ->]]]; [lia|congruence|lia]. }
  destruct (under_incr (length m1) m3 h3 c (CVal xc) (length m1 :: R) Df3 V3 ltac:(lia) J3 Hc3) as (m4 & h4 & E4 & Df4 & J4 & V4 & L4 & A4).
  rewrite E4. cbn [bind].
  destruct (differ_at _ _ _ Df4) as [bx Hbx].
  assert (bx = hole).
  { rewrite A4 in Hbx. destruct (Old _ _ Hbx) as [[_ H]|[H _]]; [exact H|lia]. }
  subst bx.
  destruct (close_ok m4 h4 (length m1 :: R) (length m1) hole (PyVal t c) Df4 J4 Hbx eq_refl V4) as (m5 & E5 & J5 & L5 & A5).
  { intros k b Hk Hb. cbn in Hk. destruct Hk as [<-|[]]. split; [lia|]. rewrite A4, Hc3 in Hb. injection Hb as <-. cbn. lia. }
  rewrite E5. cbn [bind]. rewrite <- L1. exists m5. split; [reflexivity|]. split; [exact J5|].
  split; [rewrite L5, L4, (proj1 S3), Lh2, L2; lia|].
  intros q b Hq. rewrite A5 in Hq. destruct (Nat.eq_dec (length m1) q) as [<-|N]; [injection Hq as <-; auto|].
  rewrite A4 in Hq. destruct (Old _ _ Hq) as [[-> _]|[_ [H|H]]]; [congruence|auto|auto].
Qed.

(** ** Replacing a field of an object *)
Lemma opts_ext s s' l : (forall a, s a = s' a) -> opts s l = opts s' l.
Proof. intros H. unfold opts. induction l as [|a l IH]; cbn; [reflexivity|]. rewrite H, IH. reflexivity. Qed.
Lemma field_put m R c k f a x f' : Inv m R -> at_ m c = Some (CObj k f) -> In a (fields k) -> (forall y b, x = Some y -> at_ m y = Some b -> exists v, b = CVal v) ->
  (forall b, f' b = upd f a x b) ->
  forall R', (forall q, occ q (oo x) + occ q R' = occ q (oo (f a)) + occ q R) ->
  exists m', put m c (CObj k f') = Ok m' /\ Inv m' R' /\ length m' = length m /\
             (forall q, at_ m' q = if Nat.eq_dec c q then Some (CObj k f') else at_ m q).
Proof.
  intros I H Ha Hx Hf R' HR. apply (put_ok kids rank m R R' c _ _ I H); [|intros q b Hq Hb|reflexivity].
  - intros q. cbn [kids]. rewrite (opts_ext _ _ _ Hf). pose proof (opts_upd f a x (fields k) (fields_nodup k) Ha q). specialize (HR q). lia.
  - cbn [kids] in Hq. rewrite (opts_ext _ _ _ Hf) in Hq. unfold opts in Hq. apply in_flat_map in Hq. destruct Hq as (a' & Ha' & Hq). unfold upd in Hq. destruct (attr_eqb_ok a a') as [<-|N].
    + destruct x as [y|]; [|destruct Hq]. destruct Hq as [->|[]]. destruct (Hx _ _ eq_refl Hb) as [v ->]. cbn. lia.
    + change (rank b < rank (CObj k f)). apply (inv_rank _ _ _ _ I c q _ _ H); [|exact Hb]. cbn. unfold opts. apply in_flat_map. exists a'. auto.
Qed.
Definition over (m m' : mem) c b' : Prop := length m' = length m /\ forall q b, at_ m' q = Some b -> c <> q /\ at_ m q = Some b \/ c = q /\ b = b'.
(** Releasing the old list with the object still referring to it. *)
Lemma drop_field m R c k f a : Inv m R -> at_ m c = Some (CObj k f) -> In a (fields k) ->
  (forall y, f a = Some y -> exists v, at_ m y = Some (CVal v)) ->
  exists m1 h1, rel_opt m (f a) = Ok m1 /\ differ c m1 h1 /\ Inv h1 R /\ at_ h1 c = Some (CObj k (upd f a None)) /\
    length h1 = length m /\ (forall q b, at_ h1 q = Some b -> q <> c -> at_ m q = Some b).
Proof.
  intros I H Ha Hold.
  destruct (field_put m R c k f a None _ I H Ha ltac:(discriminate) (fun _ => eq_refl) (oo (f a) ++ R)) as (h0 & E0 & J0 & L0 & A0); [intros q; rewrite occ_app; reflexivity|].
  pose proof (differ_put _ _ _ _ E0) as D0.
  assert (X : exists m1 h1, rel_opt m (f a) = Ok m1 /\ differ c m1 h1 /\ Inv h1 R /\ shrinks h0 h1).
  { destruct (f a) as [old|] eqn:Ef; cbn [rel_opt oo app] in *.
    - destruct (Hold _ eq_refl) as [v Hv]. destruct (rel_ok h0 old R J0) as (h1 & E1 & J1 & S1).
      destruct (differ_release kids 3 (fun q => q = old) c m h0 old h1 D0 eq_refl) with (3 := E1) as (m1 & E1' & D1).
      + intros ->. congruence.
      + intros p b q -> Hp Hq. rewrite A0 in Hp. destruct (Nat.eq_dec c old) as [->|]; [congruence|]. rewrite Hv in Hp. injection Hp as <-. destruct Hq.
      + eauto 8.
    - exists m, h0. split; [reflexivity|]. split; [exact D0|]. split; [exact J0|]. apply shrinks_refl. }
  destruct X as (m1 & h1 & E1 & D1 & J1 & S1). exists m1, h1. split; [exact E1|]. split; [exact D1|]. split; [exact J1|].
  split; [|split; [rewrite (proj1 S1); exact L0|]].
  - destruct (differ_at _ _ _ D1) as [b Hb]. rewrite Hb. apply S1 in Hb. rewrite A0 in Hb. destruct (Nat.eq_dec c c); congruence.
  - intros q b Hq N. apply S1 in Hq. rewrite A0 in Hq. destruct (Nat.eq_dec c q); [congruence|exact Hq].
Qed.
(** The old list is released, then the new one counted: __PyCOMPS_set_ids, __PyCOMPS_set_dict. *)
Lemma swap_field1 m R c k f a l xl : Inv m R -> at_ m c = Some (CObj k f) -> In a (fields k) ->
  (forall y, f a = Some y -> exists v, at_ m y = Some (CVal v)) -> l <> c ->
  (forall m', Inv m' R -> (forall p b, at_ m' p = Some b -> p <> c -> at_ m p = Some b) -> at_ m' l = Some (CVal xl)) ->
  exists m1 m2 m', rel_opt m (f a) = Ok m1 /\ incr m1 l = Ok m2 /\ put m2 c (CObj k (upd f a (Some l))) = Ok m' /\
    Inv m' R /\ over m m' c (CObj k (upd f a (Some l))).
Proof.
  intros I H Ha Hold Nl Hl. destruct (drop_field m R c k f a I H Ha Hold) as (m1 & h1 & E1 & D1 & J1 & C1 & L1 & A1).
  pose proof (Hl _ J1 A1) as Hl1.
  destruct (incr_ok kids rank h1 R l _ J1 Hl1) as (h2 & E2 & J2 & L2 & A2).
  destruct (differ_incr c m1 h1 l h2 D1 Nl E2) as (m2 & E2' & D2). exists m1, m2.
  destruct (field_put h2 (l :: R) c k (upd f a None) a (Some l) (upd f a (Some l)) J2) with (R' := R) as (h3 & E3 & J3 & L3 & A3).
  { rewrite A2. exact C1. }
  { exact Ha. }
  { intros y b Hy Hb. injection Hy as <-. rewrite A2, Hl1 in Hb. injection Hb as <-. eauto. }
  { intros b. unfold upd. destruct (attr_eqb a b); reflexivity. }
  { intros q. rewrite upd_eq. cbn [oo]. rewrite !occ_cons. cbn. lia. }
  exists h3. split; [exact E1|]. split; [exact E2'|]. split; [rewrite (differ_close _ _ _ _ D2); exact E3|]. split; [exact J3|].
  split; [congruence|]. intros q b Hq. rewrite A3 in Hq. destruct (Nat.eq_dec c q) as [<-|N]; [injection Hq as <-; auto|].
  left. split; [exact N|]. rewrite A2 in Hq. apply A1; [exact Hq|congruence].
Qed.
(** The new list is counted, then the old one released: comps_objdict_set. *)
Lemma swap_field2 m R c k f a l xl : Inv m R -> at_ m c = Some (CObj k f) -> In a (fields k) ->
  (forall y, f a = Some y -> exists v, at_ m y = Some (CVal v)) -> at_ m l = Some (CVal xl) ->
  (forall m', Inv m' (l :: R) -> (forall p b, at_ m' p = Some b -> p <> c -> at_ m p = Some b) -> at_ m' l = Some (CVal xl)) ->
  exists m1 m2 m', incr m l = Ok m1 /\ rel_opt m1 (f a) = Ok m2 /\ put m2 c (CObj k (upd f a (Some l))) = Ok m' /\
    Inv m' R /\ over m m' c (CObj k (upd f a (Some l))).
Proof.
  intros I H Ha Hold Hl Hl'. destruct (incr_ok kids rank m R l _ I Hl) as (m1 & E1 & J1 & L1 & A1).
  destruct (drop_field m1 (l :: R) c k f a J1) as (m2 & h2 & E2 & D2 & J2 & C2 & L2 & A2); [rewrite A1; exact H|exact Ha|intros y Hy; rewrite A1; auto|].
  assert (A2' : forall q b, at_ h2 q = Some b -> q <> c -> at_ m q = Some b) by (intros q b Hq N; rewrite <- A1; apply A2; assumption).
  pose proof (Hl' _ J2 A2') as Hl2.
  destruct (field_put h2 (l :: R) c k (upd f a None) a (Some l) (upd f a (Some l)) J2) with (R' := R) as (h3 & E3 & J3 & L3 & A3).
  { exact C2. }
  { exact Ha. }
  { intros y b Hy Hb. injection Hy as <-. rewrite Hl2 in Hb. injection Hb as <-. eauto. }
  { intros b. unfold upd. destruct (attr_eqb a b); reflexivity. }
  { intros q. rewrite upd_eq. cbn [oo]. rewrite !occ_cons. cbn. lia. }
  exists m1, m2, h3. split; [exact E1|]. split; [exact E2|]. split; [rewrite (differ_close _ _ _ _ D2); exact E3|]. split; [exact J3|].
  split; [congruence|]. intros q b Hq. rewrite A3 in Hq. destruct (Nat.eq_dec c q) as [<-|N]; [injection Hq as <-; auto|].
  left. split; [exact N|]. apply A2'; [exact Hq|congruence].
Qed.
End Facts.
