(** Counted memory: counters are exact, and releasing keeps them exact. *)
From Verif Require Import CStr CStrFacts CountMem.

Section Facts.
Context {B : Type}.
Variable kids : B -> list nat.
Variable rank : B -> nat.
Implicit Types (m : mem B) (a : nat) (R : list nat).

Definition occ (a : nat) (l : list nat) : nat := count_occ Nat.eq_dec l a.
Definition at_ m a : option B := match nth_error m a with Some (Some c) => Some (body c) | _ => None end.
Definition count m a : nat := match nth_error m a with Some (Some c) => cnt c | _ => 0 end.
Definition held1 (c : option (cell B)) a : nat := match c with Some x => occ a (kids (body x)) | None => 0 end.
Fixpoint held m a : nat := match m with [] => 0 | c :: r => held1 c a + held r a end.
(** Counters are the numbers of references: from [R] (variables of the program,
    leaked references) and from live cells. *)
Record Inv m R : Prop := mkInv {
  inv_cnt : forall a, count m a = occ a R + held m a;
  inv_pos : forall a c, nth_error m a = Some (Some c) -> 0 < cnt c;
  inv_rank : forall a k b c, at_ m a = Some b -> In k (kids b) -> at_ m k = Some c -> rank c < rank b }.
(** What a release leaves. *)
Definition shrinks m m' : Prop := length m' = length m /\ forall a b, at_ m' a = Some b -> at_ m a = Some b.

Lemma occ_app a l r : occ a (l ++ r) = occ a l + occ a r.
Proof. apply count_occ_app. Qed.
Lemma occ_cons a x r : occ a (x :: r) = (if Nat.eq_dec x a then 1 else 0) + occ a r.
Proof. unfold occ. cbn. destruct (Nat.eq_dec x a); reflexivity. Qed.
Lemma occ_in a l : In a l <-> 0 < occ a l.
Proof. unfold occ. rewrite (count_occ_In Nat.eq_dec). unfold gt. reflexivity. Qed.
Lemma shrinks_refl m : shrinks m m. Proof. split; auto. Qed.
Lemma shrinks_trans m1 m2 m3 : shrinks m1 m2 -> shrinks m2 m3 -> shrinks m1 m3.
Proof. intros [L H] [L' H']. split; [congruence|auto]. Qed.
Lemma upd_same {A} (l : list A) i x : i < length l -> nth_error (list_upd l i x) i = Some x.
Proof. revert i. induction l as [|y l IH]; intros [|i] H; cbn in *; try lia; [reflexivity|apply IH; lia]. Qed.
Lemma upd_other {A} (l : list A) i j x : i <> j -> nth_error (list_upd l i x) j = nth_error l j.
Proof. revert i j. induction l as [|y l IH]; intros [|i] [|j] H; cbn; try reflexivity; try congruence. apply IH. congruence. Qed.
Lemma held_upd m i c a : nth_error m i = Some c -> forall c', held (list_upd m i c') a + held1 c a = held m a + held1 c' a.
Proof.
  intros H c'. revert i H. induction m as [|x m IH]; intros [|i] H; cbn in *; try discriminate.
  - injection H as ->. lia.
  - specialize (IH _ H). lia.
Qed.
Lemma held_app m1 m2 a : held (m1 ++ m2) a = held m1 a + held m2 a.
Proof. induction m1 as [|c m IH]; cbn; [reflexivity|rewrite IH; lia]. Qed.
Lemma held_pos m a : 0 < held m a -> exists b x, at_ m b = Some x /\ In a (kids x).
Proof.
  induction m as [|c m IH]; cbn; [lia|]. intros H.
  destruct c as [c|]; cbn in H.
  - destruct (occ a (kids (body c))) eqn:E.
    + destruct (IH H) as (b & x & Hb & Hx). exists (S b), x. split; assumption.
    + exists 0, (body c). split; [reflexivity|]. apply occ_in. lia.
  - destruct (IH H) as (b & x & Hb & Hx). exists (S b), x. split; assumption.
Qed.
Lemma held_kid m b x a : at_ m b = Some x -> In a (kids x) -> 0 < held m a.
Proof.
  revert b. induction m as [|c m IH]; intros [|b] H K; cbn in *; try discriminate.
  - unfold at_ in H. cbn in H. destruct c as [c|]; [|discriminate]. injection H as <-. apply occ_in in K. cbn. lia.
  - change (at_ m b = Some x) in H. specialize (IH _ H K). lia.
Qed.
Lemma at_lt m a b : at_ m a = Some b -> a < length m.
Proof. unfold at_. intros H. apply nth_error_Some. destruct (nth_error m a); [discriminate|]. discriminate. Qed.
Lemma at_cell m a b : at_ m a = Some b -> exists c, nth_error m a = Some (Some c) /\ body c = b.
Proof. unfold at_. destruct (nth_error m a) as [[c|]|] eqn:E; try discriminate. intros H. injection H as <-. eauto. Qed.
Lemma count_live m R a : Inv m R -> 0 < count m a -> exists b, at_ m a = Some b.
Proof. unfold count, at_. intros _ H. destruct (nth_error m a) as [[c|]|]; [eauto|lia|lia]. Qed.
Lemma root_live m R a : Inv m R -> In a R -> exists b, at_ m a = Some b.
Proof. intros I H. apply (count_live m R a I). rewrite (inv_cnt _ _ I). apply occ_in in H. lia. Qed.
Lemma kid_live m R b x a : Inv m R -> at_ m b = Some x -> In a (kids x) -> exists y, at_ m a = Some y.
Proof. intros I H K. apply (count_live m R a I). rewrite (inv_cnt _ _ I). pose proof (held_kid _ _ _ _ H K). lia. Qed.
Lemma Inv_perm m R R' : (forall a, occ a R = occ a R') -> Inv m R -> Inv m R'.
Proof. intros H [C P K]. constructor; auto. intros a. rewrite <- H. apply C. Qed.
Lemma Inv_nil : Inv [] [].
Proof.
  constructor.
  - intros a. unfold count. destruct a; reflexivity.
  - intros a c H. destruct a; discriminate.
  - intros a k b c H. destruct a; discriminate.
Qed.

(** ** Allocation *)
Lemma at_alloc_old m b a : a < length m -> at_ (fst (alloc m b)) a = at_ m a.
Proof. intros H. unfold at_, alloc. cbn. rewrite nth_error_app1 by assumption. reflexivity. Qed.
Lemma at_alloc_new m b : at_ (fst (alloc m b)) (length m) = Some b.
Proof. unfold at_, alloc. cbn. rewrite nth_error_app2, Nat.sub_diag by lia. reflexivity. Qed.
Lemma at_alloc m b a x : at_ (fst (alloc m b)) a = Some x -> at_ m a = Some x \/ a = length m /\ x = b.
Proof.
  intros H. destruct (Nat.lt_ge_cases a (length m)) as [L|L].
  - rewrite at_alloc_old in H by assumption. auto.
  - pose proof (at_lt _ _ _ H) as L'. unfold alloc in L'. cbn in L'. rewrite app_length in L'. cbn in L'.
    assert (a = length m) by lia. subst. rewrite at_alloc_new in H. injection H as <-. auto.
Qed.
Lemma occ_notin a l : ~ In a l -> occ a l = 0.
Proof. intros H. destruct (occ a l) eqn:E; [reflexivity|]. exfalso. apply H. apply occ_in. lia. Qed.
Lemma Inv_alloc m R b : Inv m (kids b ++ R) -> (forall k c, In k (kids b) -> at_ m k = Some c -> rank c < rank b) ->
  Inv (fst (alloc m b)) (length m :: R).
Proof.
  intros I K. pose proof I as [C P Q].
  assert (Fresh : occ (length m) (kids b ++ R) = 0 /\ held m (length m) = 0).
  { pose proof (C (length m)) as X. unfold count in X.
    assert (N : nth_error m (length m) = None) by (apply nth_error_None; lia). rewrite N in X. lia. }
  destruct Fresh as [F1 F2]. rewrite occ_app in F1.
  constructor.
  - intros a. unfold alloc. cbn [fst]. rewrite held_app. cbn [held held1 body]. rewrite occ_cons.
    destruct (Nat.lt_ge_cases a (length m)) as [L|L].
    + unfold count. rewrite nth_error_app1 by assumption.
      destruct (Nat.eq_dec (length m) a); [lia|].
      specialize (C a). unfold count in C. rewrite C, occ_app. lia.
    + destruct (Nat.eq_dec (length m) a) as [<-|N].
      * unfold count. rewrite nth_error_app2, Nat.sub_diag by lia. cbn. lia.
      * assert (Z : nth_error (m ++ [Some (mkC 1 b)]) a = None) by (apply nth_error_None; rewrite app_length; cbn; lia).
        unfold count. rewrite Z.
        specialize (C a). unfold count in C.
        assert (N' : nth_error m a = None) by (apply nth_error_None; lia). rewrite N' in C. rewrite occ_app in C. lia.
  - intros a c H. unfold alloc in H. cbn in H. destruct (Nat.lt_ge_cases a (length m)) as [L|L].
    + rewrite nth_error_app1 in H by assumption. eauto.
    + rewrite nth_error_app2 in H by assumption. destruct (a - length m) as [|[|]]; cbn in H; try discriminate.
      injection H as <-. cbn. lia.
  - intros a k x c H Hk Hc.
    assert (Hkm : k < length m).
    { destruct (Nat.lt_ge_cases k (length m)) as [L|L]; [assumption|].
      apply at_alloc in Hc. destruct Hc as [Hc|[-> ->]]; [apply at_lt in Hc; assumption|].
      exfalso. apply at_alloc in H. destruct H as [H|[-> ->]].
      - pose proof (held_kid _ _ _ _ H Hk). lia.
      - apply occ_in in Hk. lia. }
    rewrite at_alloc_old in Hc by assumption.
    apply at_alloc in H. destruct H as [H|[-> ->]]; [eapply Q; eauto|eauto].
Qed.

(** ** Counting up, writing *)
Lemma peek_at m a b : at_ m a = Some b -> exists c, peek m a = Ok c /\ body c = b /\ nth_error m a = Some (Some c).
Proof. intros H. destruct (at_cell _ _ _ H) as (c & H1 & H2). exists c. unfold peek. rewrite H1. auto. Qed.
Lemma at_upd m a c x : a < length m -> at_ (list_upd m a (Some c)) x = if Nat.eq_dec a x then Some (body c) else at_ m x.
Proof. intros H. unfold at_. destruct (Nat.eq_dec a x) as [<-|N]; [rewrite upd_same by assumption|rewrite upd_other by assumption]; reflexivity. Qed.
Lemma incr_ok m R a b : Inv m R -> at_ m a = Some b -> exists m', incr m a = Ok m' /\ Inv m' (a :: R) /\ length m' = length m /\ (forall x, at_ m' x = at_ m x).
Proof.
  intros [C P Q] H. destruct (peek_at _ _ _ H) as (c & H1 & H2 & H3). unfold incr. rewrite H1. cbn.
  pose proof (at_lt _ _ _ H) as L.
  assert (E : forall x, at_ (list_upd m a (Some (mkC (S (cnt c)) (body c)))) x = at_ m x).
  { intros x. rewrite at_upd by assumption. cbn. destruct (Nat.eq_dec a x) as [<-|]; [|reflexivity]. rewrite H, <- H2. reflexivity. }
  eexists. split; [reflexivity|]. split; [|split; [apply list_upd_length|exact E]].
  constructor.
  - intros x. rewrite occ_cons. pose proof (held_upd m a (Some c) x H3 (Some (mkC (S (cnt c)) (body c)))) as U. cbn in U.
    unfold count. destruct (Nat.eq_dec a x) as [<-|N].
    + rewrite upd_same by assumption. cbn. specialize (C a). unfold count in C. rewrite H3 in C. lia.
    + rewrite upd_other by assumption. specialize (C x). unfold count in C. lia.
  - intros x c' Hx. destruct (Nat.eq_dec a x) as [<-|N].
    + rewrite upd_same in Hx by assumption. injection Hx as <-. cbn. lia.
    + rewrite upd_other in Hx by assumption. eauto.
  - intros x k bx ck Hx Hk Hc. rewrite E in Hx, Hc. eauto.
Qed.
Lemma put_ok m R R' a b b' : Inv m R -> at_ m a = Some b -> (forall x, occ x (kids b') + occ x R' = occ x (kids b) + occ x R) ->
  (forall k c, In k (kids b') -> at_ m k = Some c -> rank c < rank b') -> rank b' = rank b ->
  exists m', put m a b' = Ok m' /\ Inv m' R' /\ length m' = length m /\ (forall x, at_ m' x = if Nat.eq_dec a x then Some b' else at_ m x).
Proof.
  intros [C P Q] H K RK RB. destruct (peek_at _ _ _ H) as (c & H1 & H2 & H3). unfold put. rewrite H1. cbn.
  pose proof (at_lt _ _ _ H) as L.
  assert (E : forall x, at_ (list_upd m a (Some (mkC (cnt c) b'))) x = if Nat.eq_dec a x then Some b' else at_ m x).
  { intros x. rewrite at_upd by assumption. reflexivity. }
  eexists. split; [reflexivity|]. split; [|split; [apply list_upd_length|exact E]].
  constructor.
  - intros x. pose proof (held_upd m a (Some c) x H3 (Some (mkC (cnt c) b'))) as U. cbn in U. rewrite H2 in U.
    specialize (K x). specialize (C x). unfold count in *. destruct (Nat.eq_dec a x) as [<-|N].
    + rewrite upd_same by assumption. cbn. rewrite H3 in C. lia.
    + rewrite upd_other by assumption. lia.
  - intros x c' Hx. destruct (Nat.eq_dec a x) as [<-|N].
    + rewrite upd_same in Hx by assumption. injection Hx as <-. cbn. eauto.
    + rewrite upd_other in Hx by assumption. eauto.
  - intros x k bx ck Hx Hk Hc. rewrite E in Hx, Hc.
    destruct (Nat.eq_dec a k) as [<-|N].
    + injection Hc as <-. destruct (Nat.eq_dec a x) as [<-|N'].
      * injection Hx as <-. specialize (RK _ _ Hk H). lia.
      * rewrite RB. eapply Q; eauto.
    + destruct (Nat.eq_dec a x) as [<-|N'].
      * injection Hx as <-. eauto.
      * eauto.
Qed.

(** As [put_ok], for a body of any rank. *)
Lemma put_ok2 m R R' a b b' : Inv m R -> at_ m a = Some b -> (forall x, occ x (kids b') + occ x R' = occ x (kids b) + occ x R) ->
  (forall k c, In k (kids b') -> at_ m k = Some c -> k <> a /\ rank c < rank b') ->
  (forall p bp, at_ m p = Some bp -> In a (kids bp) -> rank b' < rank bp) ->
  exists m', put m a b' = Ok m' /\ Inv m' R' /\ length m' = length m /\ (forall x, at_ m' x = if Nat.eq_dec a x then Some b' else at_ m x).
Proof.
  intros [C P Q] H K RK RP. destruct (peek_at _ _ _ H) as (c & H1 & H2 & H3). unfold put. rewrite H1. cbn.
  pose proof (at_lt _ _ _ H) as L.
  assert (E : forall x, at_ (list_upd m a (Some (mkC (cnt c) b'))) x = if Nat.eq_dec a x then Some b' else at_ m x).
  { intros x. rewrite at_upd by assumption. reflexivity. }
  eexists. split; [reflexivity|]. split; [|split; [apply list_upd_length|exact E]].
  constructor.
  - intros x. pose proof (held_upd m a (Some c) x H3 (Some (mkC (cnt c) b'))) as U. cbn in U. rewrite H2 in U.
    specialize (K x). specialize (C x). unfold count in *. destruct (Nat.eq_dec a x) as [<-|N].
    + rewrite upd_same by assumption. cbn. rewrite H3 in C. lia.
    + rewrite upd_other by assumption. lia.
  - intros x c' Hx. destruct (Nat.eq_dec a x) as [<-|N].
    + rewrite upd_same in Hx by assumption. injection Hx as <-. cbn. eauto.
    + rewrite upd_other in Hx by assumption. eauto.
  - intros x k bx ck Hx Hk Hc. rewrite E in Hx, Hc.
    destruct (Nat.eq_dec a k) as [<-|N].
    + injection Hc as <-. destruct (Nat.eq_dec a x) as [<-|N'].
      * injection Hx as <-. destruct (RK _ _ Hk H). congruence.
      * eapply RP; eauto.
    + destruct (Nat.eq_dec a x) as [<-|N'].
      * injection Hx as <-. apply (RK _ _ Hk Hc).
      * eauto.
Qed.

(** ** Releasing *)
Lemma peek_frame m a x c : peek m a = Ok c -> a <> x -> forall o, peek (list_upd m x o) a = Ok c.
Proof. unfold peek. intros H N o. rewrite upd_other by congruence. exact H. Qed.
Lemma upd_upd {A} (l : list A) i x y : list_upd (list_upd l i x) i y = list_upd l i y.
Proof. revert i. induction l as [|z l IH]; intros [|i]; cbn; try reflexivity. f_equal. apply IH. Qed.
Lemma upd_comm {A} (l : list A) i j x y : i <> j -> list_upd (list_upd l i x) j y = list_upd (list_upd l j y) i x.
Proof. revert i j. induction l as [|z l IH]; intros [|i] [|j] H; cbn; try reflexivity; try congruence. f_equal. apply IH. congruence. Qed.
(** A release that succeeds without [x] does the same with [x] there. *)
Lemma release_frame f : forall m a m' x o, nth_error m x = Some None -> release kids f m a = Ok m' ->
  release kids f (list_upd m x o) a = Ok (list_upd m' x o) /\ nth_error m' x = Some None.
Proof.
  induction f as [|f IH]; intros m a m' x o Hx H; cbn in H |- *; [discriminate|].
  destruct (peek m a) as [c| |] eqn:Hp; cbn in H; try discriminate.
  assert (N : a <> x). { intros ->. unfold peek in Hp. rewrite Hx in Hp. discriminate. }
  rewrite (peek_frame m a x c Hp N o). cbn.
  assert (Each : forall l m m', nth_error m x = Some None -> each (release kids f) m l = Ok m' ->
    each (release kids f) (list_upd m x o) l = Ok (list_upd m' x o) /\ nth_error m' x = Some None).
  { clear - IH. intros l. induction l as [|k l IHl]; intros m m' Hx H; cbn in H |- *.
    - injection H as <-. auto.
    - destruct (release kids f m k) as [m1| |] eqn:E; cbn in H; try discriminate.
      destruct (IH m k m1 x o Hx E) as [E1 E2]. rewrite E1. cbn. apply IHl; assumption. }
  destruct (cnt c) as [|[|n]]; try discriminate.
  - destruct (each (release kids f) m (kids (body c))) as [m1| |] eqn:E; cbn in H; try discriminate.
    destruct (Each _ _ _ Hx E) as [E1 E2]. rewrite E1. cbn.
    destruct (peek m1 a) as [c1| |] eqn:Hp1; cbn in H; try discriminate. injection H as <-.
    rewrite (peek_frame m1 a x c1 Hp1 N o). cbn. split; [f_equal; apply upd_comm; congruence|].
    rewrite upd_other by assumption. assumption.
  - injection H as <-. split; [f_equal; apply upd_comm; congruence|]. rewrite upd_other by assumption. assumption.
Qed.
Definition rank_at m a : nat := match at_ m a with Some b => rank b | None => 0 end.
Lemma release_ok f : forall m a R, Inv m (a :: R) -> rank_at m a < f ->
  exists m', release kids f m a = Ok m' /\ Inv m' R /\ shrinks m m'.
Proof.
  induction f as [|f IH]; intros m a R I F; [lia|].
  destruct (root_live _ _ a I (or_introl eq_refl)) as [b H].
  destruct (peek_at _ _ _ H) as (c & H1 & H2 & H3). pose proof (at_lt _ _ _ H) as L.
  cbn. rewrite H1. cbn. pose proof I as [C P Q].
  pose proof (C a) as Ca. unfold count in Ca. rewrite H3, occ_cons in Ca. destruct (Nat.eq_dec a a) as [_|]; [|congruence].
  destruct (cnt c) as [|[|n]] eqn:Hc; [specialize (P _ _ H3); lia| |].
  - (* freed: first everything below it, in the memory without it *)
    assert (Each : forall l m R, Inv m (l ++ R) -> (forall k, In k l -> rank_at m k < f) ->
      exists m', each (release kids f) m l = Ok m' /\ Inv m' R /\ shrinks m m').
    { clear - IH. intros l. induction l as [|k l IHl]; intros m R I F; cbn.
      - exists m. split; [reflexivity|]. split; [exact I|apply shrinks_refl].
      - destruct (IH m k (l ++ R) I (F k (or_introl eq_refl))) as (m1 & E1 & I1 & S1). rewrite E1. cbn.
        destruct (IHl m1 R I1) as (m2 & E2 & I2 & S2).
        { intros j Hj. assert (rank_at m1 j <= rank_at m j).
          { unfold rank_at. destruct (at_ m1 j) as [bj|] eqn:E; [rewrite (proj2 S1 _ _ E); lia|lia]. }
          specialize (F j (or_intror Hj)). lia. }
        exists m2. split; [exact E2|]. split; [exact I2|]. eapply shrinks_trans; eassumption. }
    set (m0 := list_upd m a None).
    assert (At0 : forall x y, at_ m0 x = Some y -> at_ m x = Some y /\ x <> a).
    { intros x y Hx. unfold m0, at_ in Hx. destruct (Nat.eq_dec a x) as [<-|N].
      - rewrite upd_same in Hx by assumption. discriminate.
      - rewrite upd_other in Hx by assumption. split; [exact Hx|congruence]. }
    assert (I0 : Inv m0 (kids b ++ R)).
    { constructor.
      - intros x. rewrite occ_app. pose proof (held_upd m a (Some c) x H3 None) as U. cbn in U. fold m0 in U. rewrite H2 in U.
        unfold count. destruct (Nat.eq_dec a x) as [<-|N].
        + unfold m0 at 1. rewrite upd_same by assumption. lia.
        + unfold m0 at 1. rewrite upd_other by assumption. specialize (C x). unfold count in C. rewrite occ_cons in C.
          destruct (Nat.eq_dec a x); [congruence|]. lia.
      - intros x cx Hx. unfold m0 in Hx. destruct (Nat.eq_dec a x) as [<-|N].
        + rewrite upd_same in Hx by assumption. discriminate.
        + rewrite upd_other in Hx by assumption. eauto.
      - intros x k bx ck Hx Hk Hck. destruct (At0 _ _ Hx) as [Hx' _]. destruct (At0 _ _ Hck) as [Hck' _]. eauto. }
    destruct (Each (kids b) m0 R I0) as (m1 & E1 & I1 & S1).
    { intros k Hk. unfold rank_at. destruct (at_ m0 k) as [bk|] eqn:E.
      - destruct (At0 _ _ E) as [E' _]. specialize (Q _ _ _ _ H Hk E'). unfold rank_at in F. rewrite H in F. lia.
      - destruct (kid_live _ _ _ _ _ I H Hk) as [y Hy]. specialize (Q _ _ _ _ H Hk Hy). unfold rank_at in F. rewrite H in F. lia. }
    assert (N0 : nth_error m0 a = Some None) by (unfold m0; apply upd_same; assumption).
    assert (Fr : forall l m m', nth_error m a = Some None -> each (release kids f) m l = Ok m' ->
      each (release kids f) (list_upd m a (Some c)) l = Ok (list_upd m' a (Some c)) /\ nth_error m' a = Some None).
    { intros l. induction l as [|k l IHl]; intros mm mm' Hx Hl; cbn in Hl |- *.
      - injection Hl as <-. auto.
      - destruct (release kids f mm k) as [m2| |] eqn:E; cbn in Hl; try discriminate.
        destruct (release_frame f mm k m2 a (Some c) Hx E) as [E2 E3]. rewrite E2. cbn. apply IHl; assumption. }
    destruct (Fr _ _ _ N0 E1) as [E2 N1].
    assert (Back : list_upd m0 a (Some c) = m).
    { unfold m0. rewrite upd_upd. clear - H3. revert a H3. induction m as [|x m IH]; intros [|a] H3; cbn in *; try discriminate.
      - injection H3 as ->. reflexivity.
      - f_equal. apply IH. exact H3. }
    rewrite Back in E2. rewrite H2, E2. cbn.
    assert (L1 : a < length m1) by (apply nth_error_Some; rewrite N1; discriminate).
    unfold peek. rewrite upd_same by assumption. cbn. rewrite upd_upd.
    assert (Same : list_upd m1 a None = m1).
    { clear - N1. revert a N1. induction m1 as [|x m IH]; intros [|a] N1; cbn in *; try discriminate.
      - injection N1 as ->. reflexivity.
      - f_equal. apply IH. exact N1. }
    rewrite Same. exists m1. split; [reflexivity|]. split; [exact I1|].
    split; [rewrite (proj1 S1); unfold m0; apply list_upd_length|].
    intros x y Hx. apply (At0 x y). apply S1. exact Hx.
  - (* counted down *)
    assert (E : forall x, at_ (list_upd m a (Some (mkC (S n) (body c)))) x = at_ m x).
    { intros x. rewrite at_upd by assumption. cbn. destruct (Nat.eq_dec a x) as [<-|]; [|reflexivity]. rewrite H, <- H2. reflexivity. }
    eexists. split; [reflexivity|]. split; [|split; [apply list_upd_length|intros x y; rewrite E; auto]].
    constructor.
    + intros x. pose proof (held_upd m a (Some c) x H3 (Some (mkC (S n) (body c)))) as U. cbn in U.
      unfold count. destruct (Nat.eq_dec a x) as [<-|N].
      * rewrite upd_same by assumption. cbn. lia.
      * rewrite upd_other by assumption. specialize (C x). unfold count in C. rewrite occ_cons in C. destruct (Nat.eq_dec a x); [congruence|]. lia.
    + intros x c' Hx. destruct (Nat.eq_dec a x) as [<-|N].
      * rewrite upd_same in Hx by assumption. injection Hx as <-. cbn. lia.
      * rewrite upd_other in Hx by assumption. eauto.
    + intros x k bx ck Hx Hk Hck. rewrite E in Hx, Hck. eauto.
Qed.
(** ** Two memories that differ in the body of one cell
    A function may release what a cell refers to before it overwrites the reference.
    The memory is then followed together with one where the cell no longer has the
    reference. *)
Definition differ (c : nat) m m0 : Prop :=
  length m0 = length m /\ (forall a, a <> c -> nth_error m0 a = nth_error m a) /\
  (exists x x0, nth_error m c = Some (Some x) /\ nth_error m0 c = Some (Some x0) /\ cnt x0 = cnt x).
Lemma nth_ext' {A} (l l' : list A) : (forall i, nth_error l i = nth_error l' i) -> l = l'.
Proof.
  revert l'. induction l as [|x l IH]; intros [|y l'] H; try reflexivity.
  - specialize (H 0). discriminate.
  - specialize (H 0). discriminate.
  - f_equal; [specialize (H 0); cbn in H; congruence|]. apply IH. intros i. apply (H (S i)).
Qed.
Lemma differ_lt c m m0 : differ c m m0 -> c < length m.
Proof. intros (_ & _ & x & x0 & H & _). apply nth_error_Some. rewrite H. discriminate. Qed.
Lemma differ_put c m m0 b : put m c b = Ok m0 -> differ c m m0.
Proof.
  unfold put. destruct (peek m c) as [x| |] eqn:E; cbn; try discriminate. intros H. injection H as <-.
  unfold peek in E. destruct (nth_error m c) as [[y|]|] eqn:N; try discriminate. injection E as ->.
  assert (L : c < length m) by (apply nth_error_Some; rewrite N; discriminate).
  split; [apply list_upd_length|]. split.
  - intros a H. apply upd_other. congruence.
  - exists x, (mkC (cnt x) b). rewrite upd_same by assumption. auto.
Qed.
Lemma differ_close c m m0 b : differ c m m0 -> put m c b = put m0 c b.
Proof.
  intros (L & O & x & x0 & H & H0 & E). unfold put, peek. rewrite H, H0. cbn. rewrite E. f_equal.
  assert (Lc : c < length m) by (apply nth_error_Some; rewrite H; discriminate).
  apply nth_ext'. intros i. destruct (Nat.eq_dec c i) as [<-|N].
  - rewrite !upd_same; [reflexivity|lia|assumption].
  - rewrite !upd_other by assumption. symmetry. apply O. congruence.
Qed.
Lemma differ_upd c m m0 a o : differ c m m0 -> a <> c -> differ c (list_upd m a o) (list_upd m0 a o).
Proof.
  intros (L & O & x & x0 & H & H0 & E) N. split; [rewrite !list_upd_length; exact L|]. split.
  - intros b Hb. destruct (Nat.eq_dec a b) as [<-|N'].
    + destruct (Nat.lt_ge_cases a (length m)) as [La|La].
      * rewrite !upd_same by lia. reflexivity.
      * assert (X : forall l : mem B, length l <= a -> nth_error (list_upd l a o) a = None).
        { intros l Hl. apply nth_error_None. rewrite list_upd_length. exact Hl. }
        rewrite !X by lia. reflexivity.
    + rewrite !upd_other by assumption. auto.
  - exists x, x0. rewrite !upd_other by congruence. auto.
Qed.
Lemma differ_peek c m m0 a : differ c m m0 -> a <> c -> peek m a = peek m0 a.
Proof. intros (L & O & _) N. unfold peek. rewrite (O a N). reflexivity. Qed.
Lemma differ_incr c m m0 a m0' : differ c m m0 -> a <> c -> incr m0 a = Ok m0' -> exists m', incr m a = Ok m' /\ differ c m' m0'.
Proof.
  intros D N H. unfold incr in *. rewrite (differ_peek _ _ _ _ D N).
  destruct (peek m0 a) as [x| |]; cbn in H |- *; try discriminate. injection H as <-.
  eexists. split; [reflexivity|]. apply differ_upd; assumption.
Qed.
Lemma differ_put_other c m m0 a b m0' : differ c m m0 -> a <> c -> put m0 a b = Ok m0' -> exists m', put m a b = Ok m' /\ differ c m' m0'.
Proof.
  intros D N H. unfold put in *. rewrite (differ_peek _ _ _ _ D N).
  destruct (peek m0 a) as [x| |]; cbn in H |- *; try discriminate. injection H as <-.
  eexists. split; [reflexivity|]. apply differ_upd; assumption.
Qed.
Lemma differ_app c m m0 l : differ c m m0 -> differ c (m ++ l) (m0 ++ l).
Proof.
  intros D. pose proof (differ_lt _ _ _ D) as Lc. destruct D as (L & O & x & x0 & H & H0 & E).
  split; [rewrite !app_length; lia|]. split.
  - intros a N. destruct (Nat.lt_ge_cases a (length m)) as [La|La].
    + rewrite !nth_error_app1 by lia. auto.
    + rewrite !nth_error_app2 by lia. rewrite L. reflexivity.
  - exists x, x0. rewrite !nth_error_app1 by lia. auto.
Qed.
Lemma release_at f : forall m a m', release kids f m a = Ok m' -> shrinks m m'.
Proof.
  induction f as [|f IH]; intros m a m' H; cbn in H; [discriminate|].
  destruct (peek m a) as [c| |] eqn:Hp; cbn in H; try discriminate.
  assert (Lc : nth_error m a = Some (Some c)).
  { unfold peek in Hp. destruct (nth_error m a) as [[y|]|]; try discriminate. injection Hp as ->. reflexivity. }
  assert (La : a < length m) by (apply nth_error_Some; rewrite Lc; discriminate).
  assert (Each : forall l m m', each (release kids f) m l = Ok m' -> shrinks m m').
  { clear - IH. intros l. induction l as [|k l IHl]; intros m m' H; cbn in H.
    - injection H as <-. apply shrinks_refl.
    - destruct (release kids f m k) as [m1| |] eqn:E; cbn in H; try discriminate.
      eapply shrinks_trans; [eapply IH; exact E|eapply IHl; exact H]. }
  destruct (cnt c) as [|[|n]]; try discriminate.
  - destruct (each (release kids f) m (kids (body c))) as [m1| |] eqn:E; cbn in H; try discriminate.
    destruct (peek m1 a) as [c1| |] eqn:Hp1; cbn in H; try discriminate. injection H as <-.
    pose proof (Each _ _ _ E) as [L1 S1]. split; [rewrite list_upd_length; exact L1|].
    intros x y Hx. apply S1. unfold at_ in *. destruct (Nat.eq_dec a x) as [<-|N].
    + rewrite upd_same in Hx by lia. discriminate.
    + rewrite upd_other in Hx by assumption. exact Hx.
  - injection H as <-. split; [apply list_upd_length|]. intros x y Hx. rewrite at_upd in Hx by assumption. cbn in Hx.
    destruct (Nat.eq_dec a x) as [<-|N]; [|exact Hx]. injection Hx as <-. unfold at_. rewrite Lc. reflexivity.
Qed.
(** [P]: what the release may reach. *)
Lemma differ_release f : forall (P : nat -> Prop) c m m0 a m0', differ c m m0 -> P a -> ~ P c ->
  (forall p bp k, P p -> at_ m0 p = Some bp -> In k (kids bp) -> P k) ->
  release kids f m0 a = Ok m0' -> exists m', release kids f m a = Ok m' /\ differ c m' m0'.
Proof.
  induction f as [|f IH]; intros P c m m0 a m0' D Pa Pc Cl H; cbn in H |- *; [discriminate|].
  assert (N : a <> c) by (intros ->; contradiction).
  rewrite (differ_peek _ _ _ _ D N). destruct (peek m0 a) as [x| |] eqn:Hp; cbn in H |- *; try discriminate.
  assert (Each : forall l m m0 m0', differ c m m0 -> (forall k, In k l -> P k) ->
    (forall p bp k, P p -> at_ m0 p = Some bp -> In k (kids bp) -> P k) ->
    each (release kids f) m0 l = Ok m0' -> exists m', each (release kids f) m l = Ok m' /\ differ c m' m0').
  { clear - IH Pc. intros l. induction l as [|k l IHl]; intros m m0 m0' D Pl Cl H; cbn in H |- *.
    - injection H as <-. eauto.
    - destruct (release kids f m0 k) as [m1| |] eqn:E; cbn in H; try discriminate.
      destruct (IH P c m m0 k m1 D (Pl k (or_introl eq_refl)) Pc Cl E) as (m2 & E2 & D2). rewrite E2. cbn.
      apply (IHl m2 m1 m0' D2); [intros j Hj; apply Pl; right; exact Hj| |exact H].
      intros p bp j Pp Hb Hj. apply (Cl p bp j Pp); [|exact Hj]. apply (proj2 (release_at _ _ _ _ E)). exact Hb. }
  destruct (cnt x) as [|[|n]]; try discriminate.
  - destruct (each (release kids f) m0 (kids (body x))) as [m1| |] eqn:E; cbn in H; try discriminate.
    assert (Pk : forall k, In k (kids (body x)) -> P k).
    { intros k Hk. apply (Cl a (body x) k Pa); [|exact Hk]. unfold at_, peek in *. destruct (nth_error m0 a) as [[y|]|]; try discriminate. injection Hp as ->. reflexivity. }
    destruct (Each _ m m0 m1 D Pk Cl E) as (m2 & E2 & D2).
    rewrite E2. cbn. rewrite (differ_peek _ _ _ _ D2 N). destruct (peek m1 a) as [x1| |]; cbn in H |- *; try discriminate. injection H as <-.
    eexists. split; [reflexivity|]. apply differ_upd; assumption.
  - injection H as <-. eexists. split; [reflexivity|]. apply differ_upd; assumption.
Qed.
Lemma Inv_dead m R : Inv m R -> Inv (m ++ [None]) R.
Proof.
  intros [C P Q].
  assert (N : forall a, nth_error (m ++ [None]) a = nth_error m a \/ nth_error (m ++ [None]) a = Some None /\ nth_error m a = None).
  { intros a. destruct (Nat.lt_ge_cases a (length m)) as [L|L]; [left; apply nth_error_app1; exact L|].
    assert (Z : nth_error m a = None) by (apply nth_error_None; exact L).
    rewrite nth_error_app2 by exact L. destruct (a - length m) as [|[|]]; cbn; auto. }
  assert (A : forall a, at_ (m ++ [None]) a = at_ m a).
  { intros a. unfold at_. destruct (N a) as [->|[-> ->]]; reflexivity. }
  constructor.
  - intros a. rewrite held_app. cbn. unfold count. specialize (C a). unfold count in C. destruct (N a) as [->|[-> Z]]; [lia|]. rewrite Z in C. lia.
  - intros a c H. destruct (N a) as [E|[E _]]; rewrite E in H; [eauto|discriminate].
  - intros a k b c. rewrite !A. eauto.
Qed.
Lemma at_dead m a : at_ (m ++ [None]) a = at_ m a.
Proof.
  unfold at_. destruct (Nat.lt_ge_cases a (length m)) as [L|L]; [rewrite nth_error_app1 by exact L; reflexivity|].
  assert (Z : nth_error m a = None) by (apply nth_error_None; exact L). rewrite Z.
  rewrite nth_error_app2 by exact L. destruct (a - length m) as [|[|]]; reflexivity.
Qed.
(** With no references from outside nothing is live. *)
Lemma Inv_empty m : Inv m [] -> (exists n, forall a b, at_ m a = Some b -> rank b < n) -> forall a, at_ m a = None.
Proof.
  intros I [n Hn]. assert (X : forall d a b, at_ m a = Some b -> n <= rank b + d -> False).
  { induction d as [|d IH]; intros a b H D; [specialize (Hn _ _ H); lia|].
    destruct (at_cell _ _ _ H) as (c & H1 & H2). pose proof (inv_pos _ _ I _ _ H1) as P.
    pose proof (inv_cnt _ _ I a) as C. unfold count in C. rewrite H1 in C. cbn in C.
    destruct (held_pos m a) as (p & x & Hx & Hin); [unfold occ in C; cbn in C; lia|].
    pose proof (inv_rank _ _ I _ _ _ _ Hx Hin H). apply (IH p x Hx). lia. }
  intros a. destruct (at_ m a) as [b|] eqn:E; [|reflexivity]. exfalso. apply (X n a b E). lia.
Qed.
End Facts.
