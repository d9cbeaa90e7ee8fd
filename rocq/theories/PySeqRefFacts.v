(** Facts about the references of the methods of Python sequences. *)
From Verif Require Import CStr CStrFacts PyIterModel PySeqRefModel.

(** How often [a] is in the list. *)
Definition occ (a : nat) (l : list nat) : nat := count_occ Nat.eq_dec l a.
(** References to [a] that one call loses, from the call and its outcome alone. *)
Definition lost (a : nat) (o : rop) (r : rout) : nat :=
  match o, r with
  | PSet _ b _, (Done | IndexErr) => if Nat.eqb b a then 1 else 0
  | PRemove b, (Done | ValueErr) => if Nat.eqb b a then 1 else 0
  | _, _ => 0
  end.
Fixpoint losses (a : nat) (os : list rop) (rs : list rout) : nat :=
  match os, rs with o :: os', r :: rs' => lost a o r + losses a os' rs' | _, _ => 0 end.

Definition one (x a : nat) : nat := if Nat.eqb x a then 1 else 0.
Lemma occ_cons a x l : occ a (x :: l) = one x a + occ a l.
Proof.
  unfold occ, one. cbn. destruct (Nat.eq_dec x a) as [->|N]; [now rewrite Nat.eqb_refl|].
  apply Nat.eqb_neq in N. now rewrite N.
Qed.
Lemma occ_app a l1 l2 : occ a (l1 ++ l2) = occ a l1 + occ a l2.
Proof. apply count_occ_app. Qed.
Lemma one_same a : one a a = 1.
Proof. unfold one. now rewrite Nat.eqb_refl. Qed.
Lemma occ_ins a x l : forall p, p <= length l -> occ a (ins p x l) = one x a + occ a l.
Proof.
  induction l as [|y l IH]; intros [|p] H; cbn in H; cbn [ins]; try lia; rewrite ?occ_cons; try reflexivity.
  rewrite IH by lia. lia.
Qed.
Lemma occ_del a l : forall p x, nth_error l p = Some x -> occ a l = one x a + occ a (del p l).
Proof.
  induction l as [|y l IH]; intros [|p] x H; cbn in H; try discriminate; cbn [del]; rewrite !occ_cons.
  - injection H as ->. reflexivity.
  - rewrite (IH p x H). lia.
Qed.
Lemma occ_upd a v l : forall p x, nth_error l p = Some x ->
  one v a + occ a l = one x a + occ a (upd p (fun _ => v) l).
Proof.
  induction l as [|y l IH]; intros [|p] x H; cbn in H; try discriminate; cbn [upd]; rewrite !occ_cons.
  - injection H as ->. lia.
  - pose proof (IH p x H). lia.
Qed.
Lemma occ_remove1 a x l : In x l -> occ a l = one x a + occ a (remove1 x l).
Proof.
  induction l as [|y l IH]; intros H; [destruct H|]. cbn [remove1]. destruct (Nat.eqb_spec y x) as [->|N].
  - apply occ_cons.
  - rewrite !occ_cons. destruct H as [H|H]; [congruence|]. rewrite (IH H). lia.
Qed.
Lemma occ_in a l : In a l -> 1 <= occ a l.
Proof. intros H. apply (count_occ_In Nat.eq_dec) in H. unfold occ. lia. Qed.
Lemma holds_in l a : holds_ l a = true <-> In a l.
Proof.
  unfold holds_. rewrite existsb_exists. split; [intros (x & H & E); apply Nat.eqb_eq in E; now subst|].
  intros H. exists a. split; [exact H|apply Nat.eqb_refl].
Qed.

Lemma inc_ok f a : 1 <= f a -> exists f', inc f a = Ok f' /\ forall x, f' x = f x + one a x.
Proof.
  unfold inc. destruct (f a) as [|n] eqn:E; [lia|]. intros _. eexists; split; [reflexivity|]. intros x.
  unfold setc, one. rewrite (Nat.eqb_sym a x). destruct (Nat.eqb_spec x a) as [->|N]; lia.
Qed.
Lemma dec_ok f a : 1 <= f a -> exists f', dec f a = Ok f' /\ forall x, f x = f' x + one a x.
Proof.
  unfold dec. destruct (f a) as [|n] eqn:E; [lia|]. intros _. eexists; split; [reflexivity|]. intros x.
  unfold setc, one. rewrite (Nat.eqb_sym a x). destruct (Nat.eqb_spec x a) as [->|N]; lia.
Qed.
Lemma dec_all_ok l : forall f, (forall a, occ a l <= f a) ->
  exists f', dec_all f l = Ok f' /\ forall x, f x = f' x + occ x l.
Proof.
  induction l as [|a l IH]; intros f H; cbn [dec_all].
  - exists f. split; [reflexivity|]. intros x. cbn. lia.
  - destruct (dec_ok f a) as (f1 & -> & H1).
    { specialize (H a). rewrite occ_cons, one_same in H. lia. }
    cbn [bind]. destruct (IH f1) as (f2 & -> & H2).
    { intros x. specialize (H x). specialize (H1 x). rewrite occ_cons in H. lia. }
    exists f2. split; [reflexivity|]. intros x. rewrite (H1 x), (H2 x), occ_cons. lia.
Qed.

(** Counters are the references held plus those lost; the numbers of objects to
    come are not in use. *)
Definition bal (s : rst) (L : nat -> nat) : Prop :=
  (forall a, cnt s a = occ a (its s) + occ a (wraps s) + L a) /\
  (forall a, newobj s <= a -> cnt s a = 0).

Lemma step_bal s L o : bal s L ->
  exists s' r, rstep s o = Ok (s', r) /\ bal s' (fun a => L a + lost a o r).
Proof.
  intros [B Z0]. destruct s as [l w f n]. cbn [cnt its wraps newobj] in *.
  assert (W : forall a k, (In a w -> exists s' r, k = Ok (s', r) /\ bal s' (fun x => L x + lost x o r)) ->
    (forall x, lost x o NoWrapper = 0) ->
    exists s' r, wrapped (mkRst l w f n) a k = Ok (s', r) /\ bal s' (fun x => L x + lost x o r)).
  { intros a k H H0. unfold wrapped. cbn [wraps]. destruct (holds_ w a) eqn:E.
    - apply H. now apply holds_in.
    - eexists _, _. split; [reflexivity|]. split; cbn [cnt its wraps newobj]; [|exact Z0].
      intros x. rewrite B, H0. lia. }
  assert (P : forall a, In a w -> 1 <= f a) by (intros a H; rewrite B; pose proof (occ_in a w H); lia).
  assert (F : forall f' , (forall x, n <= x -> f' x = 0) -> forall x, n <= x -> f' x = 0) by auto.
  assert (O1 : forall a x, In a w -> n <= x -> one a x = 0).
  { intros a x H Hx. unfold one. destruct (Nat.eqb_spec a x) as [->|N]; [|reflexivity].
    specialize (P x H). rewrite (Z0 x Hx) in P. lia. }
  destruct o as [|a ok|p a ok|i a ok|i|a|p| |a]; cbn [rstep].
  - eexists _, _. split; [reflexivity|]. split; cbn [cnt its wraps newobj lost].
    + intros x. rewrite occ_cons. unfold setc, one. rewrite (Nat.eqb_sym x n).
      destruct (Nat.eqb_spec n x) as [<-|N]; [|rewrite B; lia].
      specialize (Z0 n (Nat.le_refl _)). rewrite B in Z0. lia.
    + intros x H. unfold setc. destruct (Nat.eqb_spec x n) as [->|N]; [lia|]. apply Z0. lia.
  - apply W; [|reflexivity]. intros Ha. destruct (inc_ok f a (P a Ha)) as (f1 & -> & H1). cbn [bind]. destruct ok.
    + eexists _, _. split; [reflexivity|]. split; cbn [cnt its wraps newobj lost].
      * intros x. rewrite H1, B, occ_app, occ_cons. cbn. lia.
      * intros x Hx. rewrite H1, (Z0 x Hx), (O1 a x Ha Hx). reflexivity.
    + destruct (dec_ok f1 a) as (f2 & -> & H2); [rewrite H1, one_same; lia|]. cbn [bind].
      eexists _, _. split; [reflexivity|]. split; cbn [cnt its wraps newobj lost].
      * intros x. specialize (H1 x). specialize (H2 x). rewrite B in H1. lia.
      * intros x Hx. specialize (H1 x). specialize (H2 x). rewrite (Z0 x Hx) in H1. lia.
  - apply W; [|reflexivity]. intros Ha. destruct (inc_ok f a (P a Ha)) as (f1 & -> & H1). cbn [bind]. destruct ok.
    + eexists _, _. split; [reflexivity|]. split; cbn [cnt its wraps newobj lost].
      * intros x. rewrite H1, B, occ_ins by lia. lia.
      * intros x Hx. rewrite H1, (Z0 x Hx), (O1 a x Ha Hx). reflexivity.
    + destruct (dec_ok f1 a) as (f2 & -> & H2); [rewrite H1, one_same; lia|]. cbn [bind].
      eexists _, _. split; [reflexivity|]. split; cbn [cnt its wraps newobj lost].
      * intros x. specialize (H1 x). specialize (H2 x). rewrite B in H1. lia.
      * intros x Hx. specialize (H1 x). specialize (H2 x). rewrite (Z0 x Hx) in H1. lia.
  - apply W; [|reflexivity]. intros Ha. destruct (inc_ok f a (P a Ha)) as (f1 & -> & H1). cbn [bind].
    destruct (Z.gtb_spec i (Z.of_nat (length l) - 1)) as [G|G].
    + eexists _, _. split; [reflexivity|]. split; cbn [cnt its wraps newobj lost].
      * intros x. rewrite H1, B. unfold one. lia.
      * intros x Hx. rewrite H1, (Z0 x Hx), (O1 a x Ha Hx). reflexivity.
    + destruct ok; cbn [negb].
      * destruct (Z.ltb_spec i 0) as [N|N].
        -- eexists _, _. split; [reflexivity|]. split; cbn [cnt its wraps newobj lost].
           ++ intros x. rewrite H1, B. unfold one. lia.
           ++ intros x Hx. rewrite H1, (Z0 x Hx), (O1 a x Ha Hx). reflexivity.
        -- destruct (nth_error l (Z.to_nat i)) as [y|] eqn:E; [|apply nth_error_None in E; lia].
           assert (Hy : In y l) by (eapply nth_error_In, E). pose proof (occ_in y l Hy) as Oy.
           destruct (dec_ok f1 y) as (f2 & -> & H2); [rewrite H1, B; lia|]. cbn [bind].
           destruct (inc_ok f2 a) as (f3 & -> & H3).
           { specialize (H1 a). specialize (H2 a). rewrite one_same in H1. specialize (P a Ha).
             assert (one y a <= 1) by (unfold one; destruct (Nat.eqb y a); lia). lia. }
           cbn [bind]. eexists _, _. split; [reflexivity|]. split; cbn [cnt its wraps newobj lost].
           ++ intros x. specialize (H1 x). specialize (H2 x). specialize (H3 x). rewrite B in H1.
              pose proof (occ_upd x a l _ _ E) as U. unfold one in *. lia.
           ++ intros x Hx. specialize (H1 x). specialize (H2 x). specialize (H3 x).
              rewrite (Z0 x Hx) in H1. rewrite (O1 a x Ha Hx) in *. lia.
      * destruct (dec_ok f1 a) as (f2 & -> & H2); [rewrite H1, one_same; lia|]. cbn [bind].
        eexists _, _. split; [reflexivity|]. split; cbn [cnt its wraps newobj lost].
        -- intros x. specialize (H1 x). specialize (H2 x). rewrite B in H1. lia.
        -- intros x Hx. specialize (H1 x). specialize (H2 x). rewrite (Z0 x Hx) in H1. lia.
  - destruct (Z.gtb_spec i (Z.of_nat (length l) - 1)) as [G|G].
    { eexists _, _. split; [reflexivity|]. split; cbn [cnt its wraps newobj lost]; [|exact Z0]. intros x. rewrite B. lia. }
    destruct (Z.ltb_spec i 0) as [N|N].
    { eexists _, _. split; [reflexivity|]. split; cbn [cnt its wraps newobj lost]; [|exact Z0]. intros x. rewrite B. lia. }
    destruct (nth_error l (Z.to_nat i)) as [y|] eqn:E; [|apply nth_error_None in E; lia].
    assert (Hy : In y l) by (eapply nth_error_In, E). pose proof (occ_in y l Hy) as Oy.
    destruct (dec_ok f y) as (f1 & -> & H1); [rewrite B; lia|]. cbn [bind].
    eexists _, _. split; [reflexivity|]. split; cbn [cnt its wraps newobj lost].
    + intros x. specialize (H1 x). rewrite B, (occ_del x l _ _ E) in H1. lia.
    + intros x Hx. specialize (H1 x). rewrite (Z0 x Hx) in H1. lia.
  - apply W; [|reflexivity]. intros Ha. destruct (inc_ok f a (P a Ha)) as (f1 & -> & H1). cbn [bind].
    destruct (holds_ l a) eqn:E.
    + apply holds_in in E. destruct (dec_ok f1 a) as (f2 & -> & H2); [rewrite H1, one_same; lia|]. cbn [bind].
      eexists _, _. split; [reflexivity|]. split; cbn [cnt its wraps newobj lost].
      * intros x. specialize (H1 x). specialize (H2 x). rewrite B, (occ_remove1 x a l E) in H1. unfold one in *. lia.
      * intros x Hx. specialize (H1 x). specialize (H2 x). rewrite (Z0 x Hx), (O1 a x Ha Hx) in *. lia.
    + eexists _, _. split; [reflexivity|]. split; cbn [cnt its wraps newobj lost].
      * intros x. rewrite H1, B. unfold one. lia.
      * intros x Hx. rewrite H1, (Z0 x Hx), (O1 a x Ha Hx). reflexivity.
  - destruct (nth_error l p) as [a|] eqn:E.
    + assert (Hy : In a l) by (eapply nth_error_In, E). pose proof (occ_in a l Hy) as Oy.
      destruct (inc_ok f a) as (f1 & -> & H1); [rewrite B; lia|]. cbn [bind].
      eexists _, _. split; [reflexivity|]. split; cbn [cnt its wraps newobj lost].
      * intros x. rewrite H1, B, occ_cons. lia.
      * intros x Hx. rewrite H1, (Z0 x Hx). unfold one. destruct (Nat.eqb_spec a x) as [->|N]; [|reflexivity].
        specialize (Z0 x Hx). rewrite B in Z0. lia.
    + eexists _, _. split; [reflexivity|]. split; cbn [cnt its wraps newobj lost]; [|exact Z0]. intros x. rewrite B. lia.
  - destruct (dec_all_ok l f) as (f1 & -> & H1); [intros x; rewrite B; lia|]. cbn [bind].
    eexists _, _. split; [reflexivity|]. split; cbn [cnt its wraps newobj lost].
    + intros x. specialize (H1 x). rewrite B in H1. cbn. lia.
    + intros x Hx. specialize (H1 x). rewrite (Z0 x Hx) in H1. lia.
  - apply W; [|reflexivity]. intros Ha. destruct (dec_ok f a (P a Ha)) as (f1 & -> & H1). cbn [bind].
    eexists _, _. split; [reflexivity|]. split; cbn [cnt its wraps newobj lost].
    + intros x. specialize (H1 x). rewrite B, (occ_remove1 x a w Ha) in H1. lia.
    + intros x Hx. specialize (H1 x). rewrite (Z0 x Hx) in H1. lia.
Qed.

Lemma run_bal os : forall s L, bal s L ->
  exists s' rs, rrun s os = Ok (s', rs) /\ bal s' (fun a => L a + losses a os rs).
Proof.
  induction os as [|o os IH]; intros s L H; cbn [rrun].
  - exists s, []. split; [reflexivity|]. destruct H as [B Z0]. split; [|exact Z0]. intros a. rewrite B. cbn. lia.
  - destruct (step_bal s L o H) as (s1 & r & -> & H1). cbn [bind fst snd].
    destruct (IH s1 _ H1) as (s2 & rs & -> & H2). cbn [bind fst snd]. exists s2, (r :: rs). split; [reflexivity|].
    destruct H2 as [B Z0]. split; [|exact Z0]. intros a. rewrite B. cbn [losses]. lia.
Qed.
Lemma history_bal os : exists s rs, rrun rstart os = Ok (s, rs) /\
  forall a, cnt s a = occ a (its s) + occ a (wraps s) + losses a os rs.
Proof.
  destruct (run_bal os rstart (fun _ => 0)) as (s & rs & E & [B _]).
  - split; [intros a; reflexivity|reflexivity].
  - exists s, rs. split; [exact E|]. intros a. rewrite B. reflexivity.
Qed.

Definition harmless (o : rop) : Prop := match o with PSet _ _ _ | PRemove _ => False | _ => True end.
Lemma no_losses os : Forall harmless os -> forall a rs, losses a os rs = 0.
Proof.
  induction 1 as [|o os Ho Hos IH]; intros a rs; [reflexivity|]. destruct rs as [|r rs]; [reflexivity|].
  cbn [losses]. rewrite IH. destruct o; try contradiction; reflexivity.
Qed.
Lemma harmless_bal os : Forall harmless os -> exists s rs, rrun rstart os = Ok (s, rs) /\
  (forall a, cnt s a = occ a (its s) + occ a (wraps s)) /\
  (its s = [] -> wraps s = [] -> forall a, cnt s a = 0).
Proof.
  intros H. destruct (history_bal os) as (s & rs & E & B). exists s, rs. split; [exact E|].
  assert (B' : forall a, cnt s a = occ a (its s) + occ a (wraps s)).
  { intros a. rewrite B, (no_losses os H). lia. }
  split; [exact B'|]. intros Hi Hw a. rewrite B', Hi, Hw. reflexivity.
Qed.
