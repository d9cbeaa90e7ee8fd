(** Facts about the comparison operators of Python sequences. *)
From Verif Require Import CStr PyObjModel PySeqCmpModel.

Section Facts.
Context {V : Type} (cmpv : nat -> V -> V -> res bool).

(** All objects of the list are of kind [k]. *)
Definition of_kind (k : nat) (l : list (@item V)) : Prop :=
  Forall (fun i => match i with Some (k', _) => k' = k | None => True end) l.
(** Both missing, or both there and equal. *)
Definition same_item (eqv : V -> V -> bool) (a b : @item V) : Prop :=
  match a, b with
  | None, None => True
  | Some (_, x), Some (_, y) => eqv x y = true
  | _, _ => False
  end.

Lemma items_same k eqv l1 : (forall x y, cmpv k x y = Ok (eqv x y)) -> of_kind k l1 ->
  forall l2, of_kind k l2 -> exists b, items_cmp cmpv l1 l2 = Ok b /\ (b = true <-> Forall2 (same_item eqv) l1 l2).
Proof.
  intros Hc H1. induction H1 as [|a l1 Ha H1 IH]; intros l2 H2.
  - destruct l2 as [|b l2]; cbn; eexists; (split; [reflexivity|]); split; intros H; try constructor; try discriminate.
    inversion H.
  - destruct H2 as [|b l2 Hb H2]; cbn [items_cmp].
    + eexists; split; [reflexivity|]. split; [discriminate|intros H; inversion H].
    + assert (X : exists c, item_cmp cmpv a b = Ok c /\ (c = true <-> same_item eqv a b)).
      { destruct a as [[ka x]|], b as [[kb y]|]; cbn [item_cmp same_item]; subst.
        - rewrite Nat.eqb_refl, Hc. eexists; split; [reflexivity|]. reflexivity.
        - eexists; split; [reflexivity|]. split; [discriminate|intros []].
        - eexists; split; [reflexivity|]. split; [discriminate|intros []].
        - eexists; split; [reflexivity|]. split; auto. }
      destruct X as (c & -> & Hx). cbn [bind]. destruct c.
      * destruct (IH l2 H2) as (d & -> & Hd). exists d. split; [reflexivity|]. rewrite Hd. split.
        -- intros H. constructor; [apply Hx; reflexivity|exact H].
        -- intros H. inversion H; subst. assumption.
      * exists false. split; [reflexivity|]. split; [discriminate|]. intros H. inversion H; subst.
        apply Hx. assumption.
Qed.

Lemma same_kind_ops k eqv l1 l2 : (forall x y, cmpv k x y = Ok (eqv x y)) -> of_kind k l1 -> of_kind k l2 ->
  exists e, seqcmp cmpv l1 (ASeq l2) OpEq = Ok e /\ (e = true <-> Forall2 (same_item eqv) l1 l2) /\
    seqcmp cmpv l1 (ASeq l2) OpNe = Ok (negb e) /\
    (forall op, op <> OpEq -> op <> OpNe -> seqcmp cmpv l1 (ASeq l2) op = Ok false).
Proof.
  intros Hc H1 H2. destruct (items_same k eqv l1 Hc H1 l2 H2) as (e & E & He).
  exists e. unfold seqcmp. rewrite E. cbn [bind]. repeat split; try apply He.
  intros op N1 N2. destruct op; congruence.
Qed.

Lemma other_kind k k' (x y : V) l1 l2 op : k <> k' ->
  seqcmp cmpv (Some (k, x) :: l1) (ASeq (Some (k', y) :: l2)) op = UB.
Proof.
  intros N. unfold seqcmp. cbn [items_cmp item_cmp]. destruct (Nat.eqb_spec k k'); [contradiction|reflexivity].
Qed.
Lemma empty_any l op :
  seqcmp cmpv [] (ASeq l) op = Ok (match op, l with OpEq, [] => true | OpNe, _ :: _ => true | _, _ => false end) /\
  seqcmp cmpv l (ASeq []) op = Ok (match op, l with OpEq, [] => true | OpNe, _ :: _ => true | _, _ => false end).
Proof. split; destruct l, op; reflexivity. Qed.
Lemma foreign l op : seqcmp cmpv l AOther op = UB.
Proof. reflexivity. Qed.
End Facts.
