(** Property C108: comparing Python sequences.  Only statements, each closed by
    a lemma, its assumptions and concrete cases. *)
From Verif Require Import CStr PyObjModel PySeqCmpModel PySeqCmpFacts.

(** Sequences of one kind of objects: [==] says that there are equal objects at
    equal places, [!=] the contrary, the other operators false. *)
Theorem C108_same_kind_partial : forall (V : Type) (cmpv : nat -> V -> V -> res bool) k eqv l1 l2,
  (forall x y, cmpv k x y = Ok (eqv x y)) -> of_kind k l1 -> of_kind k l2 ->
  exists e, seqcmp cmpv l1 (ASeq l2) OpEq = Ok e /\ (e = true <-> Forall2 (same_item eqv) l1 l2) /\
    seqcmp cmpv l1 (ASeq l2) OpNe = Ok (negb e) /\
    (forall op, op <> OpEq -> op <> OpNe -> seqcmp cmpv l1 (ASeq l2) op = Ok false).
Proof. exact @same_kind_ops. Qed.
Print Assumptions C108_same_kind_partial.

(** An empty sequence can be compared with any sequence. *)
Theorem C108_empty : forall (V : Type) (cmpv : nat -> V -> V -> res bool) l op,
  seqcmp cmpv [] (ASeq l) op = Ok (match op, l with OpEq, [] => true | OpNe, _ :: _ => true | _, _ => false end) /\
  seqcmp cmpv l (ASeq []) op = Ok (match op, l with OpEq, [] => true | OpNe, _ :: _ => true | _, _ => false end).
Proof. exact @empty_any. Qed.
Print Assumptions C108_empty.

Definition cmp8 (k : nat) (x y : nat) : res bool := Ok (Nat.eqb x y).
Example C108_case :
  (forall x y, cmp8 1 x y = Ok (Nat.eqb x y)) /\ of_kind 1 [Some (1, 5); None] /\
  seqcmp cmp8 [Some (1, 5); None] (ASeq [Some (1, 5); None]) OpEq = Ok true /\
  seqcmp cmp8 [Some (1, 5); None] (ASeq [Some (1, 5)]) OpEq = Ok false /\
  seqcmp cmp8 [Some (1, 5); None] (ASeq [Some (1, 6); None]) OpNe = Ok true /\
  seqcmp cmp8 [Some (1, 5)] (ASeq [Some (1, 6)]) OpLt = Ok false.
Proof. repeat split; repeat constructor. Qed.

(** Comparing a sequence with None, or with anything that is not a sequence, is
    undefined; so is comparing two sequences that begin with objects of different
    kinds. *)
Theorem C108_refuted : forall (V : Type) (cmpv : nat -> V -> V -> res bool) op,
  (forall l, seqcmp cmpv l AOther op = UB) /\
  (forall k k' (x y : V) l1 l2, k <> k' ->
    seqcmp cmpv (Some (k, x) :: l1) (ASeq (Some (k', y) :: l2)) op = UB).
Proof. intros V cmpv op. split; [intros l; exact (foreign cmpv l op)|intros; now apply other_kind]. Qed.
Print Assumptions C108_refuted.
