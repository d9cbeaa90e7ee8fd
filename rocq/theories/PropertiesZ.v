(** Properties C104: making a list unique; C52: iterating; C105: sums and multiples.  Only
    statements, each closed by a lemma, its assumptions and concrete cases. *)
From Coq Require Import Permutation.
From Verif Require Import CStr HSListModel HSListFacts HSUniqModel HSUniqFacts
  ObjListModel ObjListFacts PySeqModel SpecZ.

(** The first of each class stays, in order, the others are destroyed, in
    order, every old cell is freed once, and both ends of the list are right. *)
Theorem C104_unique_partial : forall (eqf : nat -> nat -> bool),
  (forall x y z, eqf x y = true -> eqf y z = true -> eqf x z = true) ->
  forall h, NoDup (hitems h) ->
  exists h', hs_unique eqf true h = Ok (h', repeats eqf [] (hitems h), seq 0 (length (hitems h))) /\
    hitems h' = firsts eqf [] (hitems h) /\ good h'.
Proof. exact unique_ok. Qed.
Print Assumptions C104_unique_partial.

(** No two that stay are equal; nothing is lost: what does not stay is
    destroyed once, and equals something that stays; nothing that stays is
    destroyed. *)
Theorem C104_meaning_partial : forall (eqf : nat -> nat -> bool),
  (forall x y z, eqf x y = true -> eqf y z = true -> eqf x z = true) ->
  forall h, NoDup (hitems h) ->
  exists h' ds cells, hs_unique eqf true h = Ok (h', ds, cells) /\
    apart eqf (hitems h') /\
    Permutation (hitems h' ++ ds) (hitems h) /\
    (forall x, In x ds -> exists y, In y (hitems h') /\ eqf y x = true) /\
    (forall x, In x ds -> ~ In x (hitems h')).
Proof. exact unique_meaning. Qed.
Print Assumptions C104_meaning_partial.

(** Without a destructor: unchanged when there is no repeat, a call through
    NULL as soon as there is one. *)
Theorem C104_no_destructor : forall (eqf : nat -> nat -> bool) h,
  (apart eqf (hitems h) ->
    exists h', hs_unique eqf false h = Ok (h', [], seq 0 (length (hitems h))) /\
      hitems h' = hitems h /\ good h') /\
  (~ apart eqf (hitems h) -> hs_unique eqf false h = UB).
Proof. exact unique_nodtor. Qed.
Print Assumptions C104_no_destructor.

(** Data that equal each other when they are equal modulo 3; a stale [last] does
    not matter. *)
Definition mod3 (x y : nat) : bool := Nat.eqb (Nat.modulo x 3) (Nat.modulo y 3).
Example C104_case :
  (forall x y z, mod3 x y = true -> mod3 y z = true -> mod3 x z = true) /\
  NoDup [4; 7; 3; 1; 5; 6] /\
  hs_unique mod3 true (mkH [4; 7; 3; 1; 5; 6] TNull) =
    Ok (mkH [4; 3; 5] (TAt 2), [7; 1; 6], [0; 1; 2; 3; 4; 5]) /\
  hs_unique mod3 true (mkH [] TNull) = Ok (hs_empty, [], []) /\
  apart mod3 [4; 3; 5] /\ hs_unique mod3 false (mkH [4; 3; 5] (TAt 2)) = Ok (mkH [4; 3; 5] (TAt 2), [], [0; 1; 2]) /\
  ~ apart mod3 [4; 7] /\ hs_unique mod3 false (mkH [4; 7] (TAt 1)) = UB.
Proof.
  unfold mod3. split.
  { intros x y z H1 H2. apply Nat.eqb_eq in H1, H2. apply Nat.eqb_eq. congruence. }
  split. { repeat constructor; cbn; intuition discriminate. }
  split; [reflexivity|]. split; [reflexivity|]. split. { repeat constructor. }
  split; [reflexivity|]. split; [|reflexivity].
  intros H. inversion H as [|? ? Hf _]; subst. inversion Hf; subst. discriminate.
Qed.

(** One address twice in the list: its data are destroyed and stay in the list;
    whatever follows is compared with destroyed data. *)
Theorem C104_same_address_refuted : forall (eqf : nat -> nat -> bool) p, eqf p p = true ->
  hs_unique eqf true (mkH [p; p] (TAt 1)) = Ok (mkH [p] (TAt 0), [p], [0; 1]) /\
  (forall q t, hs_unique eqf true (mkH [p; p; q] t) = UB).
Proof.
  intros eqf p Hp. unfold hs_unique. cbn -[Nat.eqb]. rewrite Hp. cbn -[Nat.eqb].
  split; [reflexivity|]. intros q t. rewrite Nat.eqb_refl. reflexivity.
Qed.
Print Assumptions C104_same_address_refuted.

(** * C52 *)
(** Iteration over any sequence yields the items up to the first NULL item. *)
Theorem C52_iter_exact : forall (A : Type) (o : ol (option A)),
  exists r, oitems o = map Some (seq_iter o) ++ r /\ (r = [] \/ exists r', r = None :: r').
Proof. exact @iter_exact. Qed.
Print Assumptions C52_iter_exact.
Example C52_iter_exact_case : seq_iter (mkOL [Some 1; Some 2; None; Some 3] (TAt 3) 4) = [1; 2].
Proof. reflexivity. Qed.

(** * C105 *)
(** The sum written in pycomps_sequence.c: the items of the one, then those of
    the other, NULL items included. *)
Theorem C105_concat : forall (A : Type) (o1 o2 : ol (option A)),
  exists o', seq_concat o1 o2 = Ok o' /\ oitems o' = oitems o1 ++ oitems o2 /\ ogood o'.
Proof. exact @concat_exact. Qed.
Print Assumptions C105_concat.

(** Multiples: the items that often, nothing for a negative number. *)
Theorem C105_repeat_partial : forall (A : Type) (o : ol (option A)),
  (forall n, ogood o -> oitems o <> [] \/ n = 0 ->
    exists o', seq_repeat o (Z.of_nat n) = Ok o' /\ oitems o' = times n (oitems o) /\ ogood o') /\
  (forall n, (n <= 0)%Z -> exists o', seq_repeat o n = Ok o' /\ oitems o' = [] /\ ogood o').
Proof. intros A o. split; [exact (repeat_exact o)|exact (repeat_negative o)]. Qed.
Print Assumptions C105_repeat_partial.
Example C105_repeat_case :
  ogood (mkOL [Some 1; None] (TAt 1) 2) /\
  seq_concat (mkOL [Some 1; None] (TAt 1) 2) (mkOL [Some 3] (TAt 0) 1) = Ok (mkOL [Some 1; None; Some 3] (TAt 2) 3) /\
  seq_repeat (mkOL [Some 1; None] (TAt 1) 2) 2 = Ok (mkOL [Some 1; None; Some 1; None] (TAt 3) 4) /\
  seq_repeat (mkOL [Some 1; None] (TAt 1) 2) (-1) = Ok ol_create.
Proof. repeat split. Qed.
(** A multiple of the empty sequence reads [end->next] of a NULL [end]. *)
Theorem C105_repeat_empty_refuted : forall (A : Type) (o : ol (option A)) n,
  ogood o -> oitems o = [] -> (0 < n)%Z -> seq_repeat o n = UB.
Proof. exact @repeat_empty. Qed.
Print Assumptions C105_repeat_empty_refuted.
