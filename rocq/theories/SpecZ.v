(** Facts about iterating over any Python sequence, and about the sums and
    multiples of sequences written in pycomps_sequence.c. *)
From Verif Require Import CStr CStrFacts HSListModel ObjListModel ObjListFacts PySeqModel PySeqFacts.

Section Z.
Context {A : Type}.
Implicit Types o : ol (option A).

(** The items in front of the first NULL item. *)
Lemma iter_exact o : exists r, oitems o = map Some (seq_iter o) ++ r /\ (r = [] \/ exists r', r = None :: r').
Proof.
  unfold seq_iter. induction (oitems o) as [|[x|] l IH]; cbn [iter_loop map app].
  - exists []. auto.
  - destruct IH as (r & E & H). exists r. split; [f_equal; exact E|exact H].
  - exists (None :: l). split; [reflexivity|]. right. eauto.
Qed.

(** [n] times the items of [l], one after the other. *)
Fixpoint times (n : nat) (l : list (option A)) : list (option A) :=
  match n with O => [] | S m => l ++ times m l end.

Lemma repeat_loop_ok l : forall n r, ogood r ->
  exists r', repeat_loop n l r = Ok r' /\ oitems r' = oitems r ++ times n l /\ ogood r'.
Proof.
  induction n as [|n IH]; intros r Hg; cbn [repeat_loop times].
  - exists r. rewrite app_nil_r. auto.
  - destruct (ogood_append_all l r Hg) as (r1 & -> & Hi & Hg1). cbn [bind].
    destruct (IH r1 Hg1) as (r2 & -> & Hi2 & Hg2). exists r2. rewrite Hi2, Hi, <- app_assoc. auto.
Qed.

Lemma repeat_exact o n : ogood o -> oitems o <> [] \/ n = 0 ->
  exists o', seq_repeat o (Z.of_nat n) = Ok o' /\ oitems o' = times n (oitems o) /\ ogood o'.
Proof.
  intros [Hl Ht] Hn. unfold seq_repeat. rewrite Nat2Z.id. destruct n as [|n].
  - exists ol_create. split; [reflexivity|]. split; [reflexivity|apply ogood_create].
  - destruct Hn as [Hn|Hn]; [|discriminate]. destruct (otail o) as [|j|] eqn:E.
    + contradiction.
    + rewrite firstn_all2 by lia. destruct (repeat_loop_ok (oitems o) (S n) ol_create ogood_create) as (r & Hr & Hi & Hg).
      exists r. split; [exact Hr|]. split; [exact Hi|exact Hg].
    + contradiction.
Qed.
Lemma repeat_negative o n : (n <= 0)%Z -> exists o', seq_repeat o n = Ok o' /\ oitems o' = [] /\ ogood o'.
Proof.
  intros H. unfold seq_repeat. replace (Z.to_nat n) with 0 by lia. exists ol_create.
  split; [reflexivity|]. split; [reflexivity|apply ogood_create].
Qed.
Lemma repeat_empty o n : ogood o -> oitems o = [] -> (0 < n)%Z -> seq_repeat o n = UB.
Proof.
  intros [Hl Ht] He Hn. unfold seq_repeat. destruct (Z.to_nat n) as [|m] eqn:E; [lia|].
  destruct (otail o) as [|j|]; [reflexivity| |contradiction]. rewrite He in Ht. discriminate.
Qed.
Lemma concat_exact o1 o2 :
  exists o', seq_concat o1 o2 = Ok o' /\ oitems o' = oitems o1 ++ oitems o2 /\ ogood o'.
Proof.
  unfold seq_concat, ol_concat.
  destruct (ogood_append_all (oitems o1) ol_create ogood_create) as (r & -> & Hi & Hg). cbn [bind].
  destruct (ogood_append_all (oitems o2) r Hg) as (r2 & -> & Hi2 & Hg2). exists r2. rewrite Hi2, Hi. auto.
Qed.
End Z.
