(** Property C109: references taken by the methods of Python sequences.  Only
    statements, each closed by a lemma, its assumptions and concrete cases. *)
From Verif Require Import CStr PyIterModel PySeqRefModel PySeqRefFacts.

(** Every history is defined, and the counter of every object is the places that
    hold it in the list, the wrappers that hold it, and one for every assignment
    of it that was not refused by a check and every call of remove with it. *)
Theorem C109_counted : forall os, exists s rs, rrun rstart os = Ok (s, rs) /\
  forall a, cnt s a = count_occ Nat.eq_dec (its s) a + count_occ Nat.eq_dec (wraps s) a + losses a os rs.
Proof. exact history_bal. Qed.
Print Assumptions C109_counted.

(** Without assignments and remove nothing leaks: counters are the references
    held, and with an empty list and no wrappers every object is freed. *)
Theorem C109_no_leak_partial : forall os, Forall harmless os -> exists s rs, rrun rstart os = Ok (s, rs) /\
  (forall a, cnt s a = count_occ Nat.eq_dec (its s) a + count_occ Nat.eq_dec (wraps s) a) /\
  (its s = [] -> wraps s = [] -> forall a, cnt s a = 0).
Proof. exact harmless_bal. Qed.
Print Assumptions C109_no_leak_partial.

Definition seen9 (os : list rop) : res (list nat * list nat * list nat * list rout) :=
  a <- rrun rstart os ;;
  Ok (its (fst a), wraps (fst a), map (cnt (fst a)) (seq 0 (newobj (fst a))), snd a).
Example C109_case :
  Forall harmless [PNew; PNew; PAppend 0 true; PInsert 0 1 true; PInsert 5 0 true; PGet 0; PDel 2; PAppend 1 false] /\
  seen9 [PNew; PNew; PAppend 0 true; PInsert 0 1 true; PInsert 5 0 true; PGet 0; PDel 2; PAppend 1 false]
    = Ok ([1; 0], [1; 1; 0], [2; 3], [Done; Done; Done; Done; Done; Done; Done; Refused]) /\
  seen9 [PNew; PAppend 0 true; PGet 0; PFree 0; PClear; PFree 0]
    = Ok ([], [], [0], [Done; Done; Done; Done; Done; Done]) /\
  seen9 [PNew; PNew; PAppend 0 true; PSet 0 1 false; PSet 0 1 true]
    = Ok ([1], [1; 0], [1; 3], [Done; Done; Done; Refused; Done]).
Proof. repeat split; repeat constructor. Qed.

(** Item assignment and remove leak, whether they succeed or not: with the list
    cleared and no wrapper left the object still has a reference. *)
Theorem C109_leak_refuted :
  seen9 [PNew; PNew; PAppend 0 true; PSet 0 1 true; PClear; PFree 0; PFree 1]
    = Ok ([], [], [0; 1], [Done; Done; Done; Done; Done; Done; Done]) /\
  seen9 [PNew; PSet 3 0 true; PFree 0] = Ok ([], [], [1], [Done; IndexErr; Done]) /\
  seen9 [PNew; PNew; PAppend 0 true; PSet (-1) 1 true; PClear; PFree 0; PFree 1]
    = Ok ([], [], [0; 1], [Done; Done; Done; Done; Done; Done; Done]) /\
  seen9 [PNew; PAppend 0 true; PRemove 0; PFree 0] = Ok ([], [], [1], [Done; Done; Done; Done]) /\
  seen9 [PNew; PRemove 0; PFree 0] = Ok ([], [], [1], [Done; ValueErr; Done]).
Proof. repeat split. Qed.
Print Assumptions C109_leak_refuted.
