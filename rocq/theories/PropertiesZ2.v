(** Property C106: iterating over Python sequences that change.  Only
    statements, each closed by a lemma, its assumptions and concrete cases. *)
From Verif Require Import CStr PyIterModel PyIterFacts.

(** For every history: what the iterator gives and what the list is in the end
    are those of the two parts behind and ahead of it; the history is undefined
    exactly when the iterator is asked after the item ahead of it was taken
    away. *)
Theorem C106_iterator : forall (A : Type) (l : list (option A)) os,
  match prun (Live [] l) os with
  | Ok (p, out) => exists s, irun (getiter l) os = Ok (s, out) /\ map snd (cells s) = items p
  | _ => irun (getiter l) os = UB
  end.
Proof. exact @iterator_exact. Qed.
Print Assumptions C106_iterator.
Example C106_case :
  let os := [INext; IInsert 0 (Some 7); IInsert 3 (Some 8); INext; ISet 3 None; IRemove 1; IAppend (Some 9); INext; INext] in
  prun (Live [] [Some 1; Some 2; Some 3]) os =
    Ok (Live [Some 7; Some 2] [None; Some 3; Some 9], [Some 1; Some 2; None; None]) /\
  irun (getiter [Some 1; Some 2; Some 3]) os =
    Ok (mkIst [(3, Some 7); (1, Some 2); (4, None); (2, Some 3); (5, Some 9)] 6 (Some 4), [Some 1; Some 2; None; None]).
Proof. split; reflexivity. Qed.

(** Defined as long as nothing is taken away. *)
Theorem C106_defined_partial : forall (A : Type) (l : list (option A)) os,
  Forall keeps os -> exists s out, irun (getiter l) os = Ok (s, out).
Proof. exact @keeps_defined. Qed.
Print Assumptions C106_defined_partial.
Example C106_defined_case : Forall keeps [INext; IInsert 0 (Some 7); ISet 3 None; IAppend (Some 9); INext].
Proof. repeat constructor. Qed.

(** Every item once, in order, then the end; also when each item is taken away
    as soon as it was given. *)
Theorem C106_all : forall (A : Type) (l : list A),
  (exists s, irun (getiter (map Some l)) (repeat INext (S (length l))) = Ok (s, map Some l ++ [None]) /\
     map snd (cells s) = map Some l) /\
  (exists s, irun (getiter (map Some l)) (drain (length l)) = Ok (s, map Some l ++ [None]) /\ cells s = []).
Proof. intros A l. split; [exact (read_all l)|exact (drain_all l)]. Qed.
Print Assumptions C106_all.
Example C106_all_case : drain 2 = [INext; IRemove 0; INext; IRemove 0; @INext nat] /\
  irun (getiter [Some 4; Some 5]) (drain 2) = Ok (mkIst [] 2 None, [Some 4; Some 5; None]).
Proof. split; reflexivity. Qed.

(** Taking away the item after the one just given, or all of them, leaves the
    iterator on a freed node. *)
Theorem C106_remove_refuted : forall (A : Type) (x y : option A) z l os, x = Some z ->
  irun (getiter (x :: y :: l)) ([INext; IRemove 1] ++ INext :: os) = UB /\
  irun (getiter (x :: y :: l)) ([INext; IClear] ++ INext :: os) = UB.
Proof. exact @remove_next_ub. Qed.
Print Assumptions C106_remove_refuted.

(** An item appended after the last one was given is never given; a Python list
    gives it. *)
Theorem C106_append_refuted : forall (A : Type) (x y : A),
  exists s, irun (getiter [Some x]) [INext; IAppend (Some y); INext] = Ok (s, [Some x; None]) /\
    map snd (cells s) = [Some x; Some y].
Proof. intros A x y. eexists. split; reflexivity. Qed.
Print Assumptions C106_append_refuted.
