(** Property C107: iterating over Python dictionaries that change.  Only
    statements, each closed by a lemma, its assumptions and concrete cases. *)
From Verif Require Import CStr PyDictIterModel PyDictIterFacts.

(** For every history: the iterator gives the entries the dictionary had when
    the iterator was made, in order; the history is undefined exactly when an
    iterator of values or items comes to an entry whose key was touched since
    and whose object nobody else holds. *)
Theorem C107_iterator : forall txt outside kind l n os,
  NoDup (map snd l) -> (forall e, In e l -> snd e < n) ->
  forall r, outcome txt outside kind l n os = r <-> answers txt outside kind l (Some []) os r.
Proof. exact outcome_exact. Qed.
Print Assumptions C107_iterator.

(** Iterators of keys are always defined; those of values and items when
    nothing but the iterator is called. *)
Theorem C107_defined_partial : forall txt outside kind l n os,
  NoDup (map snd l) -> (forall e, In e l -> snd e < n) ->
  kind = ItKeys \/ Forall (fun o => o = DNext) os ->
  outcome txt outside kind l n os = Ok (gives txt kind l (asked os)).
Proof. exact free_outcome. Qed.
Print Assumptions C107_defined_partial.

(** Setting, unsetting or clearing the entry the iterator comes to, or giving
    back the dictionary, makes the next step read a destroyed object. *)
Theorem C107_changed_refuted : forall txt outside kind k x l n o os,
  NoDup (map snd ((k, x) :: l)) -> (forall e, In e ((k, x) :: l) -> snd e < n) ->
  kind <> ItKeys -> outside x = false -> o = DSet k \/ o = DDel k \/ o = DClear \/ o = DDrop ->
  outcome txt outside kind ((k, x) :: l) n (o :: DNext :: os) = UB.
Proof. exact lost_outcome. Qed.
Print Assumptions C107_changed_refuted.

Definition txt7 (x : nat) : str := match x with 0 => S_ "zero" | 1 => S_ "one" | _ => S_ "two" end.
Definition nobody (x : nat) : bool := false.
Definition en : list (str * nat) := [(S_ "a", 0); (S_ "b", 1); (S_ "c", 2)].
Example C107_case :
  NoDup (map snd en) /\ (forall e, In e en -> snd e < 3) /\
  outcome txt7 nobody ItKeys en 3 [DDel (S_ "a"); DNext; DDrop; DNext; DNext; DNext] =
    Ok [Some (Some (S_ "a"), None); Some (Some (S_ "b"), None); Some (Some (S_ "c"), None); None] /\
  outcome txt7 nobody ItItems en 3 [DNext; DSet (S_ "a"); DSet (S_ "d"); DNext] =
    Ok [Some (Some (S_ "a"), Some (S_ "zero")); Some (Some (S_ "b"), Some (S_ "one"))] /\
  outcome txt7 nobody ItValues en 3 [DNext; DNext; DNext; DNext] =
    Ok [Some (None, Some (S_ "zero")); Some (None, Some (S_ "one")); Some (None, Some (S_ "two")); None] /\
  outcome txt7 nobody ItValues en 3 [DNext; DSet (S_ "b"); DNext] = UB /\
  outcome txt7 (Nat.eqb 1) ItValues en 3 [DNext; DSet (S_ "b"); DNext] =
    Ok [Some (None, Some (S_ "zero")); Some (None, Some (S_ "one"))].
Proof.
  split; [repeat constructor; cbn; intuition discriminate|].
  split; [cbn; intros e [<-|[<-|[<-|[]]]]; cbn; auto|].
  repeat split.
Qed.
