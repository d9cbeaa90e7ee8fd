(** Property theorems for the multi-dictionaries (C12, C13, C41-C43). *)
From Verif Require Import CStr CStrFacts HSListModel HSListFacts SetModel SetFacts RTreeModel RTreeFacts
  RTreeFacts2 RTreeFacts3 RTreeFacts4 MRTreeModel MRTreeFacts MRTreeFacts2 SpecA SpecB.

(** * C12 *)
(** Exact law when no two keys part at a point that is not itself a key. *)
Theorem C12_get_partial : forall {V} (kvs : list (str * V)),
  nonempty_keys kvs -> no_branching kvs ->
  exists t, mt_sets mt_create kvs = Ok t /\
    forall k, mt_get t k = Ok (match values_of kvs k with [] => None | vs => Some (map MV vs) end).
Proof. exact @md_get_exact. Qed.
Print Assumptions C12_get_partial.
Example C12_case : let kvs := [(S_ "a", 1); (S_ "ab", 2); (S_ "ac", 3); (S_ "x", 4); (S_ "ab", 5)] in
  nonempty_keys kvs /\ no_branching kvs /\ values_of kvs (S_ "ab") = [2; 5].
Proof. split; [apply nonempty_keys_b; reflexivity|]. split; [apply no_branching_b|]; vm_compute; reflexivity. Qed.
(** Always: the values are there, in order, once nested lists are spliced. *)
Theorem C12_get_values_partial : forall {V} (kvs : list (str * V)),
  nonempty_keys kvs ->
  exists t, mt_sets mt_create kvs = Ok t /\ mlen t = Z.of_nat (length kvs) /\
    forall k, plain (mt_get t k) = values_of kvs k.
Proof. exact @md_get_flat. Qed.
Print Assumptions C12_get_values_partial.
Example C12_values_case : let kvs := [(S_ "abc", 1); (S_ "abd", 2); (S_ "a", 3)] in
  nonempty_keys kvs /\ ~ no_branching kvs.
Proof.
  split; [apply nonempty_keys_b; reflexivity|]. intros H.
  specialize (H [(S_ "abc", 1)] (S_ "abd") 2 [(S_ "a", 3)] (S_ "abc") (S_ "ab") "c"%char [] "d"%char []
    eq_refl (or_introl eq_refl) eq_refl eq_refl ltac:(discriminate) ltac:(discriminate)).
  destruct H as [H|[]]. discriminate.
Qed.
(** In full the property is false: after two keys that diverge, the value of
    the first one is wrapped in a list, and their common prefix has become a key
    with an empty list. *)
Theorem C12_get_refuted : exists t : mtree nat,
  mt_sets mt_create [(S_ "abc", 1); (S_ "abd", 2)] = Ok t /\
  mt_get t (S_ "abc") = Ok (Some [MNest [MV 1]]) /\
  mt_get t (S_ "abd") = Ok (Some [MV 2]) /\ mt_get t (S_ "ab") = Ok (Some []).
Proof. eexists. split; [vm_compute; reflexivity|]. vm_compute. repeat split. Qed.
Print Assumptions C12_get_refuted.

(** * C13 *)
Theorem C13_cmp_keys_partial : forall {V} (eqv : list (mval V) -> list (mval V) -> bool) (t1 t2 : mtree V),
  (forall l, eqv l l = true) -> mreach t1 -> mreach t2 ->
  exists b, mt_cmp eqv t1 t2 = Ok b /\ (b = true <-> forall k, listed t1 k <-> listed t2 k).
Proof. exact @md_cmp. Qed.
Print Assumptions C13_cmp_keys_partial.
(** The values do not matter, whatever the comparison of objects is. *)
Theorem C13_cmp_refuted : forall (eqv : list (mval nat) -> list (mval nat) -> bool),
  (forall l, eqv l l = true) ->
  exists t1 t2 : mtree nat, mt_sets mt_create [(S_ "a", 1)] = Ok t1 /\ mt_sets mt_create [(S_ "a", 2)] = Ok t2 /\
    mt_get t1 (S_ "a") <> mt_get t2 (S_ "a") /\ mt_cmp eqv t1 t2 = Ok true.
Proof.
  intros eqv Hr. eexists _, _. split; [vm_compute; reflexivity|]. split; [vm_compute; reflexivity|].
  split; [vm_compute; discriminate|]. unfold mt_cmp. cbn. unfold set_cmp, set_at. cbn. unfold mpaircmp. cbn. now rewrite Hr.
Qed.
Print Assumptions C13_cmp_refuted.
Example C13_case : exists t1 t2 : mtree nat, mreach t1 /\ mreach t2 /\
  mt_cmp (fun _ _ => true) t1 t2 = Ok true /\ mt_cmp (fun _ _ => true) t1 mt_create = Ok false /\ t1 <> t2.
Proof.
  eexists _, _. split.
  { apply (mreach_sets [(S_ "a", 1); (S_ "b", 2)] _ mt_create MR_create); [apply nonempty_keys_b; reflexivity|vm_compute; reflexivity]. }
  split.
  { apply (mreach_sets [(S_ "b", 2); (S_ "a", 1)] _ mt_create MR_create); [apply nonempty_keys_b; reflexivity|vm_compute; reflexivity]. }
  vm_compute. split; [reflexivity|]. split; [reflexivity|discriminate].
Qed.

(** * C41 *)
Theorem C41_unset_partial : forall {V} (t : mtree V) (k : str), mreach t -> k <> [] ->
  (mt_unset t k = UB /\ only_extension t k) \/
  (~ only_extension t k /\ exists t', mt_unset t k = Ok t' /\
     plain (mt_get t' k) = [] /\ (forall k', k' <> k -> plain (mt_get t' k') = plain (mt_get t k'))).
Proof. exact @md_unset. Qed.
Print Assumptions C41_unset_partial.
(** Removing "ab" after setting "a" and "ab" uses freed memory. *)
Theorem C41_unset_refuted : exists t : mtree nat,
  mt_sets mt_create [(S_ "a", 1); (S_ "ab", 2)] = Ok t /\ mt_unset t (S_ "ab") = UB.
Proof. eexists. split; vm_compute; reflexivity. Qed.
Print Assumptions C41_unset_refuted.
Example C41_case : exists t t' : mtree nat, mreach t /\
  plain (mt_get t (S_ "ab")) = [2; 3] /\ mt_unset t (S_ "ab") = Ok t' /\ plain (mt_get t' (S_ "ab")) = [] /\
  plain (mt_get t' (S_ "abc")) = [4].
Proof.
  eexists _, _. split.
  { apply (mreach_sets [(S_ "ab", 2); (S_ "ab", 3); (S_ "abc", 4)] _ mt_create MR_create);
      [apply nonempty_keys_b; reflexivity|vm_compute; reflexivity]. }
  vm_compute. repeat split.
Qed.

(** * C42 *)
Theorem C42_unite_concatenates : forall {V} (t1 t2 : mtree V), mreach t1 -> mreach t2 ->
  exists t, mt_unite t1 t2 = Ok t /\
    forall k, plain (mt_get t k) = plain (mt_get t1 k) ++ plain (mt_get t2 k).
Proof. exact @md_unite. Qed.
Print Assumptions C42_unite_concatenates.
Example C42_case : exists t1 t2 t : mtree nat,
  mreach t1 /\ mreach t2 /\ mt_unite t1 t2 = Ok t /\ plain (mt_get t (S_ "ab")) = [1; 4] /\ plain (mt_get t (S_ "ac")) = [2].
Proof.
  eexists _, _, _. split.
  { apply (mreach_sets [(S_ "ab", 1); (S_ "ac", 2)] _ mt_create MR_create); [apply nonempty_keys_b; reflexivity|vm_compute; reflexivity]. }
  split.
  { apply (mreach_sets [(S_ "b", 3); (S_ "ab", 4)] _ mt_create MR_create); [apply nonempty_keys_b; reflexivity|vm_compute; reflexivity]. }
  vm_compute. repeat split.
Qed.

(** * C43 *)
Theorem C43_enumeration : forall {V} (t : mtree V), mreach t ->
  exists ps, mt_pairs t = Ok ps /\ NoDup (map fst ps) /\
    (forall k l, In (k, l) ps <-> mt_get t k = Ok (Some l)) /\
    mt_keys t = Ok (map fst ps) /\ mt_values t = Ok (map snd ps).
Proof. exact @md_enum. Qed.
Print Assumptions C43_enumeration.
Example C43_case : exists t : mtree nat, mreach t /\
  mt_pairs t = Ok [(S_ "ab", []); (S_ "abc", [MNest [MV 1]]); (S_ "abd", [MV 2])].
Proof.
  eexists. split.
  { apply (mreach_sets [(S_ "abc", 1); (S_ "abd", 2)] _ mt_create MR_create); [apply nonempty_keys_b; reflexivity|vm_compute; reflexivity]. }
  vm_compute. reflexivity.
Qed.
