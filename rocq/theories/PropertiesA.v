(** Container properties C01-C11, C14.  Only statements, each closed by a lemma
    of the facts files, its assumptions, and concrete cases meeting its
    hypotheses. *)
From Coq Require Import Permutation.
From Verif Require Import CStr CStrFacts HSListModel HSListFacts SetModel SetFacts
  RTreeModel RTreeFacts RTreeFacts2 RTreeFacts3 RTreeFacts4 ObjListModel ObjListFacts SpecA.

(** * C01 *)
Theorem C01_objlist_is_sequence : forall {A} (same : A -> A -> bool) (cs : list (lop A)),
  lops_ok same [] cs ->
  exists o outs, ol_run same ol_create cs = Ok (o, outs) /\
    lspecs same [] cs (oitems o) outs /\
    (forall p, ol_get o p = nth_error (oitems o) p) /\ olen o = length (oitems o).
Proof. exact @objlist_history. Qed.
Print Assumptions C01_objlist_is_sequence.
Example C01_case :
  lops_ok Nat.eqb [] [LAppend 1; LInsertAt 0 2; LInsertAt 9 7; LInsertAt 2 3; LRemoveAt 5; LRemove 1; LSet 1 8; LGet 1] /\
  ol_run Nat.eqb ol_create [LAppend 1; LInsertAt 0 2; LInsertAt 9 7; LInsertAt 2 3; LRemoveAt 5; LRemove 1; LSet 1 8; LGet 1]
  = Ok (mkOL [2; 8] (TAt 1) 2, [LCode 1; LCode 1; LCode (-1); LCode 1; LCode 0; LCode 1; LCode 0; LObj (Some 8)]).
Proof. split; [cbn; repeat split|vm_compute; reflexivity]. Qed.
(** insert_before is not part of the refinement: on the second item it inserts
    in front of the first, and on the first item it runs off the list. *)
Theorem C01_insert_before_refuted :
  (exists o : ol nat, ogood o /\ exists o', ol_insert_before o 1 9 = Ok o' /\
     oitems o' <> firstn 1 (oitems o) ++ [9] ++ skipn 1 (oitems o)) /\
  (exists o : ol nat, ogood o /\ oitems o <> [] /\ ol_insert_before o 0 9 = UB).
Proof.
  split.
  - exists (mkOL [1; 2] (TAt 1) 2). split; [split; reflexivity|]. eexists; split; [reflexivity|]. discriminate.
  - exists (mkOL [1; 2] (TAt 1) 2). split; [split; reflexivity|]. split; [discriminate|reflexivity].
Qed.
Print Assumptions C01_insert_before_refuted.
Theorem C01_insert_before_partial : forall {A} (o : ol A) i x,
  ogood o -> 2 <= i -> i < length (oitems o) ->
  exists o', ol_insert_before o i x = Ok o' /\
    oitems o' = firstn i (oitems o) ++ [x] ++ skipn i (oitems o) /\ ogood o'.
Proof. exact @ol_insert_before_spec. Qed.
Print Assumptions C01_insert_before_partial.
Example C01_insert_before_case : ogood (mkOL [1; 2; 3] (TAt 2) 3) /\ 2 <= 2 < length [1; 2; 3].
Proof. split; [split; reflexivity|cbn; lia]. Qed.

(** * C02 *)
Theorem C02_derived_operations : forall {A} (same : A -> A -> bool) (cs : list (lop A)) o outs,
  lops_ok same [] cs -> ol_run same ol_create cs = Ok (o, outs) ->
  (forall f, exists o', ol_filter f o = Ok o' /\ oitems o' = filter f (oitems o) /\ olen o' = length (oitems o')) /\
  (forall o2, exists o', ol_concat o o2 = Ok o' /\ oitems o' = oitems o ++ oitems o2 /\ olen o' = length (oitems o')) /\
  (forall x i, ol_index same o x = Some i <-> first_at same (oitems o) x i) /\
  (forall x, ol_index same o x = None <-> absent same (oitems o) x) /\
  (forall i j, i <= j -> j < length (oitems o) ->
     exists o', ol_sublist_it o i (Some j) = Ok o' /\ oitems o' = firstn (j - i) (skipn i (oitems o))).
Proof. exact @objlist_derived. Qed.
Print Assumptions C02_derived_operations.
Example C02_case :
  lops_ok Nat.eqb [] [LAppend 5; LAppend 6; LAppend 5] /\
  ol_run Nat.eqb ol_create [LAppend 5; LAppend 6; LAppend 5] = Ok (mkOL [5; 6; 5] (TAt 2) 3, [LCode 1; LCode 1; LCode 1]) /\
  ol_index Nat.eqb (mkOL [5; 6; 5] (TAt 2) 3) 5 = Some 0.
Proof. split; [cbn; repeat split|split; vm_compute; reflexivity]. Qed.
(** sublist_indexed never returns the last element. *)
Theorem C02_sublist_indexed_refuted :
  exists (o : ol nat) s e o', ogood o /\ s <= e /\ e <= length (oitems o) /\
    ol_sublist_indexed o s e = Ok o' /\ oitems o' <> firstn (e - s) (skipn s (oitems o)).
Proof.
  exists (mkOL [1; 2] (TAt 1) 2), 0, 2, (mkOL [1] (TAt 0) 1).
  split; [split; reflexivity|]. split; [lia|]. split; [cbn; lia|]. split; [vm_compute; reflexivity|discriminate].
Qed.
Print Assumptions C02_sublist_indexed_refuted.
Theorem C02_sublist_indexed_partial : forall {A} (o : ol A) s e, s <= e ->
  exists o', ol_sublist_indexed o s e = Ok o' /\
    oitems o' = firstn (e - s) (skipn s (removelast (oitems o))) /\ ogood o'.
Proof. exact @ol_sublist_indexed_spec. Qed.
Print Assumptions C02_sublist_indexed_partial.
Example C02_sublist_case : ol_sublist_indexed (mkOL [1; 2; 3; 4] (TAt 3) 4) 1 3 = Ok (mkOL [2; 3] (TAt 1) 2).
Proof. vm_compute; reflexivity. Qed.
(** get_it never finds an item. *)
Theorem C02_get_it_refuted : forall {A} (o : ol A) p, ol_get_it o p = None.
Proof. exact @ol_get_it_none. Qed.
Print Assumptions C02_get_it_refuted.

(** * C03 *)
Theorem C03_list_cmp : forall {A} (eqv : A -> A -> bool),
  (forall o1 o2, ol_cmp eqv o1 o2 = true <-> Forall2 (fun x y => eqv x y = true) (oitems o1) (oitems o2)) /\
  ((forall x, eqv x x = true) -> forall o, ol_cmp eqv o o = true) /\
  ((forall x y, eqv x y = eqv y x) -> forall o1 o2, ol_cmp eqv o1 o2 = ol_cmp eqv o2 o1) /\
  ((forall x y z, eqv x y = true -> eqv y z = true -> eqv x z = true) ->
    forall o1 o2 o3, ol_cmp eqv o1 o2 = true -> ol_cmp eqv o2 o3 = true -> ol_cmp eqv o1 o3 = true).
Proof. exact @ol_cmp_equiv. Qed.
Print Assumptions C03_list_cmp.
Example C03_case : ol_cmp Nat.eqb (mkOL [1; 2] (TAt 1) 2) (mkOL [1; 2] (TAt 1) 2) = true /\
  ol_cmp Nat.eqb (mkOL [1; 2] (TAt 1) 2) (mkOL [1] (TAt 0) 1) = false.
Proof. split; reflexivity. Qed.

(** * C04 *)
Theorem C04_hslist_partial : forall {A} (ops : list (hop A)),
  hops_safe [] ops ->
  exists h, hs_run hs_empty ops = Ok (h, snd (seq_run [] ops)) /\ hitems h = fst (seq_run [] ops).
Proof. exact @hs_run_empty. Qed.
Print Assumptions C04_hslist_partial.
Example C04_case : hops_safe [] [HAppend 1; HPrepend 0; HAppend 2; HInsertAt 1 7; HRemove 0; HPop; HShift].
Proof. cbn. repeat split; try discriminate. right; discriminate. Qed.
(** prepend on an empty list leaves the tail NULL: append then loses the
    element, pop dereferences NULL; insert_at at the end leaves a stale tail. *)
Theorem C04_hslist_refuted :
  hs_run hs_empty [HPrepend 1; HAppend 2] <> Ok (mkH (fst (seq_run [] [HPrepend 1; HAppend 2])) (TAt 1), [None; None]) /\
  (exists h o, hs_run hs_empty [HPrepend 1; HAppend 2] = Ok (h, o) /\ hitems h = [2] /\
               fst (seq_run [] [HPrepend 1; HAppend 2]) = [1; 2]) /\
  hs_run hs_empty [HPrepend 1; HPop] = UB /\
  (exists h o, hs_run hs_empty [HAppend 1; HInsertAt 1 2; HAppend 3] = Ok (h, o) /\ hitems h = [1; 3]).
Proof.
  split; [vm_compute; discriminate|]. split; [eexists _, _; vm_compute; repeat split|].
  split; [reflexivity|]. eexists _, _; vm_compute; repeat split.
Qed.
Print Assumptions C04_hslist_refuted.

(** * C05 *)
(** Full statement (refuted): for every history of sets with non-empty keys, get
    returns the latest binding. *)
Theorem C05_get_after_set_partial : forall {V} (kvs : list (str * V)),
  nonempty_keys kvs -> no_late_prefix kvs ->
  exists t, rt_sets rt_create kvs = Ok t /\ forall k, rt_get t k = Ok (latest kvs k).
Proof. exact @sets_get. Qed.
Print Assumptions C05_get_after_set_partial.
Theorem C05_get_after_set_on_clone_partial : forall {V} (cp : V -> V) t0 (kvs : list (str * V)),
  reach cp t0 -> nonempty_keys kvs -> no_late_prefix kvs ->
  exists t, rt_sets (rt_clone cp t0) kvs = Ok t /\
    forall k, rt_get t k = match latest kvs k with Some v => Ok (Some v) | None => rmap (option_map cp) (rt_get t0 k) end.
Proof. exact @clone_sets_get. Qed.
Print Assumptions C05_get_after_set_on_clone_partial.
Example C05_case :
  let kvs := [(S_ "a", 1); (S_ "abc", 2); (S_ "abd", 3); (S_ "x", 4); (S_ "abc", 5)] in
  nonempty_keys kvs /\ no_late_prefix kvs.
Proof. split; [apply nonempty_keys_b|apply no_late_prefix_b]; vm_compute; reflexivity. Qed.
(** Without the condition: every set succeeds, but values of other keys vanish. *)
Theorem C05_get_after_set_refuted :
  exists (kvs : list (str * nat)) t k, nonempty_keys kvs /\ rt_sets rt_create kvs = Ok t /\
    rt_get t k = Ok None /\ latest kvs k = Some 2.
Proof.
  exists [(S_ "abc", 1); (S_ "x", 2); (S_ "ab", 3)]. eexists _, (S_ "x").
  split; [apply nonempty_keys_b; reflexivity|]. split; [vm_compute; reflexivity|]. split; vm_compute; reflexivity.
Qed.
Print Assumptions C05_get_after_set_refuted.

(** * C06 *)
Theorem C06_unset_partial : forall {V} (cp : V -> V) (t t' : rtree V) k,
  reach cp t -> k <> [] -> rt_unset t k = Ok t' ->
  rt_get t' k = Ok None /\
  (forall k', ~ prefix k k' -> rt_get t' k' = rt_get t k') /\
  (forall k', rt_get t' k' = Ok None \/ rt_get t' k' = rt_get t k').
Proof. exact @unset_obs. Qed.
Print Assumptions C06_unset_partial.
Theorem C06_unset_on_clone_partial : forall {V} (cp : V -> V) (t t' : rtree V) k,
  reach cp t -> k <> [] -> rt_unset (rt_clone cp t) k = Ok t' ->
  forall k', rt_get t' k' = if streq k' k then Ok None else rmap (option_map cp) (rt_get t k').
Proof. exact @unset_clone_obs. Qed.
Print Assumptions C06_unset_on_clone_partial.
(** Keys with pairwise different first characters: total and exact. *)
Theorem C06_unset_histories_partial : forall {V} (ks : list str) (os : list (@dop V)),
  distinct_heads ks -> ~ In [] ks -> (forall o, In o os -> In (dkey o) ks) ->
  exists t, drun rt_create os = Ok t /\ forall k, rt_get t k = Ok (mrun (fun _ => None) os k).
Proof. exact @flat_obs. Qed.
Print Assumptions C06_unset_histories_partial.
Example C06_case :
  (exists t t', rt_sets rt_create [(S_ "ab", 1); (S_ "ac", 2)] = Ok t /\
     rt_unset (rt_clone (fun v => v) t) (S_ "ab") = Ok t' /\ rt_get t' (S_ "ac") = Ok (Some 2)) /\
  distinct_heads [S_ "name"; S_ "id"] /\
  drun rt_create [DSet (S_ "name") 1; DSet (S_ "id") 2; DUnset (S_ "name")] <> UB.
Proof.
  split; [eexists _, _; vm_compute; repeat split|]. split; [|vm_compute; discriminate].
  intros a b [<-|[<-|[]]] [<-|[<-|[]]]; vm_compute; congruence.
Qed.
(** Removing a key can destroy longer keys, and removing an only child reads
    freed memory. *)
Theorem C06_unset_refuted :
  (exists (t t' : rtree nat), rt_sets rt_create [(S_ "a", 1); (S_ "ab", 2)] = Ok t /\
     rt_unset t (S_ "a") = Ok t' /\ rt_get t (S_ "ab") = Ok (Some 2) /\ rt_get t' (S_ "ab") = Ok None) /\
  (exists (t : rtree nat), rt_sets rt_create [(S_ "a", 1); (S_ "ab", 2)] = Ok t /\ rt_unset t (S_ "ab") = UB) /\
  (exists (t : rtree nat), rt_sets rt_create [(S_ "a", 1); (S_ "ab", 2)] = Ok t /\
     rt_unset (rt_clone (fun v => v) t) (S_ "ab") = UB).
Proof.
  split; [eexists _, _; vm_compute; repeat split|]. split; eexists; vm_compute; repeat split.
Qed.
Print Assumptions C06_unset_refuted.

(** * C07 *)
Theorem C07_enumeration : forall {V} (cp : V -> V) (t : rtree V),
  reach cp t ->
  exists ps, rt_pairs t = Ok ps /\ NoDup (map fst ps) /\
    (forall k v, In (k, v) ps <-> rt_get t k = Ok (Some v)) /\
    rt_keys t = Ok (map fst ps) /\ rt_values t = Ok (map snd ps) /\
    exists vs, rt_values_walk t = Ok vs /\ Permutation vs (map snd ps).
Proof. exact @reach_enum. Qed.
Print Assumptions C07_enumeration.
Example C07_case : exists t, reach (fun v : nat => v) t /\
  rt_pairs t = Ok [(S_ "a", 1); (S_ "ab", 2); (S_ "ac", 4); (S_ "b", 3)].
Proof.
  eexists. split.
  - apply (reach_sets _ [(S_ "a", 1); (S_ "ab", 2); (S_ "b", 3); (S_ "ac", 4)]). vm_compute; reflexivity.
  - vm_compute; reflexivity.
Qed.

(** * C08 *)
Theorem C08_clone : forall {V} (cp : V -> V) (t : rtree V),
  reach cp t ->
  (forall k, rt_get (rt_clone cp t) k = rmap (option_map cp) (rt_get t k)) /\
  rt_pairs (rt_clone cp t) = rmap (map (fun kv => (fst kv, cp (snd kv)))) (rt_pairs t) /\
  tlen (rt_clone cp t) = tlen t.
Proof. exact @clone_obs. Qed.
Print Assumptions C08_clone.
Theorem C08_copy_partial : forall {V} (cp : V -> V) (t : rtree V),
  reach cp t ->
  (forall k, rt_get (rt_copy cp t) k = rmap (option_map cp) (rt_get t k)) /\
  rt_pairs (rt_copy cp t) = rmap (map (fun kv => (fst kv, cp (snd kv)))) (rt_pairs t).
Proof. exact @copy_obs. Qed.
Print Assumptions C08_copy_partial.
Theorem C08_copies_compare_equal : forall {V} (cp : V -> V) (eqv : V -> V -> bool) (t : rtree V),
  (forall v, eqv (cp v) v = true) -> reach cp t ->
  rt_cmp eqv t (rt_clone cp t) = Ok true /\ rt_cmp eqv t (rt_copy cp t) = Ok true.
Proof. exact @clone_cmp. Qed.
Print Assumptions C08_copies_compare_equal.
Example C08_case : (forall v, Nat.eqb ((fun x => x) v) v = true) /\ exists t, reach (fun v : nat => v) t /\ rt_get t (S_ "k") = Ok (Some 1).
Proof.
  split; [intros; apply Nat.eqb_refl|]. eexists. split.
  - apply (reach_sets _ [(S_ "k", 1)]). vm_compute; reflexivity.
  - vm_compute; reflexivity.
Qed.
(** copy forgets the element count. *)
Theorem C08_copy_count_refuted :
  exists t : rtree nat, reach (fun v => v) t /\ tlen t = 1 /\ key_count t 1 /\ tlen (rt_copy (fun v => v) t) = 0.
Proof.
  exists (mkT (mkH [Node (S_ "k") (Some 1) hs_empty] TNull) 1).
  assert (reach (fun v : nat => v) (mkT (mkH [Node (S_ "k") (Some 1) hs_empty] TNull) 1)) as H.
  { apply (R_set _ rt_create (S_ "k") (Some 1) _); [apply R_create|vm_compute; reflexivity]. }
  split; [exact H|]. split; [reflexivity|]. split; [|reflexivity].
  exact (key_count_ents _ (reach_wft _ _ H)).
Qed.
Print Assumptions C08_copy_count_refuted.

(** * C09 *)
Theorem C09_union : forall {V} (cp : V -> V) (t1 t2 : rtree V),
  reach cp t1 -> reach cp t2 ->
  exists t, rt_union cp t1 t2 = Ok t /\
    forall k, rt_get t k = match rt_get t2 k with
                           | Ok (Some v) => Ok (Some v)
                           | _ => rmap (option_map cp) (rt_get t1 k)
                           end.
Proof. exact @union_obs. Qed.
Print Assumptions C09_union.
Example C09_case : exists t1 t2, reach (fun v : nat => v) t1 /\ reach (fun v : nat => v) t2 /\
  rt_pairs t1 = Ok [(S_ "abc", 1)] /\ rt_pairs t2 = Ok [(S_ "ab", 2)] /\
  (t <- rt_union (fun v => v) t1 t2 ;; rt_pairs t) = Ok [(S_ "ab", 2); (S_ "abc", 1)].
Proof.
  eexists _, _. split; [|split].
  - apply (reach_sets _ [(S_ "abc", 1)]). vm_compute; reflexivity.
  - apply (reach_sets _ [(S_ "ab", 2)]). vm_compute; reflexivity.
  - vm_compute. repeat split.
Qed.

(** * C10 *)
Theorem C10_cmp_is_map_equality : forall {V} (cp : V -> V) (eqv : V -> V -> bool) (t1 t2 : rtree V),
  reach cp t1 -> reach cp t2 ->
  exists b, rt_cmp eqv t1 t2 = Ok b /\ (b = true <-> same_map eqv t1 t2).
Proof. exact @cmp_same_map. Qed.
Print Assumptions C10_cmp_is_map_equality.
Example C10_case : exists t1 t2 : rtree nat,
  rt_sets rt_create [(S_ "a", 1); (S_ "b", 2)] = Ok t1 /\ rt_sets rt_create [(S_ "b", 2); (S_ "a", 1)] = Ok t2 /\
  rt_cmp Nat.eqb t1 t2 = Ok true /\ rt_cmp Nat.eqb t1 rt_create = Ok false.
Proof. eexists _, _. vm_compute. repeat split. Qed.

(** * C11 *)
Theorem C11_count_partial : forall {V} (kvs : list (str * V)),
  nonempty_keys kvs -> no_late_prefix kvs ->
  exists t, rt_sets rt_create kvs = Ok t /\ key_count t (tlen t).
Proof. exact @sets_len. Qed.
Print Assumptions C11_count_partial.
Example C11_case : let kvs := [(S_ "a", 1); (S_ "ab", 2); (S_ "a", 3)] in nonempty_keys kvs /\ no_late_prefix kvs.
Proof. split; [apply nonempty_keys_b|apply no_late_prefix_b]; vm_compute; reflexivity. Qed.
(** The count does not follow removals, and re-setting a key that a longer key
    had split is not counted. *)
Theorem C11_count_refuted :
  (exists t t' : rtree nat, rt_set rt_create (S_ "a") (Some 1) = Ok t /\ rt_unset t (S_ "a") = Ok t' /\
     tlen t' = 1 /\ key_count t' 0) /\
  (exists t : rtree nat, rt_sets rt_create [(S_ "ab", 1); (S_ "ac", 2); (S_ "a", 3)] = Ok t /\
     tlen t = 2 /\ key_count t 3).
Proof.
  split.
  - eexists _, _. split; [vm_compute; reflexivity|]. split; [vm_compute; reflexivity|]. split; [reflexivity|].
    exact (key_count_ents (mkT hs_empty 1) wff_empty).
  - eexists. split; [vm_compute; reflexivity|]. split; [reflexivity|].
    match goal with |- key_count ?t 3 => change 3 with (count t); apply key_count_ents end.
    eapply (rt_sets_wft [(S_ "ab", 1); (S_ "ac", 2); (S_ "a", 3)] rt_create); [apply wft_create|vm_compute; reflexivity].
Qed.
Print Assumptions C11_count_refuted.

(** * C14 *)
Theorem C14_set_is_set : forall {A} (eqf : A -> A -> bool),
  (forall x, eqf x x = true) -> (forall x y, eqf x y = eqf y x) ->
  (forall x y z, eqf x y = true -> eqf y z = true -> eqf x z = true) ->
  forall ops, exists s outs,
    set_run eqf hs_empty ops = Ok (s, outs) /\ outs_ok eqf [] ops outs /\
    (forall l1 x l2 y l3, hitems s = l1 ++ x :: l2 ++ y :: l3 -> eqf x y = false) /\
    (forall x, set_in eqf s x = spec_mem eqf (rev ops) x).
Proof. exact @set_histories. Qed.
Print Assumptions C14_set_is_set.
Theorem C14_set_cmp : forall {A} (eqf : A -> A -> bool),
  (forall x, eqf x x = true) -> (forall x y, eqf x y = eqf y x) ->
  (forall x y z, eqf x y = true -> eqf y z = true -> eqf x z = true) ->
  forall ops1 ops2 s1 s2 o1 o2,
    set_run eqf hs_empty ops1 = Ok (s1, o1) -> set_run eqf hs_empty ops2 = Ok (s2, o2) ->
    (set_cmp eqf s1 s2 = 0%Z <-> forall x, spec_mem eqf (rev ops1) x = spec_mem eqf (rev ops2) x).
Proof. exact @set_histories_cmp. Qed.
Print Assumptions C14_set_cmp.
Example C14_case :
  (forall x, Nat.eqb x x = true) /\ (forall x y, Nat.eqb x y = Nat.eqb y x) /\
  set_run Nat.eqb hs_empty [SAdd 1; SAdd 2; SAdd 1; SRemove 2; SRemove 5] =
    Ok (mkH [1] (TAt 0), [OBool true; OBool true; OBool false; OData (Some 2); OData None]).
Proof. split; [apply Nat.eqb_refl|]. split; [apply Nat.eqb_sym|vm_compute; reflexivity]. Qed.
