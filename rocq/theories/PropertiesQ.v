(** Property theorems for the plain multi-dictionaries of comps_mradix.c (C89 to
    C91), and the exact law of the object multi-dictionary (C12).

    [p_run dtor ctor t os] (MDictModel): the calls [os] on the tree [t]; [dtor] says
    whether a destructor is given, [ctor] is the constructor.  [vals ctor os k]
    (MDictFacts4): the values set under [k] since it was last unset.  [t_run]
    (MDictFacts2): the same calls on a table from keys to lists, without a tree. *)
From Coq Require Import Permutation ZArith.
From Verif Require Import CStr CStrFacts HSListModel HSListFacts SetModel RTreeModel RTreeFacts RTreeFacts2 RTreeFacts3 RTreeFacts4
  MRTreeModel MRTreeFacts MRTreeFacts2 SpecA SpecB MDictModel MDictFacts MDictSpec MDictFacts2 MDictFacts3 MDictFacts4 SpecQ.

Definition one (v : nat) : nat := v.

(** * C89 *)
(** Every history of set, get, unset and clear is defined when the table says so,
    and then every call gives what the table gives (the values destroyed by one call in
    some order).  The table tells by prefixes alone where a set forks a node. *)
Theorem C89_run_exact : forall {V} dtor ctor (os : list (pop V)),
  match p_run dtor ctor p_create os, t_run dtor ctor ts_new os with
  | Ok (t, es), Ok (s, es', _) => Forall2 same_effect es es'
  | UB, UB => True
  | _, _ => False
  end.
Proof. exact @q_run. Qed.
Print Assumptions C89_run_exact.
(** While no two keys part after a common first character, a get gives the values set
    under that key since it was last unset. *)
Theorem C89_get_partial : forall {V} dtor ctor (os : list (pop V)) t es k,
  no_parting (set_keys os) -> p_run dtor ctor p_create os = Ok (t, es) -> p_dead t = false -> k <> [] ->
  exists o, p_step dtor ctor t (PGet k) = Ok (t, mkPE o []) /\ (o = Some (map MV (vals ctor os k)) \/ o = None /\ vals ctor os k = []).
Proof. exact @q_get. Qed.
Print Assumptions C89_get_partial.
(** With sets alone it is enough that keys part only where a key was set before. *)
Theorem C89_sets_partial : forall {V} dtor ctor (kvs : list (str * V)), nonempty_keys kvs -> no_branching kvs ->
  exists t es, p_run dtor ctor p_create (psets kvs) = Ok (t, es) /\ forall k, k <> [] ->
    p_step dtor ctor t (PGet k) = Ok (t, mkPE (match values_of kvs k with [] => None | vs => Some (map (fun v => MV (ctor v)) vs) end) []).
Proof. exact @q_sets. Qed.
Print Assumptions C89_sets_partial.
(** After "abc" and "abd" the values of "abc" are a list in a list, and a value then set
    under "ab" cannot be found. *)
Theorem C89_get_refuted : exists t es,
  p_run true one p_create [PSet (S_ "abc") 1; PSet (S_ "abd") 2; PSet (S_ "ab") 3] = Ok (t, es) /\
  pget (p_root t) (S_ "abc") = Ok (Some [MNest [MV 1]]) /\ pget (p_root t) (S_ "abd") = Ok (Some [MV 2]) /\
  pget (p_root t) (S_ "ab") = Ok None.
Proof. eexists _, _. vm_compute. repeat split. Qed.
Print Assumptions C89_get_refuted.
(** Removing the only key that extends another uses freed memory. *)
Theorem C89_unset_refuted : p_run true one p_create [PSet (S_ "a") 1; PSet (S_ "ab") 2; PUnset (S_ "ab")] = UB.
Proof. vm_compute. reflexivity. Qed.
Print Assumptions C89_unset_refuted.
Definition prog : list (pop nat) :=
  [PSet (S_ "ab") 1; PSet (S_ "abc") 2; PSet (S_ "ab") 3; PSet (S_ "x") 4; PUnset (S_ "x"); PSet (S_ "x") 5; PSet (S_ "a") 6].
Lemma prog_np : no_parting (set_keys prog).
Proof.
  intros k1 k2 H1 H2. cbn in H1, H2.
  repeat match goal with H : _ \/ _ |- _ => destruct H as [<-|H] | H : False |- _ => destruct H end;
    try (right; right; discriminate);
    solve [left; eexists; reflexivity | right; left; eexists; reflexivity].
Qed.
Example C89_case : no_parting (set_keys prog) /\ (exists t es, p_run true one p_create prog = Ok (t, es) /\ p_dead t = false /\
  map (fun k => pget (p_root t) (S_ k)) ["a"; "ab"; "abc"; "x"]%string = [Ok (Some [MV 6]); Ok (Some [MV 1; MV 3]); Ok (Some [MV 2]); Ok (Some [MV 5])]) /\
  vals one prog (S_ "ab") = [1; 3] /\
  no_branching [(S_ "ab", 1); (S_ "abc", 2); (S_ "abd", 3)] /\
  t_run true one ts_new [PSet (S_ "abc") 1; PSet (S_ "abd") 2; PGet (S_ "abc")] <> UB.
Proof.
  split; [exact prog_np|]. split; [eexists _, _; vm_compute; repeat split|]. split; [reflexivity|]. split; [apply no_branching_b; reflexivity|vm_compute; discriminate].
Qed.

(** * C90 *)
(** The keys and the walk of every tree that was not cleared: those of the table in
    some order, the keys with values only; undefined exactly when some key was made by a
    fork ([opened] fails: its list is NULL). *)
Theorem C90_listing_exact : forall {V} dtor ctor (os : list (pop V)) t es, p_run dtor ctor p_create os = Ok (t, es) -> p_dead t = false ->
  exists s es' l, t_run dtor ctor ts_new os = Ok (s, es', l) /\
  exists ord, Permutation ord (ts_tab s) /\
    p_entries t = (if opened (ts_tab s) then Ok (shown ord) else UB) /\
    p_keys t = (if opened (ts_tab s) then Ok (map fst (shown ord)) else UB) /\
    p_walk t = (if opened (ts_tab s) then Ok (lists ord) else UB).
Proof. exact @q_listing. Qed.
Print Assumptions C90_listing_exact.
Theorem C90_clone_exact : forall {V} dtor ctor cl (os : list (pop V)) t es, p_run dtor ctor p_create os = Ok (t, es) -> p_dead t = false ->
  exists s es' l, t_run dtor ctor ts_new os = Ok (s, es', l) /\
  if forallb (cloneable cl) (map snd (ts_tab s))
  then exists t', p_clone cl t = Ok t' /\ p_dead t' = false /\ (forall k, pget (p_root t') k = Ok (pcp cl (t_get (ts_tab s) k)))
  else p_clone cl t = UB.
Proof. exact @q_clone. Qed.
Print Assumptions C90_clone_exact.
Theorem C90_unite_exact : forall {V} dtor ctor (os1 : list (pop V)) t1 es1 os2 t2 es2,
  p_run dtor ctor p_create os1 = Ok (t1, es1) -> p_dead t1 = false -> p_run dtor ctor p_create os2 = Ok (t2, es2) -> p_dead t2 = false ->
  exists s1 es1' l1 s2 es2' l2, t_run dtor ctor ts_new os1 = Ok (s1, es1', l1) /\ t_run dtor ctor ts_new os2 = Ok (s2, es2', l2) /\
  if opened (ts_tab s2) && forallb (fun e => plain_d (snd e)) (ts_tab s2)
  then exists ord t', Permutation ord (ts_tab s2) /\ p_unite ctor t1 t2 = Ok t' /\
    forall k, pget (p_root t') k = Ok (t_get (t_sets (ts_tab s1) (map (fun kv => (fst kv, ctor (snd kv))) (pairs_of ord))) k)
  else p_unite ctor t1 t2 = UB.
Proof. exact @q_unite. Qed.
Print Assumptions C90_unite_exact.
(** While no two keys part after a common first character: every key that has values is
    listed once, and the walk visits every value. *)
Theorem C90_keys_partial : forall {V} dtor ctor (os : list (pop V)) t es,
  no_parting (set_keys os) -> p_run dtor ctor p_create os = Ok (t, es) -> p_dead t = false ->
  exists ps, p_entries t = Ok ps /\ p_keys t = Ok (map fst ps) /\ NoDup (map fst ps) /\
    (forall k l, k <> [] -> (In (k, l) ps <-> l = map MV (vals ctor os k) /\ vals ctor os k <> [])) /\
    exists w, p_walk t = Ok w /\ Permutation w (flat_map snd ps).
Proof. exact @q_keys. Qed.
Print Assumptions C90_keys_partial.
Theorem C90_clone_partial : forall {V} dtor ctor f (os : list (pop V)) t es,
  no_parting (set_keys os) -> p_run dtor ctor p_create os = Ok (t, es) -> p_dead t = false ->
  exists t', p_clone (Some f) t = Ok t' /\ forall k, exists o, pget (p_root t) k = Ok o /\ pget (p_root t') k = Ok (option_map (map (cval (Some f))) o).
Proof. exact @q_clone_np. Qed.
Print Assumptions C90_clone_partial.
(** After "abc" and "abd" the listing, the walk, the clone and the union with another tree
    read through NULL. *)
Theorem C90_fork_refuted : exists t es,
  p_run true one p_create [PSet (S_ "abc") 1; PSet (S_ "abd") 2] = Ok (t, es) /\
  p_keys t = UB /\ p_walk t = UB /\ p_clone (Some S) t = UB /\ p_unite one p_create t = UB.
Proof. eexists _, _. vm_compute. repeat split. Qed.
Print Assumptions C90_fork_refuted.
(** A tree created without a cloner cannot be cloned once it holds a value. *)
Theorem C90_no_cloner_refuted : exists t es, p_run true one p_create [PSet (S_ "a") 1] = Ok (t, es) /\ p_clone None t = UB.
Proof. eexists _, _. vm_compute. repeat split. Qed.
Print Assumptions C90_no_cloner_refuted.
Example C90_case : exists t es t', p_run true one p_create prog = Ok (t, es) /\ p_dead t = false /\
  p_keys t = Ok [S_ "x"; S_ "a"; S_ "ab"; S_ "abc"] /\ p_walk t = Ok [MV 5; MV 6; MV 1; MV 3; MV 2] /\
  p_clone (Some S) t = Ok t' /\ pget (p_root t') (S_ "ab") = Ok (Some [MV 2; MV 4]) /\
  (exists u, p_unite one t t = Ok u /\ pget (p_root u) (S_ "ab") = Ok (Some [MV 1; MV 3; MV 1; MV 3])).
Proof. eexists _, _, _. vm_compute. repeat split. eexists. split; reflexivity. Qed.

(** * C91 *)
(** Every value made by the constructor is, after any history, in a list of the tree, or
    was given to the destructor, or is lost ([t_run] says which are: set under the empty
    key or under a key whose list is NULL, and those of removed lists when there
    is no destructor).  Destroying the tree then gives all stored values to the
    destructor once each; it is undefined exactly when some list holds a list. *)
Theorem C91_account : forall {V} dtor ctor (os : list (pop V)) t es, p_run dtor ctor p_create os = Ok (t, es) ->
  exists s es' lost, t_run dtor ctor ts_new os = Ok (s, es', lost) /\
    Permutation (flat_map (given ctor) os) (p_stored t ++ flat_map pe_destroyed es ++ lost) /\
    (p_dead t = false ->
       if dtor && negb (forallb (fun e => plain_d (snd e)) (ts_tab s)) then p_destroy dtor t = UB
       else exists ev, p_destroy dtor t = Ok ev /\ Permutation ev (if dtor then p_stored t else [])).
Proof. exact @q_account. Qed.
Print Assumptions C91_account.
(** While no two keys part after a common first character, and no key is empty, every
    value is destroyed exactly once by the end. *)
Theorem C91_release_partial : forall {V} ctor (os : list (pop V)) t es,
  no_parting (set_keys os) -> ~ In [] (set_keys os) -> p_run true ctor p_create os = Ok (t, es) -> p_dead t = false ->
  exists ev, p_destroy true t = Ok ev /\ Permutation (flat_map (given ctor) os) (flat_map pe_destroyed es ++ ev).
Proof. exact @q_release. Qed.
Print Assumptions C91_release_partial.
(** After "abc" and "abd" destroying the tree gives a list to the destructor; a value set
    then under "ab" is neither stored nor destroyed. *)
Theorem C91_fork_refuted : exists t es t2 es2,
  p_run true one p_create [PSet (S_ "abc") 1; PSet (S_ "abd") 2] = Ok (t, es) /\ p_destroy true t = UB /\
  p_run true one p_create [PSet (S_ "abc") 1; PSet (S_ "abd") 2; PSet (S_ "ab") 3] = Ok (t2, es2) /\
  ~ In 3 (p_stored t2) /\ ~ In 3 (flat_map pe_destroyed es2).
Proof.
  eexists _, _, _, _. split; [vm_compute; reflexivity|]. split; [vm_compute; reflexivity|]. split; [vm_compute; reflexivity|].
  split; vm_compute; intuition discriminate.
Qed.
Print Assumptions C91_fork_refuted.
(** A tree that was cleared while it held something cannot be used or destroyed. *)
Theorem C91_clear_refuted : exists t es, p_run true one p_create [PSet (S_ "a") 1; PClear] = Ok (t, es) /\
  p_step true one t (PSet (S_ "a") 2) = UB /\ p_step true one t (PGet (S_ "a")) = UB /\ p_destroy true t = UB /\
  p_walk t = UB /\ p_keys t = UB /\ p_clone (Some S) t = UB.
Proof. eexists _, _. vm_compute. repeat split. Qed.
Print Assumptions C91_clear_refuted.
Example C91_case : exists t es ev, p_run true one p_create prog = Ok (t, es) /\ ~ In [] (set_keys prog) /\
  flat_map pe_destroyed es = [4] /\ p_destroy true t = Ok ev /\ ev = [5; 6; 1; 3; 2].
Proof. eexists _, _, _. split; [vm_compute; reflexivity|]. split; [vm_compute; intuition discriminate|]. vm_compute. repeat split. Qed.

(** * C12 *)
(** Every history of set, set of NULL, unset and get on an object multi-dictionary is
    defined when the table says so, and every result and the length are those of the
    table. *)
Theorem C12_run_exact : forall {V} (os : list (mop V)),
  match mo_run mt_create os, tm_run ([], 0%Z) os with
  | Ok (t, outs), Ok (s, outs') => outs = outs' /\ mlen t = snd s
  | UB, UB => True
  | _, _ => False
  end.
Proof. exact @q_mrun. Qed.
Print Assumptions C12_run_exact.
Example C12_run_case : exists t outs, mo_run mt_create [OSet (S_ "abc") 1; OSet (S_ "abd") 2; OGet (S_ "abc"); OUnset (S_ "abc"); OGet (S_ "abd")] = Ok (t, outs) /\ mlen t <> 0%Z.
Proof. eexists _, _. split; [vm_compute; reflexivity|vm_compute; discriminate]. Qed.
