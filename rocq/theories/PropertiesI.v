(** Property theorems for the Python sequences (C46-C52).

    [holds o l]: the wrapped list is in order, its items are [l], none of them
    NULL, fewer than 2^31 of them.  [py_at], [py_set], [py_del], [py_clamp],
    [spliced], [slice_indices] say what a Python list does. *)
From Verif Require Import CStr CStrFacts HSListModel ObjListModel ObjListFacts PySeqModel PySeqFacts PySeqFacts2 SpecI SpecI2.

(** For the cases: items are strings, identified by their text, which is also
    their id. *)
Definition ikey (s : str) : option str := Some s.
Definition yes (s : str) : bool := true.
Definition wrap (l : list str) : ol (option str) :=
  mkOL (map Some l) (match l with [] => TNull | _ => TAt (length l - 1) end) (length l).
Definition sa := S_ "a". Definition sb := S_ "b". Definition sc := S_ "c". Definition sd := S_ "d". Definition se := S_ "e".
Lemma wrap_holds l : (Z.of_nat (length l) < 2^31)%Z -> holds (wrap l) l.
Proof.
  intros H. split; [|auto]. destruct l as [|x l]; [split; reflexivity|].
  split; cbn [wrap olen otail oitems]; rewrite ?map_length; cbn [length]; lia.
Qed.
Definition abc := [sa; sb; sc].
Lemma abc_holds : holds (wrap abc) abc.
Proof. apply wrap_holds. reflexivity. Qed.

(** * C46: reading by index and by id *)
Theorem C46_index_partial : forall (A : Type) (o : ol (option A)) l i, holds o l -> is_int i ->
  seq_getitem o i = py_at l i.
Proof. intros A o l i H Hi. exact (seq_getitem_spec o l i H Hi). Qed.
Print Assumptions C46_index_partial.
Example C46_index_case : holds (wrap abc) abc /\ is_int (-3) /\ py_at abc (-3) = Ret sa /\ py_at abc 2 = Ret sc /\
  py_at abc 3 = Raise EIndex /\ py_at abc (-4) = Raise EIndex.
Proof. split; [exact abc_holds|]. split; [unfold is_int; lia|]. repeat split; vm_compute; reflexivity. Qed.
(** Outside the range of int the index is cut to 32 bits. *)
Theorem C46_large_refuted : exists (o : ol (option str)) l i, holds o l /\
  seq_getitem o i <> py_at l i /\ py_at l i = Raise EIndex.
Proof. exists (wrap abc), abc, (2^32)%Z. split; [exact abc_holds|]. split; [vm_compute; discriminate|vm_compute; reflexivity]. Qed.
Print Assumptions C46_large_refuted.
Theorem C46_len : forall (A : Type) (o : ol (option A)) l, holds o l -> seq_len o = length l.
Proof. intros A o l H. exact (holds_olen o l H). Qed.
Print Assumptions C46_len.
(** The first item with the id, or KeyError. *)
Theorem C46_by_id : forall (A : Type) kind key (o : ol (option A)) l id, holds o l ->
  kind <> NoId -> (kind = ByName -> forall y, In y l -> key y <> None) ->
  (exists l1 x l2, l = l1 ++ x :: l2 /\ key x = Some id /\ (forall y, In y l1 -> key y <> Some id) /\
     seq_byid kind key o id = Ok (Ret x)) \/
  ((forall y, In y l -> key y <> Some id) /\ seq_byid kind key o id = Ok (Raise EKey)).
Proof. intros A kind key o l id H Hk Hn. exact (byid_spec kind key o l id Hk Hn H). Qed.
Print Assumptions C46_by_id.
(** On a list of group ids or of strings, and on a package without a name, a
    lookup by id is undefined. *)
Theorem C46_by_id_refuted : exists (o : ol (option str)) l, holds o l /\
  seq_byid NoId ikey o sa = UB /\ seq_byid ByName (fun _ => None) o sa = UB.
Proof. exists (wrap abc), abc. split; [exact abc_holds|]. split; reflexivity. Qed.
Print Assumptions C46_by_id_refuted.
Example C46_by_id_case : seq_byid ById ikey (wrap abc) sb = Ok (Ret sb) /\ seq_byid ByName ikey (wrap abc) sd = Ok (Raise EKey).
Proof. split; vm_compute; reflexivity. Qed.

(** * C47: reading a slice *)
(** Positive steps: the items Python selects, in order. *)
Theorem C47_slice_partial : forall (A : Type) (o : ol (option A)) s i, ogood o -> fits o ->
  slice_indices s (Z.of_nat (length (oitems o))) = Some i -> (0 < i_step i <= int_max)%Z ->
  exists r, seq_getslice o s = Ok (Ret r) /\ ogood r /\
    Z.of_nat (length (oitems r)) = i_len i /\
    forall k, (Z.of_nat k < i_len i)%Z -> nth_error (oitems r) k = nth_error (oitems o) (Z.to_nat (i_start i + Z.of_nat k * i_step i)).
Proof. intros A o s i Hg Hf E Hs. exact (seq_getslice_pos o s i Hg Hf E Hs). Qed.
Print Assumptions C47_slice_partial.
Definition abcde := [sa; sb; sc; sd; se].
Example C47_slice_case : ogood (wrap abcde) /\ fits (wrap abcde) /\
  slice_indices (mkSlice (Some (-4)%Z) None (Some 2%Z)) 5 = Some (mkInd 1 5 2 2) /\
  seq_getslice (wrap abcde) (mkSlice (Some (-4)%Z) None (Some 2%Z)) = Ok (Ret (wrap [sb; sd])).
Proof. split; [split; reflexivity|]. split; [reflexivity|]. split; vm_compute; reflexivity. Qed.
(** Which positions a slice selects: those between start and stop. *)
Theorem C47_indices : forall s n i k, (0 <= n)%Z -> slice_indices s n = Some i ->
  ((Z.of_nat k < i_len i)%Z <->
   (if i_step i <? 0 then i_stop i < i_start i + Z.of_nat k * i_step i
    else i_start i + Z.of_nat k * i_step i < i_stop i)%Z) /\
  ((Z.of_nat k < i_len i)%Z -> (0 <= i_start i + Z.of_nat k * i_step i < n)%Z).
Proof. intros s n i k Hn E. split; [exact (slice_selects s n i k E)|exact (slice_in_range s n i k Hn E)]. Qed.
Print Assumptions C47_indices.
Example C47_indices_case : exists s i, slice_indices s 5 = Some i /\ (0 < i_len i)%Z /\ (i_step i < 0)%Z.
Proof. exists (mkSlice None None (Some (-2)%Z)). eexists. split; [vm_compute; reflexivity|]. split; reflexivity. Qed.
(** Negative steps: the first selected item again and again. *)
Theorem C47_negative : forall (A : Type) (o : ol (option A)) s i, ogood o -> fits o ->
  slice_indices s (Z.of_nat (length (oitems o))) = Some i -> (i_step i < 0)%Z ->
  exists r, seq_getslice o s = Ok (Ret r) /\ ogood r /\ Z.of_nat (length (oitems r)) = i_len i /\
    forall k, (Z.of_nat k < i_len i)%Z -> nth_error (oitems r) k = nth_error (oitems o) (Z.to_nat (i_start i)).
Proof. intros A o s i Hg Hf E Hs. exact (seq_getslice_neg o s i Hg Hf E Hs). Qed.
Print Assumptions C47_negative.
Theorem C47_reverse_refuted : exists (o : ol (option str)) s i r, ogood o /\ fits o /\
  slice_indices s (Z.of_nat (length (oitems o))) = Some i /\ seq_getslice o s = Ok (Ret r) /\ ~ reads (oitems o) i (oitems r).
Proof.
  exists (wrap [sa; sb]), (mkSlice None None (Some (-1)%Z)). do 2 eexists.
  split; [split; reflexivity|]. split; [reflexivity|]. split; [vm_compute; reflexivity|]. split; [vm_compute; reflexivity|].
  intros [_ H]. specialize (H 1 eq_refl). vm_compute in H. discriminate.
Qed.
Print Assumptions C47_reverse_refuted.
(** A step above INT_MAX overflows as soon as an item is selected. *)
Theorem C47_big_step : forall (A : Type) (o : ol (option A)) s i, ogood o -> fits o ->
  slice_indices s (Z.of_nat (length (oitems o))) = Some i -> (int_max < i_step i)%Z ->
  seq_getslice o s = if (0 <? i_len i)%Z then UB else Ok (Ret ol_create).
Proof. intros A o s i Hg Hf E Hs. exact (seq_getslice_big o s i Hg Hf E Hs). Qed.
Print Assumptions C47_big_step.
Example C47_big_step_case : exists i, slice_indices (mkSlice None None (Some (2^31)%Z)) 3 = Some i /\ (int_max < i_step i)%Z /\
  seq_getslice (wrap abc) (mkSlice None None (Some (2^31)%Z)) = UB.
Proof. eexists. split; [vm_compute; reflexivity|]. split; [reflexivity|]. vm_compute. reflexivity. Qed.

(** * C48: assignment and deletion by index *)
Theorem C48_set_partial : forall (A : Type) valid (o : ol (option A)) l i x, holds o l -> is_int i -> (0 <= i)%Z -> valid x = true ->
  exists o', seq_setitem valid o i (Some x) = (o', snd (py_set l i x)) /\ holds o' (fst (py_set l i x)).
Proof. intros A valid o l i x. exact (setitem_nonneg (fun _ _ => true) valid o l i x). Qed.
Print Assumptions C48_set_partial.
Theorem C48_del_partial : forall (A : Type) (o : ol (option A)) l i, holds o l -> is_int i -> (0 <= i)%Z ->
  exists o', seq_delitem o i = (o', snd (py_del l i)) /\ holds o' (fst (py_del l i)).
Proof. intros A o l i. exact (delitem_nonneg o l i). Qed.
Print Assumptions C48_del_partial.
Theorem C48_set_unique_partial : forall (A : Type) kind key (o : ol (option A)) l i x, kind = ById -> holds o l -> is_int i -> (0 <= i)%Z ->
  ~ has_id key l x ->
  exists o', seq_setitem_unique kind key o i (Some x) = Ok (o', snd (py_set l i x)) /\ holds o' (fst (py_set l i x)).
Proof. intros A kind key o l i x. exact (setunique_ok (fun _ _ => true) kind key o l i x). Qed.
Print Assumptions C48_set_unique_partial.
Theorem C48_set_unique_taken : forall (A : Type) kind key (o : ol (option A)) l i x, kind = ById -> holds o l -> is_int i -> has_id key l x ->
  seq_setitem_unique kind key o i (Some x) = Ok (o, Raise (if (Z.of_nat (length l) <=? i)%Z then EIndex else EKey)).
Proof. intros A kind key o l i x. exact (setunique_taken kind key o l i x). Qed.
Print Assumptions C48_set_unique_taken.
Example C48_set_case : is_int 1 /\ py_set abc 1 sd = ([sa; sd; sc], Ret tt) /\ py_del abc 2 = ([sa; sb], Ret tt) /\ py_del abc 3 = (abc, Raise EIndex) /\
  ~ has_id ikey abc sd /\ has_id ikey abc sc.
Proof.
  split; [unfold is_int; lia|]. split; [vm_compute; reflexivity|]. split; [vm_compute; reflexivity|]. split; [vm_compute; reflexivity|].
  split; [|exists sc; split; [right; right; left; reflexivity|reflexivity]].
  intros (y & Hy & E). injection E as ->. vm_compute in Hy. intuition discriminate.
Qed.
(** Negative indices, and indices far out of range, are accepted and nothing is done. *)
Theorem C48_negative : forall (A : Type) valid (o : ol (option A)) l i x, holds o l -> is_int i -> (i < 0)%Z -> valid x = true ->
  seq_setitem valid o i (Some x) = (o, Ret tt) /\ seq_delitem o i = (o, Ret tt).
Proof. intros A valid o l i x H Hi Hn Hv. split; [exact (setitem_negative valid o l i x H Hi Hn Hv)|exact (delitem_negative o l i H Hi Hn)]. Qed.
Print Assumptions C48_negative.
Theorem C48_negative_refuted : exists (o : ol (option str)) l i x, holds o l /\ is_int i /\
  seq_setitem yes o i (Some x) = (o, Ret tt) /\ py_set l i x = ([sa; sb; sd], Ret tt) /\ oitems o = map Some abc /\
  seq_delitem o i = (o, Ret tt) /\ py_del l i = ([sa; sb], Ret tt).
Proof. exists (wrap abc), abc, (-1)%Z, sd. split; [exact abc_holds|]. split; [unfold is_int; lia|]. repeat split; vm_compute; reflexivity. Qed.
Print Assumptions C48_negative_refuted.
(** An item cannot be replaced by one with the same id. *)
Theorem C48_same_id_refuted : exists (o : ol (option str)) l, holds o l /\ NoDup (map ikey l) /\
  seq_setitem_unique ById ikey o 0 (Some sa) = Ok (o, Raise EKey) /\ py_set l 0 sa = (l, Ret tt).
Proof.
  exists (wrap abc), abc. split; [exact abc_holds|]. split; [|split; vm_compute; reflexivity].
  cbn. repeat constructor; cbn; intuition discriminate.
Qed.
Print Assumptions C48_same_id_refuted.
(** In a list of packages any assignment to an existing index is undefined. *)
Theorem C48_packages_refuted : forall (A : Type) kind key (o : ol (option A)) l i x, kind <> ById -> holds o l -> is_int i ->
  (0 <= i < Z.of_nat (length l))%Z -> seq_setitem_unique kind key o i (Some x) = UB.
Proof. intros A kind key o l i x. exact (setunique_kind kind key o l i x). Qed.
Print Assumptions C48_packages_refuted.

(** * C49: slice assignment *)
(** Python's result when something is selected and the new items are not more
    than the selected ones, or the selection reaches the end. *)
Theorem C49_assign_partial : forall (A : Type) kind key (o : ol (option A)) l s i vs, kind = ById -> holds o l ->
  slice_indices s (Z.of_nat (length l)) = Some i -> i_step i = 1%Z -> (0 < i_len i)%Z ->
  (forall v, In v vs -> ~ has_id key l v) ->
  (Z.of_nat (length vs) <= i_len i \/ i_stop i = Z.of_nat (length l))%Z ->
  exists o', seq_setslice kind key o s (Some (map Some vs)) = Ok (o', Ret tt) /\ ogood o' /\
    oitems o' = map Some (spliced l (Z.to_nat (i_start i)) (Z.to_nat (i_stop i)) vs).
Proof. intros A kind key o l s i vs. exact (splice_agrees kind key o l s i vs). Qed.
Print Assumptions C49_assign_partial.
Example C49_assign_case : exists i, slice_indices (mkSlice (Some 1%Z) (Some (-1)%Z) None) 5 = Some i /\ i_step i = 1%Z /\ i_len i = 3%Z /\
  seq_setslice ById ikey (wrap abcde) (mkSlice (Some 1%Z) (Some (-1)%Z) None) (Some [Some (S_ "x")]) = Ok (wrap [sa; S_ "x"; se], Ret tt) /\
  seq_setslice ById ikey (wrap abcde) (mkSlice (Some 1%Z) None None) (Some [Some (S_ "x"); Some (S_ "y"); Some (S_ "z"); Some (S_ "u"); Some (S_ "v")]) =
    Ok (wrap [sa; S_ "x"; S_ "y"; S_ "z"; S_ "u"; S_ "v"], Ret tt).
Proof. eexists. split; [vm_compute; reflexivity|]. split; [reflexivity|]. split; [reflexivity|]. split; vm_compute; reflexivity. Qed.
(** In general, step 1: items after the selection are overwritten. *)
Theorem C49_exact : forall (A : Type) kind key (o : ol (option A)) l s i vs,
  kind = ById -> holds o l -> set_indices o s = Some i -> i_step i = 1%Z -> (0 <= i_start i)%Z -> (0 <= i_stop i)%Z ->
  (forall v, In v vs -> ~ has_id key l v) ->
  exists o', seq_setslice kind key o s (Some (map Some vs)) = Ok (o', Ret tt) /\ ogood o' /\
    oitems o' = map Some (overwritten l (Nat.min (Z.to_nat (i_start i)) (length l)) (Z.to_nat (i_stop i)) vs).
Proof. intros A kind key o l s i vs. exact (setslice_step1 kind key o l s i vs). Qed.
Print Assumptions C49_exact.
(** l[1:1] = [d] inserts in Python, and overwrites here; l[2:-1] = [] deletes
    nothing in Python, and the last item here. *)
Theorem C49_overwrites_refuted : exists (o : ol (option str)) l s i o', holds o l /\
  slice_indices s (Z.of_nat (length l)) = Some i /\ i_step i = 1%Z /\
  seq_setslice ById ikey o s (Some (map Some [sd])) = Ok (o', Ret tt) /\
  oitems o' = map Some [sa; sd; sc] /\ spliced l (Z.to_nat (i_start i)) (Z.to_nat (i_stop i)) [sd] = [sa; sd; sb; sc].
Proof.
  exists (wrap abc), abc, (mkSlice (Some 1%Z) (Some 1%Z) None). do 2 eexists. split; [exact abc_holds|].
  split; [vm_compute; reflexivity|]. split; [reflexivity|]. split; [vm_compute; reflexivity|]. split; vm_compute; reflexivity.
Qed.
Print Assumptions C49_overwrites_refuted.
Theorem C49_empty_refuted : exists (o : ol (option str)) l s i o', holds o l /\
  slice_indices s (Z.of_nat (length l)) = Some i /\ i_step i = 1%Z /\ i_len i = 0%Z /\
  seq_setslice ById ikey o s (Some []) = Ok (o', Ret tt) /\
  oitems o' = map Some [sa; sb] /\ spliced l (Z.to_nat (i_start i)) (Z.to_nat (i_stop i)) [] = l.
Proof.
  exists (wrap abc), abc, (mkSlice (Some 2%Z) (Some (-1)%Z) None). do 2 eexists. split; [exact abc_holds|].
  split; [vm_compute; reflexivity|]. split; [reflexivity|]. split; [reflexivity|]. split; [vm_compute; reflexivity|]. split; vm_compute; reflexivity.
Qed.
Print Assumptions C49_empty_refuted.
(** Steps from 2 on are always refused, for lists of two and more. *)
Theorem C49_extended_refuted : forall (A : Type) kind key (o : ol (option A)) l s ws k, holds o l -> 2 <= length l -> sl_step s = Some k -> (2 <= k)%Z ->
  seq_setslice kind key o s (Some ws) = Ok (o, Raise EValue).
Proof. intros A kind key o l s ws k. exact (setslice_extended kind key o l s ws k). Qed.
Print Assumptions C49_extended_refuted.
(** The whole list backwards: one item is written; too few new ones are undefined. *)
Theorem C49_reverse_refuted : forall (A : Type) kind key (o : ol (option A)) l s i vs, kind = ById -> holds o l ->
  slice_indices s (Z.of_nat (length l)) = Some i -> (i_step i < 0)%Z -> i_len i = Z.of_nat (length l) -> l <> [] ->
  (forall v, In v vs -> ~ has_id key l v) ->
  seq_setslice kind key o s (Some (map Some vs)) =
  match nth_error vs (length l - 1) with
  | None => UB
  | Some v => Ok (mkOL (map Some (list_upd l (Z.to_nat (i_start i)) v)) (otail o) (olen o), Ret tt)
  end.
Proof. intros A kind key o l s i vs. exact (setslice_reverse kind key o l s i vs). Qed.
Print Assumptions C49_reverse_refuted.
Example C49_reverse_case : exists i, slice_indices (mkSlice None None (Some (-1)%Z)) 3 = Some i /\ (i_step i < 0)%Z /\ i_len i = 3%Z /\
  seq_setslice ById ikey (wrap abc) (mkSlice None None (Some (-1)%Z)) (Some (map Some [sd; se; S_ "f"])) = Ok (wrap [sa; sb; S_ "f"], Ret tt).
Proof. eexists. split; [vm_compute; reflexivity|]. split; [reflexivity|]. split; [reflexivity|]. vm_compute. reflexivity. Qed.
(** In lists without property ids (packages, group ids, strings) every
    assignment of items with step 1 is undefined. *)
Theorem C49_kinds_refuted : forall (A : Type) kind key (o : ol (option A)) l s i v ws, kind <> ById -> holds o l ->
  set_indices o s = Some i -> i_step i = 1%Z -> seq_setslice kind key o s (Some (v :: ws)) = UB.
Proof.
  intros A kind key o l s i v ws Hk H E Hs. unfold seq_setslice. rewrite E. destruct i as [ist isp istep ilen]. cbn in Hs. subst istep.
  cbn [Z.eqb Pos.eqb negb andb]. now rewrite check_all_kind.
Qed.
Print Assumptions C49_kinds_refuted.
(** An item whose id is in the list: refused, nothing changed. *)
Theorem C49_taken : forall (A : Type) kind key (o : ol (option A)) l s ws v, kind = ById -> holds o l -> In v ws -> has_id key l v ->
  exists e, seq_setslice kind key o s (Some (map Some ws)) = Ok (o, Raise e).
Proof. intros A kind key o l s ws v. exact (setslice_taken kind key o l s ws v). Qed.
Print Assumptions C49_taken.

(** * C50: slice deletion *)
(** Selecting anything: undefined, or the last item turns into NULL and stays. *)
Theorem C50_delete_refuted : forall (A : Type) (o : ol (option A)) l s i, holds o l ->
  slice_indices s (Z.of_nat (length l)) = Some i -> (0 < i_len i)%Z ->
  seq_delslice o s = UB \/
  seq_delslice o s = Ok (mkOL (map Some (removelast l) ++ [None]) (otail o) (olen o), Ret tt).
Proof. intros A o l s i. exact (delslice_never o l s i). Qed.
Print Assumptions C50_delete_refuted.
Theorem C50_length : forall (A : Type) (o : ol (option A)) s o' r, seq_delslice o s = Ok (o', r) -> length (oitems o') = length (oitems o).
Proof. intros A o s o' r. exact (delslice_length o s o' r). Qed.
Print Assumptions C50_length.
(** When it is undefined. *)
Theorem C50_undefined : forall (A : Type) (o : ol (option A)) l s i, holds o l ->
  slice_indices s (Z.of_nat (length l)) = Some i -> (0 < i_len i)%Z ->
  S (Z.to_nat (i_start i)) < length l -> seq_delslice o s = UB.
Proof.
  intros A o l s i H E Hl Hlt. destruct (Z.lt_ge_cases (i_step i) 0) as [Hs|Hs].
  - rewrite (delslice_neg o l s i H E Hs Hl). destruct (Nat.ltb_spec (S (Z.to_nat (i_start i))) (length l)); [reflexivity|lia].
  - apply (delslice_pos o l s i H E); auto. destruct (slice_step _ _ _ E). lia.
Qed.
Print Assumptions C50_undefined.
Theorem C50_empty_partial : forall (A : Type) (o : ol (option A)) l s i, holds o l -> set_indices o s = Some i -> i_len i = 0%Z ->
  seq_delslice o s = Ok (o, Ret tt).
Proof. intros A o l s i. exact (delslice_none o l s i). Qed.
Print Assumptions C50_empty_partial.
(** del l[5:] selects nothing of three items, and raises ValueError. *)
Theorem C50_beyond_refuted : exists (o : ol (option str)) l s i, holds o l /\
  slice_indices s (Z.of_nat (length l)) = Some i /\ i_len i = 0%Z /\ seq_delslice o s = Ok (o, Raise EValue).
Proof.
  exists (wrap abc), abc, (mkSlice (Some 5%Z) None None). eexists. split; [exact abc_holds|].
  split; [vm_compute; reflexivity|]. split; [reflexivity|]. vm_compute. reflexivity.
Qed.
Print Assumptions C50_beyond_refuted.
Example C50_cases :
  seq_delslice (wrap abc) (mkSlice None (Some 2%Z) None) = UB /\
  seq_delslice (wrap abc) (mkSlice (Some 2%Z) None None) = Ok (mkOL [Some sa; Some sb; None] (TAt 2) 3, Ret tt) /\
  set_indices (wrap abc) (mkSlice (Some 1%Z) (Some 1%Z) None) = Some (mkInd 1 1 1 0).
Proof. split; [|split]; vm_compute; reflexivity. Qed.

(** * C51: ids stay unique *)
(** Any history of calls except insert, with values of slice assignments that
    have distinct ids. *)
Theorem C51_unique_partial : forall (A : Type) same kind key valid (cs : list sop) (o o' : ol (option A)) rs,
  Forall (keeps_ids key) cs -> ogood o -> NoDup (ids key (oitems o)) ->
  idl_run same kind key valid o cs = Ok (o', rs) -> ogood o' /\ NoDup (ids key (oitems o')).
Proof. intros A same kind key valid cs o o' rs Hc Hg Hn E. exact (idl_run_inv same kind key valid cs o o' rs Hc (conj Hg Hn) E). Qed.
Print Assumptions C51_unique_partial.
Definition some_calls : list (@sop str) :=
  [SAppend (Some sa); SAppend (Some sb); SAppend (Some sa); SSet 1 (Some sc); SSetSlice (mkSlice (Some 1%Z) None None) (Some [Some sd; Some se]);
   SDel 0; SRemove (Some se); SSetSlice (mkSlice None None None) (Some [Some sd]); SDelSlice (mkSlice (Some 3%Z) (Some 3%Z) None)].
Example C51_unique_case : Forall (keeps_ids ikey) some_calls /\
  idl_run streq ById ikey yes ol_create some_calls =
  Ok (wrap [sd], [Ret tt; Ret tt; Raise EKey; Ret tt; Ret tt; Ret tt; Ret tt; Raise EKey; Ret tt]).
Proof.
  split; [|vm_compute; reflexivity].
  repeat constructor; cbn; intuition discriminate.
Qed.
(** insert does not look at ids; nor does slice assignment compare the new
    items with each other. *)
Theorem C51_insert_refuted : exists (cs : list (@sop str)) o' rs, idl_run streq ById ikey yes ol_create cs = Ok (o', rs) /\ ~ NoDup (ids ikey (oitems o')).
Proof.
  exists [SAppend (Some sa); SInsert 0 (Some sa)]. do 2 eexists. split; [vm_compute; reflexivity|].
  intros H. inversion H as [|? ? Hx _]. apply Hx. now left.
Qed.
Print Assumptions C51_insert_refuted.
Theorem C51_slice_refuted : exists (cs : list (@sop str)) o' rs, idl_run streq ById ikey yes ol_create cs = Ok (o', rs) /\ ~ NoDup (ids ikey (oitems o')).
Proof.
  exists [SSetSlice (mkSlice None None None) (Some [Some sa; Some sa])]. do 2 eexists. split; [vm_compute; reflexivity|].
  intros H. inversion H as [|? ? Hx _]. apply Hx. now left.
Qed.
Print Assumptions C51_slice_refuted.
(** append answers for every item: appended, or KeyError if the id is there. *)
Theorem C51_append : forall (A : Type) kind key valid (o : ol (option A)) l x, kind = ById -> holds o l -> valid x = true -> small (l ++ [x]) ->
  (~ has_id key l x -> exists o', seq_append_unique kind key valid o (Some x) = Ok (o', Ret tt) /\ holds o' (l ++ [x])) /\
  (has_id key l x -> seq_append_unique kind key valid o (Some x) = Ok (o, Raise EKey)).
Proof.
  intros A kind key valid o l x Hk H Hv Hs. split.
  - exact (appendunique_ok kind key valid o l x Hk H Hv Hs).
  - exact (appendunique_taken kind key valid o l x Hk H).
Qed.
Print Assumptions C51_append.
Example C51_append_case : small (abc ++ [sd]) /\ yes sd = true /\ seq_append_unique ById ikey yes (wrap abc) (Some sd) = Ok (wrap [sa; sb; sc; sd], Ret tt).
Proof. split; [reflexivity|]. split; vm_compute; reflexivity. Qed.
(** A refused call changes nothing. *)
Theorem C51_refused : forall (A : Type) same kind key valid (o : ol (option A)) c o' e, ogood o -> fits o ->
  idl_step same kind key valid o c = Ok (o', Raise e) -> o' = o.
Proof. intros A same kind key valid o c o' e. exact (failed_unchanged same kind key valid o c o' e). Qed.
Print Assumptions C51_refused.
Example C51_refused_case : ogood (wrap abc) /\ fits (wrap abc) /\
  idl_step streq ById ikey yes (wrap abc) (SSetSlice (mkSlice (Some 5%Z) None (Some 2%Z)) (Some [])) = Ok (wrap abc, Raise EValue) /\
  idl_step streq ById ikey yes (wrap abc) (SDelSlice (mkSlice (Some 5%Z) None None)) = Ok (wrap abc, Raise EValue) /\
  idl_step streq ById ikey yes (wrap abc) (SSet 3 (Some sd)) = Ok (wrap abc, Raise EIndex).
Proof. split; [split; reflexivity|]. split; [reflexivity|]. repeat split; vm_compute; reflexivity. Qed.

(** * C52: append, insert, remove, iteration *)
Theorem C52_append : forall (A : Type) valid (o : ol (option A)) l x, holds o l -> small (l ++ [x]) ->
  exists o', seq_append valid o (Some x) = Ok (o', if valid x then Ret tt else Raise EInvalid) /\ holds o' (if valid x then l ++ [x] else l).
Proof.
  intros A valid o l x H Hs. destruct (valid x) eqn:Hv.
  - exact (append_spec valid o l x H Hs Hv).
  - exists o. split; [|exact H]. unfold seq_append. now rewrite Hv.
Qed.
Print Assumptions C52_append.
(** insert clamps the index as Python does. *)
Theorem C52_insert : forall (A : Type) valid (o : ol (option A)) l i x, holds o l -> is_int i -> small (x :: l) -> valid x = true ->
  exists o', seq_insert valid o i (Some x) = Ok (o', Ret tt) /\
    holds o' (firstn (py_clamp (length l) i) l ++ x :: skipn (py_clamp (length l) i) l).
Proof. intros A valid o l i x. exact (insert_spec (fun _ _ => true) valid o l i x). Qed.
Print Assumptions C52_insert.
Example C52_insert_case : is_int (-1) /\ small (sd :: abc) /\ py_clamp 3 (-1) = 2 /\ py_clamp 3 (-9) = 0 /\ py_clamp 3 7 = 3 /\
  seq_insert yes (wrap abc) (-1) (Some sd) = Ok (wrap [sa; sb; sd; sc], Ret tt).
Proof. split; [unfold is_int; lia|]. split; [reflexivity|]. repeat split; vm_compute; reflexivity. Qed.
(** remove takes the first item that is the object, not one equal to it. *)
Theorem C52_remove : forall (A : Type) same (o : ol (option A)) l x, holds o l ->
  (exists l1 y l2 o', l = l1 ++ y :: l2 /\ same y x = true /\ (forall z, In z l1 -> same z x = false) /\
     seq_remove same o (Some x) = (o', Ret tt) /\ holds o' (l1 ++ l2)) \/
  ((forall z, In z l -> same z x = false) /\ seq_remove same o (Some x) = (o, Raise EValue)).
Proof.
  intros A same o l x H. destruct (remove_spec same o l x H) as [(i & o' & E & Hf & Ho)|[Ha E]]; [left|right; split; assumption].
  destruct Hf as (l1 & y & l2 & -> & <- & Hy & Hl1). exists l1, y, l2, o'. split; [reflexivity|]. split; [exact Hy|]. split; [exact Hl1|].
  split; [exact E|]. rewrite firstn_app, Nat.sub_diag, firstn_all in Ho. cbn [firstn] in Ho. rewrite app_nil_r in Ho.
  rewrite skipn_app in Ho. rewrite (skipn_all2 l1) in Ho by lia. replace (S (length l1) - length l1) with 1 in Ho by lia. exact Ho.
Qed.
Print Assumptions C52_remove.
Example C52_remove_case : seq_remove streq (wrap abc) (Some sb) = (wrap [sa; sc], Ret tt) /\ seq_remove streq (wrap abc) (Some sd) = (wrap abc, Raise EValue).
Proof. split; vm_compute; reflexivity. Qed.
(** A text converted for the call is a new object, equal to none in the list:
    removing a string from a list of strings never succeeds. *)
Theorem C52_remove_text_refuted : forall (A : Type) same (o : ol (option A)) l x, holds o l -> (forall z, In z l -> same z x = false) ->
  seq_remove same o (Some x) = (o, Raise EValue).
Proof.
  intros A same o l x H Hn. destruct (remove_spec same o l x H) as [(i & o' & _ & (l1 & y & l2 & -> & _ & Hy & _) & _)|[_ E]]; [|exact E].
  rewrite Hn in Hy; [discriminate|]. apply in_or_app. right. now left.
Qed.
Print Assumptions C52_remove_text_refuted.
Theorem C52_iter : forall (A : Type) (o : ol (option A)) l, holds o l -> seq_iter o = l.
Proof. intros A o l. exact (iter_spec o l). Qed.
Print Assumptions C52_iter.
(** After a slice deletion left a NULL item, iteration stops early: the list
    has a length it does not show. *)
Theorem C52_iter_refuted : exists (o : ol (option str)), ogood o /\ length (seq_iter o) <> seq_len o /\
  seq_delslice (wrap [sa]) (mkSlice None None None) = Ok (o, Ret tt).
Proof. eexists. split; [|split; [|vm_compute; reflexivity]]; [split; reflexivity|vm_compute; discriminate]. Qed.
Print Assumptions C52_iter_refuted.
