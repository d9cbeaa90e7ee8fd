(** Model of the Python sequence layer, libcomps/src/python/src/pycomps_sequence.c
    (line numbers below are of that file unless another one is named).

    A Python sequence wraps one COMPS_ObjList.  Its items are object references
    and may be NULL (list_set_slice stores NULLs), so the wrapped list is an
    [ol (option A)].  Not modelled: reference counts (RefcModel.v covers the
    list functions used here), the Python wrapper objects around the items
    (out_convert_func), message texts, and Python integers that do not fit
    Py_ssize_t (PyLong_AsLong would leave an exception pending). *)
From Verif Require Import CStr HSListModel ObjListModel.

(** Exceptions raised by the layer.  [EInvalid] stands for what a pre_checker
    raises. *)
Inductive pyexc := EIndex | EKey | EType | EValue | EInvalid.
(** A call returns a value or raises. *)
Inductive pyret (R : Type) := Ret (r : R) | Raise (e : pyexc).
Arguments Ret {R}. Arguments Raise {R}.

(** How list_unique_id_check and list_getitem_byid find the id of an item
    (PyCOMPS_ItemInfo.props_offset, pycomps_types.h:33-40): [ById]: the offset
    is that of a dictionary of properties (GroupsInfo pycomps_groups.c:369,
    CatsInfo pycomps_categories.c:297, EnvsInfo pycomps_envs.c:317); [ByName]:
    it is that of the name string (PkgsInfo pycomps_groups.c:630); [NoId]: it
    was left zero (GIDsInfo pycomps_gids.c:263-272, StrSeqInfo
    pycomps_mdict.c:597-603), i.e. it designates the reference counter. *)
Inductive ikind := ById | ByName | NoId.

(** * C integers *)
(** Conversion to [int] and to [unsigned int] (32 bits, two's complement). *)
Definition to_uint (z : Z) : Z := (z mod 2^32)%Z.
Definition to_int (z : Z) : Z :=
  let u := to_uint z in (if u <? 2^31 then u else u - 2^32)%Z.
Definition int_max : Z := (2^31 - 1)%Z.

(** * Slices *)
(** PySlice_GetIndicesEx of CPython (external; its documented behaviour, which
    is that of [slice.indices]): start, stop, step, number of positions.
    [None]: a zero step, which raises ValueError. *)
Record slice := mkSlice { sl_start : option Z; sl_stop : option Z; sl_step : option Z }.
Record indices := mkInd { i_start : Z; i_stop : Z; i_step : Z; i_len : Z }.
Definition adjust (step len z : Z) : Z :=
  (if z <? 0 then
     if z + len <? 0 then (if step <? 0 then -1 else 0) else z + len
   else if len <=? z then (if step <? 0 then len - 1 else len)
   else z)%Z.
Definition slice_indices (s : slice) (len : Z) : option indices :=
  let step := match sl_step s with Some k => k | None => 1%Z end in
  if (step =? 0)%Z then None else
  let start := match sl_start s with
               | Some z => adjust step len z
               | None => if (step <? 0)%Z then (len - 1)%Z else 0%Z
               end in
  let stop := match sl_stop s with
              | Some z => adjust step len z
              | None => if (step <? 0)%Z then (-1)%Z else len
              end in
  let n := (if step <? 0 then (if stop <? start then (start - stop - 1) / (- step) + 1 else 0)
            else (if start <? stop then (stop - start - 1) / step + 1 else 0))%Z in
  Some (mkInd start stop step n).

Section PySeq.
Context {A : Type} (same : A -> A -> bool) (kind : ikind) (key : A -> option str)
        (valid : A -> bool).
(** [same]: pointer identity of objects; [key x]: the string found at
    props_offset of [x] — property "id" or the name, [None] if there is none;
    [valid x]: the pre_checker of the list type accepts [x] (always, if the
    type has none). *)
Implicit Types (o : ol (option A)) (x : A).

(** A 32-bit position as used by comps_objlist_get/set/remove_at
    (comps_objlist.c:77-90, 432-446, 250-271): those treat every position from
    the length on alike, so large numbers are cut at the length. *)
Definition upos o (z : Z) : nat :=
  let u := to_uint z in
  if (u <? Z.of_nat (length (oitems o)))%Z then Z.to_nat u else length (oitems o).

(** PyCOMPSSeq_len, 28-30. *)
Definition seq_len o : nat := olen o.

(** list_getitem, 32-48. *)
Definition seq_getitem o (index : Z) : pyret A :=
  let i := to_int (if index <? 0 then Z.of_nat (olen o) + index else index)%Z in
  match ol_get o (upos o i) with
  | Some (Some x) => Ret x
  | _ => Raise EIndex
  end.

(** comps_object_cmp on two ids (comps_obj.c:48-58): both missing, or equal
    strings. *)
Definition id_cmp (a b : option str) : bool :=
  match a, b with
  | None, None => true
  | Some s, Some t => streq s t
  | _, _ => false
  end.

(** list_getitem_byid, 50-91: line 71 tells a dictionary of properties from a
    name by the object it finds; a NULL name, a NULL item, or the reference
    counter found at offset zero, is dereferenced. *)
Fixpoint byid_loop (l : list (option A)) (id : str) : res (pyret A) :=
  match l with
  | [] => Ok (Raise EKey)
  | None :: _ => UB
  | Some x :: r =>
      match kind, key x with
      | NoId, _ | ByName, None => UB
      | _, k => if id_cmp k (Some id) then Ok (Ret x) else byid_loop r id
      end
  end.
Definition seq_byid o (id : str) : res (pyret A) := byid_loop (oitems o) id.

(** list_unique_id_check, 138-162: [true] = an item with that id exists.  The
    word at props_offset is used as a dictionary of properties whatever it
    is. *)
Fixpoint uniq_loop (l : list (option A)) (id : option str) : res bool :=
  match l with
  | [] => Ok false
  | None :: _ => UB
  | Some y :: r => if id_cmp id (key y) then Ok true else uniq_loop r id
  end.
Definition uniq_check o (c : option A) : res bool :=
  match kind, c with
  | ById, Some x => uniq_loop (oitems o) (key x)
  | _, _ => UB
  end.

(** The test [(int)index > (int)(len-1)] of 120 and 177. *)
Definition idx_beyond o (index : Z) : bool :=
  (to_int (Z.of_nat (olen o) - 1) <? to_int index)%Z.

(** list_setitem, 110-136, for an assignment; [item] is the converted item,
    [None] if its type is not accepted. *)
Definition seq_setitem o (index : Z) (item : option A) : ol (option A) * pyret unit :=
  match item with
  | None => (o, Raise EType)
  | Some x =>
      if idx_beyond o index then (o, Raise EIndex)
      else if valid x then (fst (ol_set o (upos o index) (Some x)), Ret tt)
      else (o, Raise EInvalid)
  end.
(** list_setitem and list_setitem_id_unique for a deletion (132, 181-184). *)
Definition seq_delitem o (index : Z) : ol (option A) * pyret unit :=
  if idx_beyond o index then (o, Raise EIndex)
  else (fst (ol_remove_at o (upos o index)), Ret tt).
(** list_setitem_id_unique, 164-192, for an assignment. *)
Definition seq_setitem_unique o (index : Z) (item : option A) : res (ol (option A) * pyret unit) :=
  match item with
  | None => Ok (o, Raise EType)
  | Some x =>
      if idx_beyond o index then Ok (o, Raise EIndex)
      else dup <- uniq_check o (Some x) ;;
           if dup then Ok (o, Raise EKey)
           else Ok (fst (ol_set o (upos o index) (Some x)), Ret tt)
  end.

(** PyCOMPSSeq_append, 436-453. *)
Definition seq_append o (item : option A) : res (ol (option A) * pyret unit) :=
  match item with
  | None => Ok (o, Raise EType)
  | Some x => if valid x then o' <- ol_append o (Some x) ;; Ok (o', Ret tt)
              else Ok (o, Raise EInvalid)
  end.
(** PyCOMPSSeq_append_unique, 487-508. *)
Definition seq_append_unique o (item : option A) : res (ol (option A) * pyret unit) :=
  match item with
  | None => Ok (o, Raise EType)
  | Some x =>
      dup <- uniq_check o (Some x) ;;
      if dup then Ok (o, Raise EKey)
      else if valid x then o' <- ol_append o (Some x) ;; Ok (o', Ret tt)
      else Ok (o, Raise EInvalid)
  end.
(** PyCOMPSSeq_insert, 455-485; the index is a C int (format "i"). *)
Definition ins_index o (index : Z) : Z :=
  (if index <? 0 then
     let i := to_int (index + Z.of_nat (olen o)) in if i <? 0 then 0 else i
   else if to_int (Z.of_nat (olen o)) <? index then to_int (Z.of_nat (olen o))
   else index)%Z.
Definition seq_insert o (index : Z) (item : option A) : res (ol (option A) * pyret unit) :=
  match item with
  | None => Ok (o, Raise EType)
  | Some x =>
      if valid x then
        r <- ol_insert_at o (Z.to_nat (to_uint (ins_index o index))) (Some x) ;;
        Ok (fst r, Ret tt)
      else Ok (o, Raise EInvalid)
  end.
(** PyCOMPSSeq_remove, 510-530: by identity of the converted item.  (Strings,
    and group ids given as strings, are converted to a new object.) *)
Definition osame (a b : option A) : bool :=
  match a, b with Some x, Some y => same x y | None, None => true | _, _ => false end.
Definition seq_remove o (item : option A) : ol (option A) * pyret unit :=
  match item with
  | None => (o, Raise EType)
  | Some x =>
      let '(o', r) := ol_remove osame o (Some x) in
      if (r =? 0)%Z then (o', Raise EValue) else (o', Ret tt)
  end.
(** PyCOMPSSeq_clear, 603-606. *)
Definition seq_clear o : ol (option A) := ol_clear o.

(** list_concat, 194-218, and list_repeat, 220-237 (neither is installed in a
    type).  [end->next] is read once per round, also for an empty list. *)
Definition seq_concat o1 o2 : res (ol (option A)) := ol_concat o1 o2.
Fixpoint repeat_loop (count : nat) (items : list (option A)) (ret : ol (option A)) :
  res (ol (option A)) :=
  match count with
  | O => Ok ret
  | S c => ret' <- ol_append_all ret items ;; repeat_loop c items ret'
  end.
Definition seq_repeat o (count : Z) : res (ol (option A)) :=
  match Z.to_nat count with
  | O => Ok ol_create
  | n => match otail o with
         | TAt j => repeat_loop n (firstn (S j) (oitems o)) ol_create
         | _ => UB
         end
  end.

(** PyCOMPSSeq_getiter and PyCOMPSSeq_iternext, 579-601: iteration ends at a
    NULL item. *)
Fixpoint iter_loop (l : list (option A)) : list A :=
  match l with
  | Some x :: r => x :: iter_loop r
  | _ => []
  end.
Definition seq_iter o : list A := iter_loop (oitems o).

(** ** list_get_slice, 239-273 *)
(** The do-while of 267-270: [istep] moves, from the end back to the first
    item.  [all] are the items from [first], [it] those from the current one
    (never empty). *)
Fixpoint adv_wrap (all it : list (option A)) (k : nat) : list (option A) :=
  match k with
  | O => it
  | S k' => match it with
            | _ :: (_ :: _) as r => adv_wrap all r k'
            | _ => adv_wrap all all k'
            end
  end.
Fixpoint gs_loop (all it : list (option A)) (istep : Z) (n : nat) (ret : ol (option A)) :
  res (ol (option A)) :=
  match n with
  | O => Ok ret
  | S n' =>
      match it with
      | [] => UB
      | x :: _ =>
          ret' <- ol_append ret x ;;
          if (int_max <? istep)%Z then UB      (* [int i] overflows, 268 *)
          else gs_loop all (adv_wrap all it (Z.to_nat istep)) istep n' ret'
      end
  end.
Definition seq_getslice o (s : slice) : res (pyret (ol (option A))) :=
  match slice_indices s (to_uint (Z.of_nat (olen o))) with
  | None => Ok (Raise EValue)
  | Some (mkInd istart _ istep ilen) =>
      match oitems o with
      | [] => Ok (Ret ol_create)
      | all =>
          if (Z.of_nat (length all) <? istart)%Z then UB
          else r <- gs_loop all (skipn (Z.to_nat istart) all) istep (Z.to_nat ilen) ol_create ;;
               Ok (Ret r)
      end
  end.

(** ** list_set_slice, 300-414 *)
(** The moves of 354-356 and 395-397 over [n] items, positions instead of
    pointers, [n] for NULL: up to the end, from there to the first item, and on
    without a test for the end. *)
Fixpoint adv1 (n k pos : nat) : nat * nat :=
  match k with
  | O => (O, pos)
  | S k' => if pos =? n then (k, pos) else adv1 n k' (S pos)
  end.
Fixpoint adv2 (n k pos : nat) : res nat :=
  match k with
  | O => Ok pos
  | S k' => if pos =? n then UB else adv2 n k' (S pos)
  end.
Definition adv (n k pos : nat) : res nat :=
  let '(k', pos') := adv1 n k pos in
  adv2 n k' (if pos' =? n then 0 else pos').

(** 307-315: an empty selection is computed a second time, for another
    length. *)
Definition set_indices o (s : slice) : option indices :=
  let n := to_uint (Z.of_nat (olen o)) in
  match slice_indices s n with
  | None => None
  | Some i => if (i_len i =? 0)%Z then slice_indices s (n + i_start i) else Some i
  end.

(** 332-336: no item of [val] may have an id found in the list. *)
Fixpoint check_all o (vs : list (option A)) : res bool :=
  match vs with
  | [] => Ok false
  | v :: r => dup <- uniq_check o v ;; if dup then Ok true else check_all o r
  end.

(** 344-357: replacing, for a step other than 1; [false]: the list ended. *)
Fixpoint rep_loop (n k step pos : nat) (l vs : list (option A)) : res (list (option A) * bool) :=
  match k with
  | O => Ok (l, true)
  | S k' =>
      if pos =? n then Ok (l, false)
      else match vs with
           | [] => UB
           | v :: vs' =>
               pos' <- adv n step pos ;; rep_loop n k' step pos' (list_upd l pos v) vs'
           end
  end.
(** 362-366: overwriting while both lists last. *)
Fixpoint ow_loop (pos : nat) (l vs : list (option A)) : nat * list (option A) * list (option A) :=
  match vs with
  | [] => (pos, l, [])
  | v :: vs' => if pos <? length l then ow_loop (S pos) (list_upd l pos v) vs'
                else (pos, l, vs)
  end.
Fixpoint remove_times o (i : nat) (k : nat) : ol (option A) :=
  match k with
  | O => o
  | S k' => remove_times (fst (ol_remove_at o i)) i k'
  end.

(** 316-378: assignment of the sequence [vs]; [None]: not of the same type. *)
Definition seq_setslice o (s : slice) (val : option (list (option A))) :
  res (ol (option A) * pyret unit) :=
  match set_indices o s with
  | None => Ok (o, Raise EValue)
  | Some (mkInd istart istop istep ilen) =>
      match val with
      | None => Ok (o, Raise EType)
      | Some vs =>
          let n := to_uint (Z.of_nat (olen o)) in
          if negb (istep =? 1)%Z && negb (n =? to_uint ilen)%Z then Ok (o, Raise EValue)
          else
            dup <- check_all o vs ;;
            if dup then Ok (o, Raise EKey)
            else
              let len := length (oitems o) in
              let pos := Nat.min (Z.to_nat istart) len in
              if negb (istep =? 1)%Z then
                r <- rep_loop len (Z.to_nat ilen) (Z.to_nat istep) pos (oitems o) vs ;;
                let '(l', done) := r in
                Ok (mkOL l' (otail o) (olen o), if done then Ret tt else Raise EValue)
              else
                let istop' := (if istop <? 0 then istop + n else istop)%Z in
                let '(i, l', rest) := ow_loop pos (oitems o) vs in
                let o' := mkOL l' (otail o) (olen o) in
                if i =? len then
                  o'' <- ol_append_all o' rest ;; Ok (o'', Ret tt)
                else
                  Ok (remove_times o' i (Z.to_nat (istop' - Z.of_nat i)), Ret tt)
      end
  end.

(** 384-398: the selected items are set to NULL; [false]: the list ended. *)
Fixpoint mark_loop (n k step pos : nat) (l : list (option A)) : res (list (option A) * bool) :=
  match k with
  | O => Ok (l, true)
  | S k' =>
      if pos =? n then Ok (l, false)
      else pos' <- adv n step pos ;; mark_loop n k' step pos' (list_upd l pos None)
  end.
(** 399-405: when the item before the current one is NULL, the current one is
    removed — freed — and its [next] read. *)
Fixpoint sweep (prev : option (option A)) (it : list (option A)) : res (option (option A)) :=
  match it with
  | [] => Ok prev
  | x :: r => match prev with
              | Some None => UB
              | _ => sweep (Some x) r
              end
  end.
(** 380-410: deletion.  [i] is the number of items when the sweep ends, so the
    removal of 407 is one past the end. *)
Definition seq_delslice o (s : slice) : res (ol (option A) * pyret unit) :=
  match set_indices o s with
  | None => Ok (o, Raise EValue)
  | Some (mkInd istart _ istep ilen) =>
      let len := length (oitems o) in
      r <- mark_loop len (Z.to_nat ilen) (Z.to_nat istep) (Nat.min (Z.to_nat istart) len) (oitems o) ;;
      let '(l', done) := r in
      let o' := mkOL l' (otail o) (olen o) in
      if done then
        last <- sweep None l' ;;
        match last with
        | Some None => Ok (fst (ol_remove_at o' len), Ret tt)
        | _ => Ok (o', Ret tt)
        end
      else Ok (o', Raise EValue)
  end.

End PySeq.
