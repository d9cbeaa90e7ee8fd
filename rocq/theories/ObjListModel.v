(** Model of comps_objlist.c.  A list holds object references of type [A]; the
    identity of a reference (C pointer comparison) is [same].  Reference
    counting is modelled separately (RefcModel.v); NULL list arguments, which
    every function rejects, are not modelled. *)
From Verif Require Import CStr HSListModel.

(** COMPS_ObjList, comps_objlist.h: first/last/len.  [oitems] are the objects
    reachable from [first]; [otail] is what [last] designates; [olen] the
    stored count (size_t, kept as an unbounded nat). *)
Record ol (A : Type) := mkOL { oitems : list A; otail : tail; olen : nat }.
Arguments mkOL {A} oitems otail olen.
Arguments oitems {A} o.
Arguments otail {A} o.
Arguments olen {A} o.

Section ObjList.
Context {A : Type} (same : A -> A -> bool).
Implicit Types (o : ol A) (x : A).

(** comps_objlist_create, comps_objlist.c:34-39. *)
Definition ol_create : ol A := mkOL [] TNull 0.

(** __comps_objlist_append, 143-154 (and append/append_x, 156-163). *)
Definition ol_append o x : res (ol A) :=
  match oitems o with
  | [] => Ok (mkOL [x] (TAt 0) (S (olen o)))
  | _ => match otail o with
         | TAt i => Ok (mkOL (firstn (S i) (oitems o) ++ [x]) (TAt (S i)) (S (olen o)))
         | _ => UB
         end
  end.

(** comps_objlist_clear, 69-74. *)
Definition ol_clear o : ol A := ol_create.

(** comps_objlist_get / get_x, 77-105 ([None] is NULL: position past the end).
    A stored NULL reference is an element of [A] like any other. *)
Fixpoint get_loop (l : list A) (pos atpos : nat) : option A :=
  match l with
  | [] => None
  | x :: r => if pos =? atpos then Some x else get_loop r (S pos) atpos
  end.
Definition ol_get o (atpos : nat) : option A := get_loop (oitems o) 0 atpos.

(** comps_objlist_get_it, 107-121: the loop of get, then the test
    [pos+1 != atpos].  The result is the position of the item. *)
Fixpoint walk_to (l : list A) (pos atpos : nat) : nat * list A :=
  match l with
  | [] => (pos, [])
  | x :: r => if pos =? atpos then (pos, l) else walk_to r (S pos) atpos
  end.
Definition ol_get_it o (atpos : nat) : option nat :=
  let '(pos, rest) := walk_to (oitems o) 0 atpos in
  if S pos =? atpos then match rest with [] => None | _ => Some pos end else None.

(** comps_objlist_insert_after, 165-180; [i] is the position of the item. *)
Definition ol_insert_after o (i : nat) x : ol A :=
  mkOL (list_ins (oitems o) (S i) x)
       (match otail o with
        | TAt j => if j =? i then TAt (S i) else if j <? i then TAt j else TAt (S j)
        | t => t
        end) (S (olen o)).

(** comps_objlist_insert_before, 182-203; [i] is the position of the item.  The
    search loop (191) starts at [first] and looks at [tmpit->next]: for the
    first item it runs off the list, and for the second one the code takes the
    "insert at the front" branch (193). *)
Definition ol_insert_before o (i : nat) x : res (ol A) :=
  match i with
  | O => UB
  | S O => Ok (mkOL (x :: oitems o)
                 (match otail o with TNull => TAt 0 | TAt j => TAt (S j) | TBad => TBad end)
                 (S (olen o)))
  | _ => Ok (mkOL (list_ins (oitems o) i x)
               (match otail o with TAt j => if j <? i then TAt j else TAt (S j) | t => t end)
               (S (olen o)))
  end.

(** comps_objlist_insert_at and __comps_objlist_insert_at, 205-248. *)
Definition ol_insert_at o (pos : nat) x : res (ol A * Z) :=
  if olen o <? pos then Ok (o, (-1)%Z)
  else if pos =? 0 then
    Ok (mkOL (x :: oitems o)
          (match otail o with TNull => TAt 0 | TAt j => TAt (S j) | TBad => TBad end)
          (S (olen o)), 1%Z)
  else if pos =? olen o then
    match otail o with
    | TAt i => Ok (mkOL (firstn (S i) (oitems o) ++ [x]) (TAt (S i)) (S (olen o)), 1%Z)
    | _ => UB
    end
  else
    match oitems o with
    | [] => UB
    | _ =>
        let p := Nat.min pos (length (oitems o)) in
        Ok (mkOL (list_ins (oitems o) p x)
              (match otail o with TAt j => if j <? p then TAt j else TAt (S j) | t => t end)
              (S (olen o)), 1%Z)
    end.

(** Unlinking the item at position [i] < length, shared tail of remove_at
    (260-270) and remove (281-291). *)
Definition ol_unlink o (i : nat) : ol A :=
  mkOL (list_del (oitems o) i)
       (match otail o with
        | TAt j => if j =? i then match i with O => TNull | S i' => TAt i' end
                   else if j <? i then TAt j else TAt (j - 1)
        | t => t
        end) (olen o - 1).

(** comps_objlist_remove_at, 250-271.  The [(int)] cast of the position makes
    positions from 2^31 on never match; like any position past the end of a
    list of fewer than 2^31 elements they return 0. *)
Definition ol_remove_at o (atpos : nat) : ol A * Z :=
  if atpos <? length (oitems o) then (ol_unlink o atpos, 1%Z) else (o, 0%Z).

(** comps_objlist_index, 294-303 ([None] is -1). *)
Fixpoint index_loop (l : list A) x (i : nat) : option nat :=
  match l with
  | [] => None
  | y :: r => if same y x then Some i else index_loop r x (S i)
  end.
Definition ol_index o x : option nat := index_loop (oitems o) x 0.

(** comps_objlist_remove, 273-292: first item holding the very reference. *)
Definition ol_remove o x : ol A * Z :=
  match ol_index o x with
  | None => (o, 0%Z)
  | Some i => (ol_unlink o i, 1%Z)
  end.

(** comps_objlist_set, 432-446. *)
Definition ol_set o (atpos : nat) x : ol A * Z :=
  if atpos <? length (oitems o)
  then (mkOL (list_upd (oitems o) atpos x) (otail o) (olen o), 0%Z)
  else (o, (-1)%Z).

(** Appending every element of a list: the loops of copy (48-50), concat,
    concat_in and others. *)
Fixpoint ol_append_all o (l : list A) : res (ol A) :=
  match l with
  | [] => Ok o
  | x :: r => o' <- ol_append o x ;; ol_append_all o' r
  end.

(** comps_objlist_concat, 395-407. *)
Definition ol_concat o1 o2 : res (ol A) :=
  r <- ol_append_all ol_create (oitems o1) ;; ol_append_all r (oitems o2).
(** comps_objlist_concat_in, 409-414, for two different lists. *)
Definition ol_concat_in o1 o2 : res (ol A) := ol_append_all o1 (oitems o2).

(** comps_objlist_filter, 380-393: counts up to [len] and dereferences the item
    pointer each time. *)
Fixpoint filter_loop (f : A -> bool) (n : nat) (l : list A) (ret : ol A) : res (ol A) :=
  match n with
  | O => Ok ret
  | S n' => match l with
            | [] => UB
            | x :: r => ret' <- (if f x then ol_append ret x else Ok ret) ;;
                        filter_loop f n' r ret'
            end
  end.
Definition ol_filter (f : A -> bool) o : res (ol A) := filter_loop f (olen o) (oitems o) ol_create.

(** comps_objlist_sublist_it, 305-315, from the item at position [i] up to (not
    including) the item at position [j]; [None] stands for a NULL end.  An end
    item that is not reached makes the loop dereference NULL. *)
Definition ol_sublist_it o (i : nat) (j : option nat) : res (ol A) :=
  match j with
  | None => ol_append_all ol_create (skipn i (oitems o))
  | Some j => if (i <=? j) && (j <? length (oitems o))
              then ol_append_all ol_create (firstn (j - i) (skipn i (oitems o))) else UB
  end.

(** comps_objlist_sublist_indexed, 335-352: the second loop tests [it->next]. *)
Fixpoint sub_loop (l : list A) (pos end_ : nat) (ret : ol A) : res (ol A) :=
  match l with
  | [] => UB
  | [_] => Ok ret
  | x :: r => if pos =? end_ then Ok ret
              else ret' <- ol_append ret x ;; sub_loop r (S pos) end_ ret'
  end.
Definition ol_sublist_indexed o (start end_ : nat) : res (ol A) :=
  let '(pos, rest) := walk_to (oitems o) 0 start in
  match rest with
  | [] => Ok ol_create
  | _ => sub_loop rest pos end_ ol_create
  end.

(** comps_objlist_sublist_indexed_step, 354-378; line 372 resets [step] instead
    of [stepc]. *)
Fixpoint substep_loop (l : list A) (pos end_ stepc step : nat) (ret : ol A) : res (ol A) :=
  match l with
  | [] => UB
  | [_] => Ok ret
  | x :: r =>
      if pos =? end_ then Ok ret
      else if stepc =? step then
             ret' <- ol_append ret x ;; substep_loop r (S pos) end_ (S stepc) 0 ret'
           else substep_loop r (S pos) end_ (S stepc) step ret
  end.
Definition ol_sublist_indexed_step o (start end_ step : nat) : res (ol A) :=
  let '(pos, rest) := walk_to (oitems o) 0 start in
  match rest with
  | [] => Ok ol_create
  | _ => substep_loop rest pos end_ 0 step ol_create
  end.

End ObjList.

(** comps_objlist_copy, 42-53: [cp] is comps_object_copy. *)
Definition ol_copy {A} (cp : A -> A) (o : ol A) : res (ol A) :=
  ol_append_all ol_create (map cp (oitems o)).

(** comps_objlist_cmp, 416-430; [eqv] is comps_object_cmp.  (A NULL list
    argument makes the code return -1, i.e. "true"; comps_object_cmp never
    passes one.) *)
Fixpoint cmp_lists {A B} (eqv : A -> B -> bool) (l1 : list A) (l2 : list B) : bool :=
  match l1, l2 with
  | [], [] => true
  | x :: r1, y :: r2 => if eqv x y then cmp_lists eqv r1 r2 else false
  | _, _ => false
  end.
Definition ol_cmp {A} (eqv : A -> A -> bool) (o1 o2 : ol A) : bool :=
  cmp_lists eqv (oitems o1) (oitems o2).
