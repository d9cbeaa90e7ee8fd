(** Model of reference counting: comps_mm.c, the life cycle in comps_obj.c, and the
    operations of comps_objlist.c on the references they keep.

    Memory is a list of cells; an address is a position.  Addresses are never given
    out again, so every use of freed memory is seen.  An object is a leaf (a string
    or a number, one value) or an object list.  The counter of an object and its
    body are freed together.  Counters are unbounded. *)
From Verif Require Import CStr HSListModel ObjListModel.

Notation addr := nat (only parsing).
(** A pointer to an object: [None] is NULL. *)
Notation ref := (option nat) (only parsing).
Definition ref_eqb (a b : ref) : bool := match a, b with Some x, Some y => x =? y | None, None => true | _, _ => false end.
Inductive payload := Leaf (v : option str) | Lst (o : ol ref).
(** COMPS_RefC and COMPS_Object, comps_mm.h:36-41, comps_obj.h:124-127. *)
Record cell := mkCell { refc : nat; load : payload }.
(** [None]: freed. *)
Definition heap := list (option cell).
Definition peek (h : heap) (a : addr) : res cell := match nth_error h a with Some (Some c) => Ok c | _ => UB end.
Definition poke (h : heap) (a : addr) (c : option cell) : heap := list_upd h a c.
(** The object behind [a] as a list. *)
Definition peek_list (h : heap) (a : addr) : res (cell * ol ref) :=
  c <- peek h a ;; match load c with Lst o => Ok (c, o) | Leaf _ => UB end.
Definition put_list (h : heap) (a : addr) (o : ol ref) : res heap :=
  c <- peek h a ;; Ok (poke h a (Some (mkCell (refc c) (Lst o)))).

(** comps_object_create, comps_obj.c:7-16, with comps_refc_create, comps_mm.c:21-32:
    the counter starts at 0. *)
Definition create (h : heap) (p : payload) : heap * addr := (h ++ [Some (mkCell 0 p)], length h).
(** comps_object_incref, comps_obj.c:74-78; comps_refc_incref, comps_mm.c:51-54. *)
Definition incref (h : heap) (r : ref) : res heap :=
  match r with
  | None => Ok h
  | Some a => c <- peek h a ;; Ok (poke h a (Some (mkCell (S (refc c)) (load c))))
  end.
Fixpoint each (f : heap -> ref -> res heap) (h : heap) (l : list ref) : res heap :=
  match l with [] => Ok h | r :: l' => h' <- f h r ;; each f h' l' end.
(** comps_object_destroy, comps_obj.c:18-26, with comps_refc_destroy,
    comps_mm.c:34-41: count down, or at 0 run the destructor, then free.  The
    destructor of a list (comps_objlist_destroy, comps_objlist.c:57-66) destroys the
    references it keeps, in order. *)
Fixpoint destroy (fuel : nat) (h : heap) (r : ref) : res heap :=
  match r with
  | None => Ok h
  | Some a =>
    match fuel with
    | O => NoFuel
    | S fuel' =>
      c <- peek h a ;;
      match refc c with
      | S n => Ok (poke h a (Some (mkCell n (load c))))
      | O => h1 <- match load c with Leaf _ => Ok h | Lst o => each (destroy fuel') h (oitems o) end ;;
             _ <- peek h1 a ;; Ok (poke h1 a None)
      end
    end
  end.
(** Nesting never exceeds the number of objects. *)
Definition destroy_ref (h : heap) (r : ref) : res heap := destroy (S (length h)) h r.

(** ** Operations *)
Inductive rop :=
| RNew (v : option str) | RNewList | RIncref (a : addr) | RRelease (a : addr)
| RAppend (l : addr) (r : ref) | RAppendX (l : addr) (r : ref)
| RInsertAt (l : addr) (p : nat) (r : ref) | RInsertAtX (l : addr) (p : nat) (r : ref) | RInsertAfter (l : addr) (i : nat) (r : ref)
| RGet (l : addr) (p : nat) | RRemoveAt (l : addr) (p : nat) | RRemove (l : addr) (r : ref) | RSet (l : addr) (p : nat) (r : ref)
| RClear (l : addr) | RConcatIn (l1 l2 : addr) | RConcat (l1 l2 : addr) | RFilter (f : ref -> bool) (l : addr)
| RSublist (l : addr) (first last : nat)
| RCopy (depth : nat) (a : addr).
(** What a call returns: a code, and an object. *)
Definition rout := (Z * ref)%type.

(** comps_objlist_append, comps_objlist.c:160-163, with comps_objlist_it_create, 8-16. *)
Definition append (h : heap) (l : addr) (r : ref) : res heap :=
  h1 <- incref h r ;; co <- peek_list h1 l ;; o <- ol_append (snd co) r ;; put_list h1 l o.
(** comps_objlist_append_x, 156-159: takes the caller's reference. *)
Definition append_x (h : heap) (l : addr) (r : ref) : res heap :=
  co <- peek_list h l ;; o <- ol_append (snd co) r ;; put_list h l o.
Fixpoint append_each (h : heap) (l : addr) (rs : list ref) : res heap :=
  match rs with [] => Ok h | r :: rs' => h' <- append h l r ;; append_each h' l rs' end.
(** comps_objlist_insert_at, 241-248, and insert_at_x, 233-240: a bad position is
    refused before the reference is taken. *)
Definition insert_at (counted : bool) (h : heap) (l : addr) (p : nat) (r : ref) : res (heap * Z) :=
  co <- peek_list h l ;;
  if olen (snd co) <? p then Ok (h, (-1)%Z)
  else h1 <- (if counted then incref h r else Ok h) ;; co <- peek_list h1 l ;;
       oz <- ol_insert_at (snd co) p r ;; h2 <- put_list h1 l (fst oz) ;; Ok (h2, snd oz).
(** comps_objlist_insert_after, 165-180. *)
Definition insert_after (h : heap) (l : addr) (i : nat) (r : ref) : res heap :=
  h1 <- incref h r ;; co <- peek_list h1 l ;; put_list h1 l (ol_insert_after (snd co) i r).
(** comps_objlist_get, 77-90. *)
Definition get (h : heap) (l : addr) (p : nat) : res (heap * ref) :=
  co <- peek_list h l ;; match ol_get (snd co) p with None => Ok (h, None) | Some r => h1 <- incref h r ;; Ok (h1, r) end.
(** Unlinking and destroying an item, 262-270 and 283-291: the list is written to
    after its item was destroyed (len--, 269 and 290). *)
Definition unlink (h : heap) (l : addr) (o : ol ref) (i : nat) (r : ref) : res heap :=
  h1 <- put_list h l (ol_unlink o i) ;; h2 <- destroy_ref h1 r ;; _ <- peek_list h2 l ;; Ok h2.
(** comps_objlist_remove_at, 250-271. *)
Definition remove_at (h : heap) (l : addr) (p : nat) : res (heap * Z) :=
  co <- peek_list h l ;;
  match nth_error (oitems (snd co)) p with
  | None => Ok (h, 0%Z)
  | Some r => h2 <- unlink h l (snd co) p r ;; Ok (h2, 1%Z)
  end.
(** comps_objlist_remove, 273-292. *)
Definition remove (h : heap) (l : addr) (r : ref) : res (heap * Z) :=
  co <- peek_list h l ;;
  match ol_index ref_eqb (snd co) r with
  | None => Ok (h, 0%Z)
  | Some i => h2 <- unlink h l (snd co) i r ;; Ok (h2, 1%Z)
  end.
(** comps_objlist_set, 432-446: the old element is destroyed (443) before the new
    one is counted (444). *)
Definition set_at (h : heap) (l : addr) (p : nat) (r : ref) : res (heap * Z) :=
  co <- peek_list h l ;;
  match nth_error (oitems (snd co)) p with
  | None => Ok (h, (-1)%Z)
  | Some old => h1 <- destroy_ref h old ;; h2 <- incref h1 r ;; co <- peek_list h2 l ;;
                h3 <- put_list h2 l (fst (ol_set (snd co) p r)) ;; Ok (h3, 0%Z)
  end.
(** comps_objlist_clear, 69-74: all items are destroyed, then the list is reset. *)
Definition clear (h : heap) (l : addr) : res heap :=
  co <- peek_list h l ;; h1 <- each destroy_ref h (oitems (snd co)) ;; put_list h1 l ol_create.
(** comps_objlist_concat_in, 409-414, for two different lists. *)
Definition concat_in (h : heap) (l1 l2 : addr) : res heap := co <- peek_list h l2 ;; append_each h l1 (oitems (snd co)).
(** comps_objlist_concat, 395-407. *)
Definition concat_new (h : heap) (l1 l2 : addr) : res (heap * addr) :=
  let (h1, n) := create h (Lst ol_create) in
  h2 <- concat_in h1 n l1 ;; h3 <- concat_in h2 n l2 ;; Ok (h3, n).
(** A new list of some of the items of [l], each counted: comps_objlist_filter,
    380-393, and comps_objlist_sublist_indexed, 335-352. *)
Definition pick_new (sel : ol ref -> res (ol ref)) (h : heap) (l : addr) : res (heap * addr) :=
  let (h1, n) := create h (Lst ol_create) in
  co <- peek_list h1 l ;; s <- sel (snd co) ;; h2 <- append_each h1 n (oitems s) ;; Ok (h2, n).
(** comps_object_copy, comps_obj.c:32-41, with comps_objlist_copy,
    comps_objlist.c:42-53.  [depth]: the nesting the stack has room for. *)
Section CopyEach.
Variable cp : heap -> ref -> res (heap * ref).
Fixpoint copy_each (h : heap) (n : addr) (rs : list ref) : res heap :=
  match rs with [] => Ok h | r :: rs' => hr <- cp h r ;; h' <- append_x (fst hr) n (snd hr) ;; copy_each h' n rs' end.
End CopyEach.
Fixpoint copy (depth : nat) (h : heap) (r : ref) : res (heap * ref) :=
  match r with
  | None => Ok (h, None)
  | Some a =>
    match depth with
    | O => NoFuel
    | S depth' =>
      c <- peek h a ;;
      match load c with
      | Leaf v => let (h1, n) := create h (Leaf v) in Ok (h1, Some n)
      | Lst o => let (h1, n) := create h (Lst ol_create) in h2 <- copy_each (copy depth') h1 n (oitems o) ;; Ok (h2, Some n)
      end
    end
  end.

Definition rstep (h : heap) (c : rop) : res (heap * rout) :=
  match c with
  | RNew v => let (h1, n) := create h (Leaf v) in Ok (h1, (0%Z, Some n))
  | RNewList => let (h1, n) := create h (Lst ol_create) in Ok (h1, (0%Z, Some n))
  | RIncref a => h1 <- incref h (Some a) ;; Ok (h1, (0%Z, Some a))
  | RRelease a => h1 <- destroy_ref h (Some a) ;; Ok (h1, (0%Z, None))
  | RAppend l r => h1 <- append h l r ;; Ok (h1, (1%Z, None))
  | RAppendX l r => h1 <- append_x h l r ;; Ok (h1, (1%Z, None))
  | RInsertAt l p r => hz <- insert_at true h l p r ;; Ok (fst hz, (snd hz, None))
  | RInsertAtX l p r => hz <- insert_at false h l p r ;; Ok (fst hz, (snd hz, None))
  | RInsertAfter l i r => h1 <- insert_after h l i r ;; Ok (h1, (1%Z, None))
  | RGet l p => hr <- get h l p ;; Ok (fst hr, (0%Z, snd hr))
  | RRemoveAt l p => hz <- remove_at h l p ;; Ok (fst hz, (snd hz, None))
  | RRemove l r => hz <- remove h l r ;; Ok (fst hz, (snd hz, None))
  | RSet l p r => hz <- set_at h l p r ;; Ok (fst hz, (snd hz, None))
  | RClear l => h1 <- clear h l ;; Ok (h1, (0%Z, None))
  | RConcatIn l1 l2 => h1 <- concat_in h l1 l2 ;; Ok (h1, (0%Z, None))
  | RConcat l1 l2 => hn <- concat_new h l1 l2 ;; Ok (fst hn, (0%Z, Some (snd hn)))
  | RSublist l s e => hn <- pick_new (fun o => ol_sublist_indexed o s e) h l ;; Ok (fst hn, (0%Z, Some (snd hn)))
  | RFilter f l => hn <- pick_new (ol_filter f) h l ;; Ok (fst hn, (0%Z, Some (snd hn)))
  | RCopy depth a => hr <- copy depth h (Some a) ;; Ok (fst hr, (0%Z, snd hr))
  end.
