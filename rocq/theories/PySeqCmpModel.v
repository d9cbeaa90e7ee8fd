(** Model of the comparison operators of Python sequences, PyCOMPSSeq_cmp
    (pycomps_sequence.c:566-577), installed in all list types (groups,
    categories, environments, packages, group ids, strings).

    An item is NULL or an object of a kind with a value; [cmpv k] is the
    comparison of two objects of kind [k] (what it does: ObjModel.v).  It casts
    its second argument unseen, so objects of different kinds are [UB]. *)
From Verif Require Import CStr PyObjModel.

Section SeqCmp.
Context {V : Type} (cmpv : nat -> V -> V -> res bool).
Definition item := option (nat * V).

(** comps_object_cmp, comps_obj.c:48-58. *)
Definition item_cmp (a b : item) : res bool :=
  match a, b with
  | None, None => Ok true
  | Some (k, x), Some (k', y) => if Nat.eqb k k' then cmpv k x y else UB
  | _, _ => Ok false
  end.

(** comps_objlist_cmp, comps_objlist.c:416-430. *)
Fixpoint items_cmp (l1 l2 : list item) : res bool :=
  match l1, l2 with
  | x :: r1, y :: r2 => b <- item_cmp x y ;; if b then items_cmp r1 r2 else Ok false
  | [], [] => Ok true
  | _, _ => Ok false
  end.

(** The right operand: a sequence of any type, or any other object, None
    included. *)
Inductive seqarg := ASeq (l : list item) | AOther.

(** PyCOMPSSeq_cmp, pycomps_sequence.c:566-577: [other->list] is read without a
    look at the type of [other]. *)
Definition seqcmp (self : list item) (other : seqarg) (op : cmp_op) : res bool :=
  match other with
  | AOther => UB
  | ASeq l =>
      r <- items_cmp self l ;;
      Ok (match op with OpEq => r | OpNe => negb r | _ => false end)
  end.
End SeqCmp.
