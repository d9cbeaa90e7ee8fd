(** Counted memory: cells with a counter and a body, as used by comps_mm.c /
    comps_obj.c and by CPython's object headers.

    The counter of a cell here is the number of references: [ref_count + 1] for a
    COMPS_Object (comps_mm.c:21-32 starts at 0), [ob_refcnt] for a Python object.
    Addresses are positions and are never given out again, so that every use of
    freed memory is seen.  Counters are unbounded. *)
From Verif Require Import CStr.

Section CountMem.
Context {B : Type}.
(** The references that the destructor of a body releases, in order. *)
Variable kids : B -> list nat.

Record cell := mkC { cnt : nat; body : B }.
(** [None]: freed. *)
Definition mem := list (option cell).
Definition peek (m : mem) (a : nat) : res cell := match nth_error m a with Some (Some c) => Ok c | _ => UB end.
(** comps_object_create, comps_obj.c:7-16; PyType_GenericAlloc. *)
Definition alloc (m : mem) (b : B) : mem * nat := (m ++ [Some (mkC 1 b)], length m).
(** comps_object_incref, comps_obj.c:74-78; Py_INCREF. *)
Definition incr (m : mem) (a : nat) : res mem :=
  c <- peek m a ;; Ok (list_upd m a (Some (mkC (S (cnt c)) (body c)))).
(** Writing a field of a cell. *)
Definition put (m : mem) (a : nat) (b : B) : res mem :=
  c <- peek m a ;; Ok (list_upd m a (Some (mkC (cnt c) b))).
Fixpoint each (f : mem -> nat -> res mem) (m : mem) (l : list nat) : res mem :=
  match l with [] => Ok m | a :: r => m' <- f m a ;; each f m' r end.
(** comps_object_destroy, comps_obj.c:18-26, with comps_refc_destroy,
    comps_mm.c:34-41; Py_DECREF: count down, or run the destructor and free.
    [fuel] bounds the nesting. *)
Fixpoint release (fuel : nat) (m : mem) (a : nat) : res mem :=
  match fuel with
  | O => NoFuel
  | S f =>
      c <- peek m a ;;
      match cnt c with
      | O => UB
      | S O => m1 <- each (release f) m (kids (body c)) ;; _ <- peek m1 a ;; Ok (list_upd m1 a None)
      | S n => Ok (list_upd m a (Some (mkC n (body c))))
      end
  end.
End CountMem.
Arguments cell B : clear implicits.
Arguments mem B : clear implicits.
