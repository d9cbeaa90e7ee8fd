(** Model of the references taken and given back by the methods of Python
    sequences of document objects (pycomps_sequence.c): append, insert, item
    assignment and deletion, remove, item access, clear.

    The list is the addresses of its objects; every one of them is a reference
    the list holds.  The client holds objects through Python wrappers, each with
    one reference to its C object ([wraps]).  Taking or giving back a reference
    to an object without references is [UB].  Whether an object passes the check
    of the type (validity, uniqueness of its id) is an argument of the call.
    Converting an item takes a reference (comps_groups_in, pycomps_groups.c:350-352;
    comps_pkgs_in, 547-549; comps_cats_in, pycomps_categories.c:278-280; comps_envs_in,
    pycomps_envs.c:298-300; comps_gids_in, pycomps_gids.c:245-247); item access gives its
    reference to the wrapper (comps_groups_out, pycomps_groups.c:354-361), which gives it
    back when it goes (PyCOMPSGroup_dealloc, 40-49).
    Simplified: indices are in the range of int; slices, strings converted to new
    objects (comps_gids_str_in), items of other types and access from the right are
    not modelled. *)
From Verif Require Import CStr PyIterModel.

Record rst := mkRst { its : list nat; wraps : list nat; cnt : nat -> nat; newobj : nat }.

Definition setc (f : nat -> nat) (a v : nat) : nat -> nat := fun x => if Nat.eqb x a then v else f x.
Definition holds_ (l : list nat) (a : nat) : bool := existsb (Nat.eqb a) l.
Fixpoint remove1 (a : nat) (l : list nat) : list nat :=
  match l with [] => [] | x :: r => if Nat.eqb x a then r else x :: remove1 a r end.

(** comps_object_incref (comps_obj.c:74-78), comps_object_destroy (comps_obj.c:18-26). *)
Definition inc (f : nat -> nat) (a : nat) : res (nat -> nat) :=
  match f a with O => UB | S n => Ok (setc f a (S (S n))) end.
Definition dec (f : nat -> nat) (a : nat) : res (nat -> nat) :=
  match f a with O => UB | S n => Ok (setc f a n) end.
Fixpoint dec_all (f : nat -> nat) (l : list nat) : res (nat -> nat) :=
  match l with [] => Ok f | a :: r => f' <- dec f a ;; dec_all f' r end.

Inductive rop :=
| PNew                          (* a new object in a new wrapper *)
| PAppend (a : nat) (ok : bool)
| PInsert (p a : nat) (ok : bool)
| PSet (i : Z) (a : nat) (ok : bool)
| PDel (i : Z)
| PRemove (a : nat)
| PGet (p : nat)
| PClear
| PFree (a : nat).              (* a wrapper of the object goes *)
Inductive rout := Done | Refused | IndexErr | ValueErr | NoWrapper.

Definition wrapped (s : rst) (a : nat) (k : res (rst * rout)) : res (rst * rout) :=
  if holds_ (wraps s) a then k else Ok (s, NoWrapper).

Definition rstep (s : rst) (o : rop) : res (rst * rout) :=
  let '(mkRst l w f n) := s in
  match o with
  | PNew => Ok (mkRst l (n :: w) (setc f n 1) (S n), Done)
  (* PyCOMPSSeq_append, PyCOMPSSeq_append_unique, 436-453, 487-508 *)
  | PAppend a ok =>
      wrapped s a
        (f1 <- inc f a ;;
         if ok then Ok (mkRst (l ++ [a]) w f1 n, Done)
         else f2 <- dec f1 a ;; Ok (mkRst l w f2 n, Refused))
  (* PyCOMPSSeq_insert, 455-485, with a position that is not negative *)
  | PInsert p a ok =>
      wrapped s a
        (f1 <- inc f a ;;
         if ok then Ok (mkRst (ins (Nat.min p (length l)) a l) w f1 n, Done)
         else f2 <- dec f1 a ;; Ok (mkRst l w f2 n, Refused))
  (* list_setitem and list_setitem_id_unique, 110-136, 164-192, with
     comps_objlist_set, comps_objlist.c:432-446, which takes its own reference *)
  | PSet i a ok =>
      wrapped s a
        (f1 <- inc f a ;;
         if (i >? Z.of_nat (length l) - 1)%Z then Ok (mkRst l w f1 n, IndexErr)
         else if negb ok then f2 <- dec f1 a ;; Ok (mkRst l w f2 n, Refused)
         else if (i <? 0)%Z then Ok (mkRst l w f1 n, Done)
         else match nth_error l (Z.to_nat i) with
              | None => UB
              | Some x =>
                  f2 <- dec f1 x ;; f3 <- inc f2 a ;;
                  Ok (mkRst (upd (Z.to_nat i) (fun _ => a) l) w f3 n, Done)
              end)
  (* the same for a deletion, 120-123, 132; 177-184, with comps_objlist_remove_at,
     comps_objlist.c:250-271 *)
  | PDel i =>
      if (i >? Z.of_nat (length l) - 1)%Z then Ok (s, IndexErr)
      else if (i <? 0)%Z then Ok (s, Done)
      else match nth_error l (Z.to_nat i) with
           | None => UB
           | Some x => f1 <- dec f x ;; Ok (mkRst (del (Z.to_nat i) l) w f1 n, Done)
           end
  (* PyCOMPSSeq_remove, 510-530, with comps_objlist_remove, comps_objlist.c:273-292 *)
  | PRemove a =>
      wrapped s a
        (f1 <- inc f a ;;
         if holds_ l a then f2 <- dec f1 a ;; Ok (mkRst (remove1 a l) w f2 n, Done)
         else Ok (mkRst l w f1 n, ValueErr))
  (* list_getitem, 32-48: the reference of comps_objlist_get goes to the wrapper *)
  | PGet p =>
      match nth_error l p with
      | None => Ok (s, IndexErr)
      | Some a => f1 <- inc f a ;; Ok (mkRst l (a :: w) f1 n, Done)
      end
  (* PyCOMPSSeq_clear, 603-606, comps_objlist_clear, comps_objlist.c:69-74 *)
  | PClear => f1 <- dec_all f l ;; Ok (mkRst [] w f1 n, Done)
  | PFree a => wrapped s a (f1 <- dec f a ;; Ok (mkRst l (remove1 a w) f1 n, Done))
  end.

Fixpoint rrun (s : rst) (os : list rop) : res (rst * list rout) :=
  match os with
  | [] => Ok (s, [])
  | o :: r => a <- rstep s o ;; b <- rrun (fst a) r ;; Ok (fst b, snd a :: snd b)
  end.
Definition rstart : rst := mkRst [] [] (fun _ => 0) 0.
