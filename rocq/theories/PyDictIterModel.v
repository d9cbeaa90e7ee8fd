(** Model of the iterators of Python string dictionaries while the dictionary
    changes: PyCOMPSDict_getiter, getiteritems and getitervalues
    (pycomps_dict.c:318-346), PyCOMPSDict_iternext (469-480).

    The iterator has its own list, made when it is created: copies of the keys
    (comps_objradix.c:655, 660), and for values and items the addresses of the
    string objects in the dictionary, uncounted (657, 661).  It keeps no
    reference to the dictionary.

    Objects are numbered as they are made.  An object exists as long as the
    dictionary or someone else ([outside], which does not change here) holds it:
    that counters do this is the matter of C100.  Reading an object that does not
    exist is [UB].  The dictionary is its entries; what is found under which key
    is the matter of the claims about radix trees. *)
From Verif Require Import CStr.

Inductive itkind := ItKeys | ItValues | ItItems.

Section DictIter.
(** What the objects that existed when the iterator was made say, which of them
    others hold, and the kind of the iterator. *)
Context (txt : nat -> str) (outside : nat -> bool) (kind : itkind).

Record dst := mkDst { ents : list (str * nat); nextobj : nat; ahead : list (str * nat) }.

Inductive dop :=
| DSet (k : str)  (* PyCOMPSDict_set with a value, a new string object *)
| DDel (k : str)  (* comps_objdict_unset; [del] itself is [UB] before it gets there (PyDictModel) *)
| DClear          (* PyCOMPSDict_clear *)
| DDrop           (* the last reference to the dictionary is given back *)
| DNext.

Definition without (k : str) (l : list (str * nat)) : list (str * nat) :=
  filter (fun e => negb (streq (fst e) k)) l.

(** The object is there. *)
Definition exists_ (s : dst) (x : nat) : bool :=
  (existsb (fun e => Nat.eqb (snd e) x) (ents s) || outside x)%bool.

(** __pycomps_dict_key_out (pycomps_utils.c:26-28), __pycomps_dict_val_out
    (pycomps_dict.c:23-29), __pycomps_dict_pair_out (31-43). *)
Definition dout (s : dst) (k : str) (x : nat) : res (option str * option str) :=
  match kind with
  | ItKeys => Ok (Some k, None)
  | ItValues => if exists_ s x then Ok (None, Some (txt x)) else UB
  | ItItems => if exists_ s x then Ok (Some k, Some (txt x)) else UB
  end.

(** PyCOMPSDict_iternext, pycomps_dict.c:469-480; [None] is the end. *)
Definition dnext (s : dst) : res (dst * option (option str * option str)) :=
  match ahead s with
  | [] => Ok (s, None)
  | (k, x) :: r => o <- dout s k x ;; Ok (mkDst (ents s) (nextobj s) r, Some o)
  end.

Definition dstep (s : dst) (o : dop) : res (dst * list (option (option str * option str))) :=
  match o with
  | DSet k => Ok (mkDst ((k, nextobj s) :: without k (ents s)) (S (nextobj s)) (ahead s), [])
  | DDel k => Ok (mkDst (without k (ents s)) (nextobj s) (ahead s), [])
  | DClear => Ok (mkDst [] (nextobj s) (ahead s), [])
  | DDrop => Ok (mkDst [] (nextobj s) (ahead s), [])
  | DNext => r <- dnext s ;; Ok (fst r, [snd r])
  end.
Fixpoint drun (s : dst) (os : list dop) : res (dst * list (option (option str * option str))) :=
  match os with
  | [] => Ok (s, [])
  | o :: r => a <- dstep s o ;; b <- drun (fst a) r ;; Ok (fst b, snd a ++ snd b)
  end.

(** The three functions that make iterators, pycomps_dict.c:318-346, on a
    dictionary of the given entries, whose objects are numbered below [n]. *)
Definition dict_iter (l : list (str * nat)) (n : nat) : dst := mkDst l n l.
End DictIter.
