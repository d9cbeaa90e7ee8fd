(** Model of the iterator of Python sequences (PyCOMPSSeq_getiter and
    PyCOMPSSeq_iternext, pycomps_sequence.c:579-601) while the sequence changes.

    The nodes of the list (COMPS_ObjListIt) are numbered as they are made and
    never get the number of an older one; the list is its nodes in order, each
    with its object or NULL.  A node that is not in the list was freed; reading
    it is [UB].  The [next] pointer of a node in the list is its successor: the
    tail pointer of the list is the matter of C01.  The reference to the
    sequence held by the iterator (583) keeps the list alive, so the end of the
    sequence is not a step here. *)
From Verif Require Import CStr.

Section PyIter.
Context {A : Type}.

(** Insertion in front of position [p]; nothing beyond the end. *)
Fixpoint ins {B} (p : nat) (v : B) (l : list B) : list B :=
  match p, l with
  | O, _ => v :: l
  | S p', y :: r => y :: ins p' v r
  | S _, [] => []
  end.
Fixpoint del {B} (p : nat) (l : list B) : list B :=
  match l, p with
  | [], _ => []
  | _ :: r, O => r
  | y :: r, S p' => y :: del p' r
  end.
Fixpoint upd {B} (p : nat) (f : B -> B) (l : list B) : list B :=
  match l, p with
  | [], _ => []
  | y :: r, O => f y :: r
  | y :: r, S p' => y :: upd p' f r
  end.

(** The nodes, the number of the next new node, and [iter->it]. *)
Record ist := mkIst { cells : list (nat * option A); fresh : nat; cur : option nat }.

Inductive iop :=
| IAppend (v : option A)
| IInsert (p : nat) (v : option A)
| ISet (p : nat) (v : option A)
| IRemove (p : nat)
| IClear
| INext.

Definition first_of (l : list (nat * option A)) : option nat :=
  match l with [] => None | c :: _ => Some (fst c) end.

(** The object of a node and its [next], [None] if the node was freed. *)
Fixpoint look (c : nat) (l : list (nat * option A)) : option (option A * option nat) :=
  match l with
  | [] => None
  | (i, v) :: r => if Nat.eqb i c then Some (v, first_of r) else look c r
  end.

(** PyCOMPSSeq_iternext, 588-601: the item, or [None] for the end.  At a NULL
    object the iterator ends and stays where it is. *)
Definition iternext (s : ist) : res (ist * option A) :=
  match cur s with
  | None => Ok (s, None)
  | Some c =>
      match look c (cells s) with
      | None => UB
      | Some (None, _) => Ok (s, None)
      | Some (Some x, nx) => Ok (mkIst (cells s) (fresh s) nx, Some x)
      end
  end.

(** One call: comps_objlist_append_x (comps_objlist.c:143-159),
    comps_objlist_insert_at_x (205-241), comps_objlist_set (432-446, in place),
    comps_objlist_remove_at (250-271; comps_objlist_remove, 273-294, takes the
    position of an object), comps_objlist_clear (69-74).  The second component
    is what [next] answered. *)
Definition istep (s : ist) (o : iop) : res (ist * list (option A)) :=
  match o with
  | IAppend v => Ok (mkIst (cells s ++ [(fresh s, v)]) (S (fresh s)) (cur s), [])
  | IInsert p v => Ok (mkIst (ins p (fresh s, v) (cells s)) (S (fresh s)) (cur s), [])
  | ISet p v => Ok (mkIst (upd p (fun c => (fst c, v)) (cells s)) (fresh s) (cur s), [])
  | IRemove p => Ok (mkIst (del p (cells s)) (fresh s) (cur s), [])
  | IClear => Ok (mkIst [] (fresh s) (cur s), [])
  | INext => r <- iternext s ;; Ok (fst r, [snd r])
  end.
Fixpoint irun (s : ist) (os : list iop) : res (ist * list (option A)) :=
  match os with
  | [] => Ok (s, [])
  | o :: r => a <- istep s o ;; b <- irun (fst a) r ;; Ok (fst b, snd a ++ snd b)
  end.

(** PyCOMPSSeq_getiter, 579-586, on a list of the given objects. *)
Definition getiter (l : list (option A)) : ist :=
  let cs := combine (seq 0 (length l)) l in mkIst cs (length l) (first_of cs).
End PyIter.
Arguments ist : clear implicits.
Arguments iop : clear implicits.
