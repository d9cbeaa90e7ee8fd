(** Model of comps_hslist_unique (comps_hslist.c:287-310) with the life of the
    data it handles.

    The list holds addresses of data ([nat]); [eqf] is what the comparison
    callback answers on the contents of two live data.  Calling it on destroyed
    data, destroying data twice and calling a NULL destructor are [UB].  The
    cells of the list are numbered by their position.  Allocation does not
    fail. *)
From Verif Require Import CStr HSListModel.

Section Uniq.
Context (eqf : nat -> nat -> bool).

(** [x] is among the destroyed data. *)
Definition dead (ds : list nat) (x : nat) : bool := existsb (Nat.eqb x) ds.

(** The loop shared by comps_set_in (comps_set.c:73-80) and comps_set_add
    (comps_set.c:106-110): the stored element is the first argument. *)
Fixpoint uq_in (ds kept : list nat) (x : nat) : res bool :=
  match kept with
  | [] => Ok false
  | y :: r =>
      if (dead ds y || dead ds x)%bool then UB
      else if eqf y x then Ok true
      else uq_in ds r x
  end.

(** comps_set_add, comps_set.c:103-113; the set has no data constructor
    (comps_hslist.c:294), so the address itself is stored. *)
Definition uq_add (ds : list nat) (s : hsl nat) (x : nat) : res (hsl nat) :=
  b <- uq_in ds (hitems s) x ;;
  if b then Ok s else hs_append s x.

(** [hlist->data_destructor(it->data)], comps_hslist.c:300; [dtor] tells that
    the list has a destructor. *)
Definition uq_destroy (dtor : bool) (ds : list nat) (x : nat) : res (list nat) :=
  if dtor then (if dead ds x then UB else Ok (ds ++ [x])) else UB.

(** [free(it2)], comps_hslist.c:302 and 304: NULL is ignored. *)
Definition uq_free (cells : list nat) (it2 : option nat) : list nat :=
  match it2 with Some c => cells ++ [c] | None => cells end.

(** The loop of comps_hslist_unique, comps_hslist.c:295-304: [c] is the cell
    under [it], [it2] the one before it, [s] the set, [ds] the destroyed data
    and [cells] the freed cells. *)
Fixpoint uq_loop (dtor : bool) (c : nat) (it2 : option nat) (l : list nat)
  (s : hsl nat) (ds cells : list nat) : res (hsl nat * list nat * list nat) :=
  match l with
  | [] => Ok (s, ds, uq_free cells it2)
  | x :: r =>
      b <- uq_in ds (hitems s) x ;;
      if b then
        ds' <- uq_destroy dtor ds x ;;
        uq_loop dtor (S c) (Some c) r s ds' (uq_free cells it2)
      else
        s' <- uq_add ds s x ;;
        uq_loop dtor (S c) (Some c) r s' ds (uq_free cells it2)
  end.

(** comps_hslist_unique, comps_hslist.c:287-310, on a non-NULL list: the list
    takes both ends of the set's list (305-306); its old [last] is not read.
    Answers the new list, the destroyed data and the freed cells. *)
Definition hs_unique (dtor : bool) (h : hsl nat) : res (hsl nat * list nat * list nat) :=
  uq_loop dtor 0 None (hitems h) hs_empty [] [].
End Uniq.
