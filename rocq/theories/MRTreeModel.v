(** Model of comps_objmradix.c, the radix tree behind the multi-dictionaries
    (blacklist, whiteout).  Nodes are those of RTreeModel; the data of a node is
    never NULL but an object list, kept as a plain list (the list operations
    used are append and clear, see C01).  All lines refer to
    comps_objmradix.c. *)
From Verif Require Import CStr HSListModel SetModel RTreeModel.

(** The objects in the data lists: the caller's objects, or an object list that
    [set] itself stored as a single element (425-446). *)
Inductive mval (V : Type) : Type :=
| MV (v : V)
| MNest (l : list (mval V)).
Arguments MV {V} v.
Arguments MNest {V} l.

Section MRTree.
Context {V : Type}.
Notation mlist := (list (mval V)).
Notation mnode := (node mlist).

(** rtdata->data; comps_objmrtree_data_create (35-57) always creates it. *)
Definition mdata (n : mnode) : mlist := match ndata n with Some l => l | None => [] end.

(** COMPS_ObjMRTree {subnodes, len}; [len] as an unbounded integer. *)
Record mtree := mkMT { mroot : hsl mnode; mlen : Z }.
(** comps_objmrtree_create, 71-81. *)
Definition mt_create : mtree := mkMT hs_empty 0%Z.

(** __comps_objmrtree_set, 364-460, with [len == strlen(key)].  Every path that
    stores the object increments [rt->len].  [vs] is what the object adds to the
    list of its key: the object, or nothing if it is NULL (data_create, 46-47,
    skips NULL; the NULL that 404 would append is dealt with at [mt_put_null]). *)
Fixpoint mset_sub (fuel : nat) (subs : hsl mnode) (k : str) (vs : mlist) : res (hsl mnode) :=
  match k with
  | [] => Ok subs                                             (* 380 *)
  | c :: k' =>
    match fuel with
    | O => NoFuel
    | S fuel' =>
      match find_child c (hitems subs) 0 None with
      | NotFound _ => hs_append subs (Node k (Some vs) hs_empty)   (* 389-393 *)
      | Found i n =>
          match scan 1 k' (tl (nkey n)) with
          | E3 =>                                             (* 403-406 *)
              Ok (hs_update subs i (Node (nkey n) (Some (mdata n ++ vs)) (nsubs n)))
          | E2 =>                                             (* 407-422 *)
              let old := Node (skipn (length k) (nkey n)) (ndata n) (nsubs n) in
              hs_append (hs_remove subs i) (Node k (Some vs) (mkH [old] (TAt 0)))
          | E1 x =>                                           (* 423-425 *)
              s <- mset_sub fuel' (nsubs n) (skipn x k) vs ;;
              Ok (hs_update subs i (Node (nkey n) (ndata n) s))
          | E0 x =>                                           (* 426-457 *)
              let old := Node (skipn x (nkey n)) (Some [MNest (mdata n)]) (nsubs n) in
              let new := Node (skipn x k) (Some vs) hs_empty in
              ch <- hs_append_all hs_empty
                      (match strcmp (skipn x k) (skipn x (nkey n)) with
                       | Gt => [old; new]
                       | _ => [new; old]
                       end) ;;
              Ok (hs_update subs i (Node (firstn x (nkey n)) (Some []) ch))
          end
      end
    end
  end.
Definition mt_put (t : mtree) (k : str) (v : mval V) : res mtree :=
  s <- mset_sub (length k) (mroot t) k [v] ;;
  Ok (mkMT s (match k with [] => mlen t | _ => mlen t + 1 end)%Z).
(** comps_objmrtree_set, set_x, 355-360. *)
Definition mt_set (t : mtree) (k : str) (v : V) : res mtree := mt_put t k (MV v).

(** comps_objmrtree_set with a NULL object followed by comps_objlist_remove of
    NULL from the list of the key, as PyCOMPSMDict_set does (pycomps_mdict.c:
    249-255): a new node gets an empty list (46-47); to the list of an existing
    node a NULL is appended (404) and removed again.  [len] counts it. *)
Definition mt_put_null (t : mtree) (k : str) : res mtree :=
  s <- mset_sub (length k) (mroot t) k [] ;;
  Ok (mkMT s (match k with [] => mlen t | _ => mlen t + 1 end)%Z).

(** comps_objmrtree_get, 467-505: the loop of __comps_objrtree_get. *)
Definition mt_get (t : mtree) (k : str) : res (option mlist) := get_sub (length k) (mroot t) k.

(** comps_objmrtree_unset, 507-601.  As comps_objrtree_unset, but the data list
    of a node with children is cleared in place, and [len] is decreased by the
    length of the node's list.  557-571: when the parent's list has become
    empty the parent is destroyed and its freed list used.  The second
    component is the amount subtracted. *)
Fixpoint munset_sub (fuel : nat) (isroot : bool) (subs : hsl mnode) (k : str)
  : res (hsl mnode * Z) :=
  match k with
  | [] => Ok (subs, 0%Z)
  | c :: k' =>
    match fuel with
    | O => NoFuel
    | S fuel' =>
      match find_child c (hitems subs) 0 None with
      | NotFound _ => Ok (subs, 0%Z)
      | Found i n =>
          match scan 1 k' (tl (nkey n)) with
          | E3 =>
              let s' := match htail (nsubs n) with
                        | TNull => hs_remove subs i
                        | _ => hs_update subs i (Node (nkey n) (Some []) (nsubs n))
                        end in
              if isroot then Ok (s', Z.of_nat (length (mdata n)))
              else match htail s' with TNull => UB | _ => Ok (s', Z.of_nat (length (mdata n))) end
          | E1 x =>
              r <- munset_sub fuel' false (nsubs n) (skipn x k) ;;
              Ok (hs_update subs i (Node (nkey n) (ndata n) (fst r)), snd r)
          | _ => Ok (subs, 0%Z)
          end
      end
    end
  end.
Definition mt_unset (t : mtree) (k : str) : res mtree :=
  r <- munset_sub (length k) true (mroot t) k ;; Ok (mkMT (fst r) (mlen t - snd r)%Z).

(** __comps_objmrtree_all, 608-670: the loop of __comps_objrtree_all. *)
Definition mt_pairs (t : mtree) : res (list (str * mlist)) := rt_pairs (mkT (mroot t) 0).
Definition mt_keys (t : mtree) : res (list str) := rmap (map fst) (mt_pairs t).
(** comps_objmrtree_values, 676-678. *)
Definition mt_values (t : mtree) : res (list mlist) := rmap (map snd) (mt_pairs t).

(** comps_objmrtree_clone, 225-279.  For every child of the root line 245 passes
    the address of the data pointer, not the pointer, to comps_object_destroy,
    which reads and writes an object list as if it were a reference counter:
    undefined behaviour unless the tree is empty. *)
Definition mt_clone (t : mtree) : res mtree :=
  match hitems (mroot t) with [] => Ok (mkMT hs_empty (mlen t)) | _ => UB end.
(** comps_objmrtree_copy, 119-170, as reached through comps_object_copy
    (comps_obj.c:32-41): [ret->subnodes] is never initialised, so even the copy
    of an empty tree cannot be used. *)
Definition mt_copy (t : mtree) : res mtree := UB.
(** comps_objmrtree_clear, 684-701: frees all items but leaves [first] and
    [last] pointing at them. *)
Definition mt_clear (t : mtree) : res mtree :=
  match hitems (mroot t) with [] => Ok t | _ => UB end.

(** comps_objmrtree_unite, 281-353: breadth first over rt2, every element of
    every data list is set into rt1.  Work list as in RTreeModel.unite_loop. *)
Fixpoint put_all (t : mtree) (k : str) (vs : mlist) : res mtree :=
  match vs with
  | [] => Ok t
  | v :: r => t' <- mt_put t k v ;; put_all t' k r
  end.
Fixpoint put_nodes (t : mtree) (pre : str) (l : list mnode) : res mtree :=
  match l with
  | [] => Ok t
  | n :: r => t' <- put_all t (pre ++ nkey n) (mdata n) ;; put_nodes t' pre r
  end.
Fixpoint munite_loop (fuel : nat) (t : mtree) (q : list (hsl mnode * str)) : res mtree :=
  match q with
  | [] => Ok t
  | (subs, pre) :: q' =>
      match fuel with
      | O => NoFuel
      | S fuel' =>
          t' <- put_nodes t pre (hitems subs) ;;
          munite_loop fuel' t'
            (q' ++ map (fun n => (nsubs n, pre ++ nkey n))
                       (filter (fun n => match hitems (nsubs n) with [] => false | _ => true end)
                               (hitems subs)))
      end
  end.
Definition mt_unite (t1 t2 : mtree) : res mtree :=
  munite_loop (S (fsize (hitems (mroot t2)))) t1 [(mroot t2, [])].

(** comps_objmrtree_paircmp, 703-709: line 707-708 compares the data of the
    first pair with itself. [eqv] is comps_object_cmp on two lists. *)
Definition mpaircmp (eqv : mlist -> mlist -> bool) (p q : str * mlist) : bool :=
  if streq (fst p) (fst q) then eqv (snd p) (snd p) else false.
(** comps_objmrtree_cmp, 711-737. *)
Definition mt_cmp (eqv : mlist -> mlist -> bool) (t1 t2 : mtree) : res bool :=
  p1 <- mt_pairs t1 ;;
  p2 <- mt_pairs t2 ;;
  s1 <- set_add_all (mpaircmp eqv) hs_empty p1 ;;
  s2 <- set_add_all (mpaircmp eqv) hs_empty p2 ;;
  Ok (set_cmp (mpaircmp eqv) s1 s2 =? 0)%Z.

End MRTree.
Arguments mtree V : clear implicits.
