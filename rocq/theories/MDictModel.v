(** Model of comps_mradix.c, the radix tree behind the plain multi-dictionaries
    of comps_dict.c:75-127 (tests/check_mrtree.c is its only user).  Nodes are those of RTreeModel; the data
    of a node is the pointer to its list of values: [Some (Some l)] a list,
    [Some None] NULL.  The data lists are plain lists (appended, cleared, cloned and
    destroyed only, see C01).  All lines refer to comps_mradix.c. *)
From Verif Require Import CStr HSListModel RTreeModel MRTreeModel.

Section MDict.
Context {V : Type}.
(** Values are non-NULL pointers, or a list that [set] itself appended to
    another list (387-411, [MNest]). *)
Notation mlist := (list (mval V)).
Notation pnode := (node (option mlist)).

Definition pdata (n : pnode) : option mlist := match ndata n with Some d => d | None => None end.

(** __comps_mrtree_set, 325-416, with [len == strlen(key)], after the
    constructor (339-342).  comps_hslist_append does nothing for a NULL list
    (comps_hslist.c:51-52), so 368 loses the value there.  396 and 405 hand the old list to data_create,
    which appends it as a value unless it is NULL (49-50). *)
Fixpoint pset_sub (fuel : nat) (subs : hsl pnode) (k : str) (v : V) : res (hsl pnode) :=
  match k with
  | [] => Ok subs                                             (* 345 *)
  | c :: k' =>
    match fuel with
    | O => NoFuel
    | S fuel' =>
      match find_child c (hitems subs) 0 None with
      | NotFound _ => hs_append subs (Node k (Some (Some [MV v])) hs_empty)   (* 354-357 *)
      | Found i n =>
          match scan 1 k' (tl (nkey n)) with
          | E3 =>                                             (* 367-369 *)
              Ok (hs_update subs i (Node (nkey n) (Some (match pdata n with Some l => Some (l ++ [MV v]) | None => None end)) (nsubs n)))
          | E2 =>                                             (* 370-382 *)
              let old := Node (skipn (length k) (nkey n)) (ndata n) (nsubs n) in
              hs_append (hs_remove subs i) (Node k (Some (Some [MV v])) (mkH [old] (TAt 0)))
          | E1 x =>                                           (* 383-385 *)
              s <- pset_sub fuel' (nsubs n) (skipn x k) v ;;
              Ok (hs_update subs i (Node (nkey n) (ndata n) s))
          | E0 x =>                                           (* 386-413 *)
              let old := Node (skipn x (nkey n)) (Some (Some (match pdata n with Some l => [MNest l] | None => [] end))) (nsubs n) in
              let new := Node (skipn x k) (Some (Some [MV v])) hs_empty in
              ch <- hs_append_all hs_empty
                      (match strcmp (skipn x k) (skipn x (nkey n)) with
                       | Gt => [old; new]
                       | _ => [new; old]
                       end) ;;
              Ok (hs_update subs i (Node (firstn x (nkey n)) (Some None) ch))
          end
      end
    end
  end.

(** comps_mrtree_get, 428-465, and getp, 467-504 (the address of the same
    pointer): NULL also when the pointer in the node is NULL. *)
Definition pget (subs : hsl pnode) (k : str) : res (option mlist) :=
  rmap (fun o => match o with Some d => d | None => None end) (get_sub (length k) subs k).

(** The destructor on every value of a list (comps_hslist_destroy and
    comps_hslist_clear, comps_hslist.c:185-204, 249-266, nothing for NULL): [dtor]
    says whether data_destructor is set.  A destructor called with a list made
    by [set] reads it as a value: undefined.  (If it is plain [free] the call is
    defined and the values in the list are lost; not modelled.) *)
Fixpoint values_only (l : mlist) : option (list V) :=
  match l with
  | [] => Some []
  | MV v :: r => option_map (cons v) (values_only r)
  | MNest _ :: _ => None
  end.
Definition pdispose (dtor : bool) (d : option mlist) : res (list V) :=
  match dtor, d with
  | true, Some l => match values_only l with Some vs => Ok vs | None => UB end
  | _, _ => Ok []
  end.

(** comps_mrtree_unset, 506-600: as comps_objrtree_unset, see [unset_sub].  A node
    with subnodes keeps its list, cleared (556). *)
Fixpoint punset_sub (dtor : bool) (fuel : nat) (isroot : bool) (subs : hsl pnode) (k : str)
  : res (hsl pnode * list V) :=
  match k with
  | [] => Ok (subs, [])
  | c :: k' =>
    match fuel with
    | O => NoFuel
    | S fuel' =>
      match find_child c (hitems subs) 0 None with
      | NotFound _ => Ok (subs, [])
      | Found i n =>
          match scan 1 k' (tl (nkey n)) with
          | E3 =>
              ev <- pdispose dtor (pdata n) ;;
              let s' := match htail (nsubs n) with
                        | TNull => hs_remove subs i
                        | _ => hs_update subs i (Node (nkey n) (Some (match pdata n with Some _ => Some [] | None => None end)) (nsubs n))
                        end in
              if isroot then Ok (s', ev)
              else match htail s' with TNull => UB | _ => Ok (s', ev) end
          | E1 x =>
              r <- punset_sub dtor fuel' false (nsubs n) (skipn x k) ;;
              Ok (hs_update subs i (Node (nkey n) (ndata n) (fst r)), snd r)
          | _ => Ok (subs, [])
          end
      end
    end
  end.

(** comps_mrtree_data_destroy, 23-28, and comps_mrtree_destroy, 82-85. *)
Fixpoint pdestroy_list (f : pnode -> res (list V)) (l : list pnode) : res (list V) :=
  match l with
  | [] => Ok []
  | n :: r => a <- f n ;; b <- pdestroy_list f r ;; Ok (a ++ b)
  end.
Fixpoint pdestroy_node (dtor : bool) (n : pnode) : res (list V) :=
  match n with
  | Node _ d (mkH l _) =>
      a <- pdispose dtor (match d with Some d => d | None => None end) ;;
      b <- (fix go (l : list pnode) : res (list V) :=
              match l with
              | [] => Ok []
              | n :: r => a <- pdestroy_node dtor n ;; b <- go r ;; Ok (a ++ b)
              end) l ;;
      Ok (a ++ b)
  end.

(** A multi-dictionary; [p_dead]: [subnodes->first] and [last] point to freed
    items, as comps_mrtree_clear (602-619) leaves them. *)
Record pdict := mkP { p_root : hsl pnode; p_dead : bool }.
(** comps_mrtree_create, 64-80. *)
Definition p_create : pdict := mkP hs_empty false.
Definition p_destroy (dtor : bool) (t : pdict) : res (list V) :=
  if p_dead t then UB else pdestroy_list (pdestroy_node dtor) (hitems (p_root t)).

Inductive pop :=
| PSet (k : str) (v : V)
| PGet (k : str)
| PUnset (k : str)
| PClear.
(** Result of a call and the values given to the destructor. *)
Record peffect := mkPE { pe_got : option mlist; pe_destroyed : list V }.

(** A freed item is read as soon as a search starts. *)
Definition p_live (t : pdict) (k : str) : bool := match k with [] => true | _ => negb (p_dead t) end.
Definition p_step (dtor : bool) (ctor : V -> V) (t : pdict) (o : pop) : res (pdict * peffect) :=
  match o with
  | PSet k v =>
      if p_live t k then s <- pset_sub (length k) (p_root t) k (ctor v) ;; Ok (mkP s (p_dead t), mkPE None []) else UB
  | PGet k => if p_live t k then l <- pget (p_root t) k ;; Ok (t, mkPE l []) else UB
  | PUnset k =>
      if p_live t k then r <- punset_sub dtor (length k) true (p_root t) k ;; Ok (mkP (fst r) (p_dead t), mkPE None (snd r)) else UB
  | PClear =>
      ev <- p_destroy dtor t ;;
      Ok (mkP (p_root t) (match hitems (p_root t) with [] => false | _ => true end), mkPE None ev)
  end.
Fixpoint p_run (dtor : bool) (ctor : V -> V) (t : pdict) (os : list pop) : res (pdict * list peffect) :=
  match os with
  | [] => Ok (t, [])
  | o :: r =>
      p <- p_step dtor ctor t o ;;
      q <- p_run dtor ctor (fst p) r ;;
      Ok (fst q, snd p :: snd q)
  end.

(** ** Listings, copies, unions *)
(** comps_mrtree_values_walk, 95-119: what the callback gets; a NULL list is
    dereferenced (112). *)
Fixpoint plevel (l : list pnode) : res mlist :=
  match l with
  | [] => Ok []
  | n :: r => match pdata n with Some d => b <- plevel r ;; Ok (d ++ b) | None => UB end
  end.
Fixpoint pwalk_loop (fuel : nat) (q : list (hsl pnode)) : res mlist :=
  match q with
  | [] => Ok []
  | s :: q' =>
      match fuel with
      | O => NoFuel
      | S fuel' =>
          a <- plevel (hitems s) ;;
          b <- pwalk_loop fuel' (q' ++ map nsubs (filter (fun n => match hitems (nsubs n) with [] => false | _ => true end) (hitems s))) ;;
          Ok (a ++ b)
      end
  end.
Definition p_walk (t : pdict) : res mlist :=
  if p_dead t then UB else pwalk_loop (S (fsize (hitems (p_root t)))) [p_root t].

(** comps_mrtree_keys, 247-323, and the loop of comps_mrtree_unite, 174-245: the
    nodes with a non-empty list, with their full keys; a NULL list is dereferenced (219, 297). *)
Fixpoint pkeys_level (pre : str) (l : list pnode) : res (list (str * mlist)) :=
  match l with
  | [] => Ok []
  | n :: r =>
      match pdata n with
      | Some d => b <- pkeys_level pre r ;; Ok (match d with [] => b | _ => (pre ++ nkey n, d) :: b end)
      | None => UB
      end
  end.
Fixpoint pkeys_loop (fuel : nat) (q : list (hsl pnode * str)) : res (list (str * mlist)) :=
  match q with
  | [] => Ok []
  | (s, pre) :: q' =>
      match fuel with
      | O => NoFuel
      | S fuel' =>
          a <- pkeys_level pre (hitems s) ;;
          b <- pkeys_loop fuel' (q' ++ map (fun n => (nsubs n, pre ++ nkey n))
                 (filter (fun n => match hitems (nsubs n) with [] => false | _ => true end) (hitems s))) ;;
          Ok (a ++ b)
      end
  end.
Definition p_entries (t : pdict) : res (list (str * mlist)) :=
  if p_dead t then UB else pkeys_loop (S (fsize (hitems (p_root t)))) [(p_root t, [])].
Definition p_keys (t : pdict) : res (list str) := rmap (map fst) (p_entries t).

(** comps_mrtree_unite, 174-245: every value of every list is set into the first
    tree (222), through its constructor; the second tree is another object.  A
    list among the values would be given to the constructor: undefined. *)
Fixpoint pset_all (ctor : V -> V) (h : hsl pnode) (k : str) (l : mlist) : res (hsl pnode) :=
  match l with
  | [] => Ok h
  | MV v :: r => h' <- pset_sub (length k) h k (ctor v) ;; pset_all ctor h' k r
  | MNest _ :: _ => UB
  end.
Fixpoint punite (ctor : V -> V) (h : hsl pnode) (es : list (str * mlist)) : res (hsl pnode) :=
  match es with
  | [] => Ok h
  | (k, l) :: r => h' <- pset_all ctor h k l ;; punite ctor h' r
  end.
Definition p_unite (ctor : V -> V) (t1 t2 : pdict) : res pdict :=
  if p_dead t1 then UB
  else es <- p_entries t2 ;; h <- punite ctor (p_root t1) es ;; Ok (mkP h false).

(** comps_mrtree_clone, 121-172: comps_hslist_clone (comps_hslist.c:234-247) reads a
    NULL list and calls the cloner untested ([None]: NULL); a list given to the
    cloner is undefined. *)
Definition pclone_data (cl : option (V -> V)) (d : option mlist) : res (option mlist) :=
  match d with
  | None => UB
  | Some l =>
      match values_only l, cl with
      | Some [], _ => Ok (Some [])
      | Some vs, Some f => Ok (Some (map (fun v => MV (f v)) vs))
      | _, _ => UB
      end
  end.
Fixpoint pclone_node (cl : option (V -> V)) (n : pnode) : res pnode :=
  match n with
  | Node k d (mkH l _) =>
      d' <- pclone_data cl (match d with Some d => d | None => None end) ;;
      l' <- (fix go (l : list pnode) : res (list pnode) :=
               match l with
               | [] => Ok []
               | n :: r => a <- pclone_node cl n ;; b <- go r ;; Ok (a :: b)
               end) l ;;
      Ok (Node k (Some d') (mkH l' (match l' with [] => TNull | _ => TAt (length l' - 1) end)))
  end.
Fixpoint pclone_list (cl : option (V -> V)) (l : list pnode) : res (list pnode) :=
  match l with
  | [] => Ok []
  | n :: r => a <- pclone_node cl n ;; b <- pclone_list cl r ;; Ok (a :: b)
  end.
Definition p_clone (cl : option (V -> V)) (t : pdict) : res pdict :=
  if p_dead t then UB
  else l <- pclone_list cl (hitems (p_root t)) ;;
       Ok (mkP (mkH l (match l with [] => TNull | _ => TAt (length l - 1) end)) false).

End MDict.
Arguments pdict V : clear implicits.
Arguments pop V : clear implicits.
Arguments peffect V : clear implicits.
