(** Ownership of the values in the two string dictionaries: comps_radix.c
    (behind comps_dict.c: plain pointers with a destructor, used for the
    attributes of an XML element, comps_elem.c:914-935) and comps_objradix.c
    (behind comps_objdict.c: reference counted objects).  The trees are those of
    RTreeModel; here every operation also reports which values it destroys, and
    the operations and branches in which the two files differ are told apart. *)
From Verif Require Import CStr HSListModel RTreeModel.

(** Which file; for comps_radix.c also whether [data_destructor] is non-NULL
    (comps_rtree_create, comps_radix.c:73-90, accepts NULL). *)
Inductive kind := Plain (dtor : bool) | Objects.

Section Own.
Context {V : Type}.
Notation node := (node V).

(** comps_rtree_data_destroy, comps_radix.c:25-31: the destructor is called when
    both it and the data are non-NULL; comps_objrtree_data_destroy,
    comps_objradix.c:24-29: comps_object_destroy ignores NULL.  [None] in the
    lists below is a destructor call with a NULL argument. *)
Definition dispose (kd : kind) (d : option V) : list (option V) :=
  match kd, d with
  | Plain false, _ => []
  | _, None => []
  | _, Some v => [Some v]
  end.
(** The nodes of the subtree follow through comps_hslist_destroy,
    comps_hslist.c:185-204. *)
Fixpoint node_destroy (kd : kind) (n : node) : list (option V) :=
  match n with Node _ d (mkH l _) => dispose kd d ++ flat_map (node_destroy kd) l end.
Definition list_destroy (kd : kind) (h : hsl node) : list (option V) :=
  flat_map (node_destroy kd) (hitems h).

(** Replacing or unsetting data: comps_radix.c:240 and 394-396 call the
    destructor without testing it (394 tests the address of the field) nor the
    data; comps_objradix.c:388 and 566 call comps_object_destroy. *)
Definition release (kd : kind) (d : option V) : res (list (option V)) :=
  match kd with
  | Plain false => UB
  | Plain true => Ok [d]
  | Objects => Ok (dispose Objects d)
  end.

(** __comps_rtree_set, comps_radix.c:189-293, after the constructor call
    (203-207), and __comps_objrtree_set, comps_objradix.c:339-445.  [m] is what
    is left of the length argument (lengths beyond the end of the string are
    outside the model: [o_set] answers UB).  New nodes take the rest of the whole string in
    comps_radix.c:223 and in both files after a split (277, 280;
    comps_objradix.c:427, 431), but [m] characters in comps_objradix.c:370 and
    in both files at 246 / 395. *)
Fixpoint own_set (kd : kind) (fuel : nat) (subs : hsl node) (k : str) (m : nat) (d : option V)
  : res (hsl node * list (option V)) :=
  match m with
  | O => Ok (subs, [])
  | S m' =>
    match k with
    | [] => UB
    | c :: k' =>
      match fuel with
      | O => NoFuel
      | S fuel' =>
        match find_child c (hitems subs) 0 None with
        | NotFound lesser =>
            let n := Node (match kd with Plain _ => k | Objects => firstn m k end) d hs_empty in
            Ok (match lesser with
                | None => hs_prepend subs n
                | Some i => hs_insert_after subs i n
                end, [])
        | Found i n =>
            match scan 1 (firstn m' k') (tl (nkey n)) with
            | E3 =>
                ev <- release kd (ndata n) ;;
                Ok (hs_update subs i (Node (nkey n) d (nsubs n)), ev)
            | E2 =>
                let old := Node (skipn m (nkey n)) (ndata n) (nsubs n) in
                s' <- hs_append (hs_remove subs i) (Node (firstn m k) d (mkH [old] (TAt 0))) ;;
                Ok (s', [])
            | E1 x =>
                r <- own_set kd fuel' (nsubs n) (skipn x k) (m - x) d ;;
                Ok (hs_update subs i (Node (nkey n) (ndata n) (fst r)), snd r)
            | E0 x =>
                let old := Node (skipn x (nkey n)) (ndata n) (nsubs n) in
                let new := Node (skipn x k) d hs_empty in
                ch <- hs_append_all hs_empty
                        (match strcmp (skipn x k) (skipn x (nkey n)) with
                         | Gt => [old; new]
                         | _ => [new; old]
                         end) ;;
                Ok (hs_update subs i (Node (firstn x (nkey n)) None ch), [])
            end
        end
      end
    end
  end.

(** comps_rtree_unset, comps_radix.c:346-441, and comps_objrtree_unset,
    comps_objradix.c:516-611: see [unset_sub] for the parent test. *)
Fixpoint own_unset (kd : kind) (fuel : nat) (isroot : bool) (subs : hsl node) (k : str)
  : res (hsl node * list (option V)) :=
  match k with
  | [] => Ok (subs, [])
  | c :: k' =>
    match fuel with
    | O => NoFuel
    | S fuel' =>
      match find_child c (hitems subs) 0 None with
      | NotFound _ => Ok (subs, [])
      | Found i n =>
          match scan 1 k' (tl (nkey n)) with
          | E3 =>
              r <- match htail (nsubs n) with
                   | TNull => Ok (hs_remove subs i, node_destroy kd n)
                   | _ => ev <- release kd (ndata n) ;;
                          Ok (hs_update subs i (Node (nkey n) None (nsubs n)), ev)
                   end ;;
              if isroot then Ok r
              else match htail (fst r) with TNull => UB | _ => Ok r end
          | E1 x =>
              r <- own_unset kd fuel' false (nsubs n) (skipn x k) ;;
              Ok (hs_update subs i (Node (nkey n) (ndata n) (fst r)), snd r)
          | _ => Ok (subs, [])
          end
      end
    end
  end.

(** A dictionary; [o_dead]: [subnodes->first] and [last] point to freed items. *)
Record odict := mkO { o_root : hsl node; o_dead : bool }.
(** comps_rtree_create, comps_radix.c:73-90; comps_objrtree_create,
    comps_objradix.c:69-78. *)
Definition o_create : odict := mkO hs_empty false.

(** The dictionary calls.  [OSet own k d]: for objects, [own = false] is
    comps_objrtree_set (450-452, adds a reference) and [own = true] is
    comps_objrtree_set_x (the caller's reference is handed over); plain pointers
    ignore the flag.  [OSetN]: comps_rtree_set_n; for objects the names are the
    other way round: comps_objrtree_set_n (453-456) takes the caller's reference
    ([own = true]) and comps_objrtree_set_nx (457-460) adds one.  [OGet own k]: comps_objrtree_get_x ([true]) and
    comps_objrtree_get ([false], adds a reference); comps_rtree_get. *)
Inductive oop :=
| OSet (own : bool) (k : str) (d : option V)
| OSetN (own : bool) (k : str) (m : nat) (d : option V)
| OGet (own : bool) (k : str)
| OUnset (k : str)
| OClear.

(** What a call does to the values: references added, destructor calls, result. *)
Record effect := mkE { e_added : list V; e_destroyed : list (option V); e_result : option V }.

Definition olist (d : option V) : list V := match d with Some v => [v] | None => [] end.
Definition added (kd : kind) (own : bool) (d : option V) : list V :=
  match kd with Objects => if own then [] else olist d | Plain _ => [] end.
(** A freed item is read as soon as a search starts. *)
Definition live (s : odict) (k : str) : bool :=
  match k with [] => true | _ => negb (o_dead s) end.

(** [ctor] is [data_constructor] (the identity when NULL, comps_radix.c:203-207;
    objects have none). *)
Definition o_set (kd : kind) (ctor : option V -> option V) (s : odict) (own : bool) (k : str) (m : nat) (d : option V)
  : res (odict * effect) :=
  let d' := match kd with Objects => d | Plain _ => ctor d end in
  if (m <=? length k) && live s (firstn m k) then
    r <- own_set kd m (o_root s) k m d' ;;
    Ok (mkO (fst r) (o_dead s), mkE (added kd own d') (snd r) None)
  else UB.

(** comps_rtree_clear, comps_radix.c:443-460: destroys the nodes but leaves
    [first] and [last] alone; comps_objrtree_clear, comps_objradix.c:613-617,
    through comps_hslist_clear resets them. *)
Definition o_clear (kd : kind) (s : odict) : res (odict * effect) :=
  if o_dead s then UB
  else let e := mkE [] (list_destroy kd (o_root s)) None in
       Ok (match kd, hitems (o_root s) with
           | Plain _, _ :: _ => mkO (o_root s) true
           | _, _ => o_create
           end, e).

Definition o_step (kd : kind) (ctor : option V -> option V) (s : odict) (o : oop) : res (odict * effect) :=
  match o with
  | OSet own k d => o_set kd ctor s own k (length k) d
  | OSetN own k m d => o_set kd ctor s own k m d
  | OGet own k =>                           (* comps_radix.c:304-344, comps_objradix.c:462-514 *)
      if live s k then
        v <- get_sub (length k) (o_root s) k ;;
        Ok (s, mkE (added kd own v) [] v)
      else UB
  | OUnset k =>
      if live s k then
        r <- own_unset kd (length k) true (o_root s) k ;;
        Ok (mkO (fst r) (o_dead s), mkE [] (snd r) None)
      else UB
  | OClear => o_clear kd s
  end.

Fixpoint o_run (kd : kind) (ctor : option V -> option V) (s : odict) (os : list oop)
  : res (odict * list effect) :=
  match os with
  | [] => Ok (s, [])
  | o :: r =>
      p <- o_step kd ctor s o ;;
      q <- o_run kd ctor (fst p) r ;;
      Ok (fst q, snd p :: snd q)
  end.

(** comps_rtree_destroy, comps_radix.c:91-95; comps_objrtree_destroy,
    comps_objradix.c:84-86. *)
Definition o_destroy (kd : kind) (s : odict) : res (list (option V)) :=
  if o_dead s then UB else Ok (list_destroy kd (o_root s)).

(** ** Copies and unions of plain dictionaries *)
(** comps_rtree_clone, comps_radix.c:105-161: [data_cloner] is called for every
    non-NULL data without being tested ([None]: NULL). *)
Fixpoint has_data (n : node) : bool :=
  match n with Node _ d (mkH l _) => match d with Some _ => true | None => existsb has_data l end end.
Definition p_clone (cl : option (V -> V)) (s : odict) : res odict :=
  if o_dead s then UB
  else match cl with
       | Some f => Ok (mkO (clone_sub f (o_root s)) false)
       | None => if existsb has_data (hitems (o_root s)) then UB
                 else Ok (mkO (clone_sub (fun v => v) (o_root s)) false)
       end.

(** comps_rtree_unite, comps_radix.c:526-585: breadth first over the second
    dictionary, setting a clone (made with the second's cloner) of every
    non-NULL data. *)
Fixpoint p_set_nodes (kd : kind) (ctor : option V -> option V) (cl : option (V -> V)) (h : hsl node) (pre : str) (l : list node)
  : res (hsl node * list (option V)) :=
  match l with
  | [] => Ok (h, [])
  | n :: r =>
      p <- match ndata n with
           | Some v =>
               match cl with
               | Some f => own_set kd (length (pre ++ nkey n)) h (pre ++ nkey n) (length (pre ++ nkey n)) (ctor (Some (f v)))
               | None => UB
               end
           | None => Ok (h, [])
           end ;;
      q <- p_set_nodes kd ctor cl (fst p) pre r ;;
      Ok (fst q, snd p ++ snd q)
  end.
Fixpoint p_unite_loop (kd : kind) (ctor : option V -> option V) (cl : option (V -> V)) (fuel : nat) (h : hsl node) (q : list (hsl node * str))
  : res (hsl node * list (option V)) :=
  match q with
  | [] => Ok (h, [])
  | (subs, pre) :: q' =>
      match fuel with
      | O => NoFuel
      | S fuel' =>
          p <- p_set_nodes kd ctor cl h pre (hitems subs) ;;
          r <- p_unite_loop kd ctor cl fuel' (fst p)
                 (q' ++ map (fun n => (nsubs n, pre ++ nkey n))
                            (filter (fun n => match hitems (nsubs n) with [] => false | _ => true end)
                                    (hitems subs))) ;;
          Ok (fst r, snd p ++ snd r)
      end
  end.
Definition p_unite (dtor : bool) (ctor : option V -> option V) (cl : option (V -> V)) (s1 s2 : odict)
  : res (odict * list (option V)) :=
  if o_dead s1 || o_dead s2 then UB
  else r <- p_unite_loop (Plain dtor) ctor cl (S (fsize (hitems (o_root s2)))) (o_root s1) [(o_root s2, [])] ;;
       Ok (mkO (fst r) false, snd r).

(** comps_rtree_union, comps_radix.c:587-592: a clone of the SECOND dictionary,
    united with the first ([cl1], [cl2]: their cloners; constructor and
    destructor of the clone are those of the second). *)
Definition p_union (dtor : bool) (ctor : option V -> option V) (cl1 cl2 : option (V -> V)) (s1 s2 : odict)
  : res (odict * list (option V)) :=
  c <- p_clone cl2 s2 ;;
  p_unite dtor ctor cl1 c s1.

End Own.
Arguments odict V : clear implicits.
Arguments oop V : clear implicits.
Arguments effect V : clear implicits.
