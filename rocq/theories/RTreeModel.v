(** Model of comps_objradix.c (the radix tree behind every dictionary:
    comps_objdict.c only forwards to it).  The values stored are abstract ([V]);
    [None] is a NULL data pointer. Reference counting is modelled separately.
    All lines refer to comps_objradix.c unless said otherwise. *)
From Verif Require Import CStr HSListModel.

Section RTree.
Context {V : Type}.

(** COMPS_ObjRTreeData, comps_objradix.h: {key, is_leaf, data, subnodes}.
    [is_leaf] is never read and is left out. *)
Inductive node : Type :=
| Node (key : str) (data : option V) (subs : hsl node).

Definition nkey (n : node) := match n with Node k _ _ => k end.
Definition ndata (n : node) := match n with Node _ d _ => d end.
Definition nsubs (n : node) := match n with Node _ _ s => s end.

(** COMPS_ObjRTree {subnodes, len}; [len] is a size_t that is only ever
    incremented or zeroed, kept here as an unbounded nat. *)
Record rtree := mkT { troot : hsl node; tlen : nat }.

(** comps_objrtree_create, 69-78. *)
Definition rt_create : rtree := mkT hs_empty 0.

(** Search loops 361-368, 475-480, 537-542: the first subnode whose key starts
    with [c]; otherwise the last one seen whose first character is smaller
    (as [char]). *)
Inductive found := Found (i : nat) (n : node) | NotFound (lesser : option nat).
Fixpoint find_child (c : ascii) (l : list node) (i : nat) (lesser : option nat) : found :=
  match l with
  | [] => NotFound lesser
  | n :: r =>
      if Ascii.eqb (char0 (nkey n)) c then Found i n
      else find_child c r (S i)
             (if (schar (char0 (nkey n)) <? schar c)%Z then Some i else lesser)
  end.

(** Comparison loops 381-386, 486-492, 549-555 on the remainders from index [x]
    of the searched key and of the node key.  E3: both end; E2: the searched key
    ends first; E1: the node key ends first; E0: they differ at [x]. *)
Inductive ended := E3 | E2 | E1 (x : nat) | E0 (x : nat).
Fixpoint scan (x : nat) (k nk : str) : ended :=
  match nk, k with
  | [], [] => E3
  | _ :: _, [] => E2
  | [], _ :: _ => E1 x
  | a :: nk', b :: k' => if Ascii.eqb b a then scan (S x) k' nk' else E0 x
  end.

(** __comps_objrtree_set, 339-445, with [len == strlen(key)] (the entry points
    set and set_x; set_n with a shorter length is not modelled).  The result
    carries whether [rt->len] is incremented.  One unit of fuel per visited
    level; every level consumes at least one key character. *)
Fixpoint set_sub (fuel : nat) (subs : hsl node) (k : str) (d : option V)
  : res (hsl node * bool) :=
  match k with
  | [] => Ok (subs, false)                                   (* 357 *)
  | c :: k' =>
    match fuel with
    | O => NoFuel
    | S fuel' =>
      match find_child c (hitems subs) 0 None with
      | NotFound lesser =>                                    (* 369-377 *)
          let n := Node k d hs_empty in
          Ok (match lesser with
              | None => hs_prepend subs n
              | Some i => hs_insert_after subs i n
              end, true)
      | Found i n =>
          match scan 1 k' (tl (nkey n)) with
          | E3 =>                                             (* 387-390 *)
              Ok (hs_update subs i (Node (nkey n) d (nsubs n)), false)
          | E2 =>                                             (* 391-407 *)
              let old := Node (skipn (length k) (nkey n)) (ndata n) (nsubs n) in
              s' <- hs_append (hs_remove subs i) (Node k d (mkH [old] (TAt 0))) ;;
              Ok (s', true)
          | E1 x =>                                           (* 408-410 *)
              r <- set_sub fuel' (nsubs n) (skipn x k) d ;;
              Ok (hs_update subs i (Node (nkey n) (ndata n) (fst r)), snd r)
          | E0 x =>                                           (* 411-441 *)
              let old := Node (skipn x (nkey n)) (ndata n) (nsubs n) in
              let new := Node (skipn x k) d hs_empty in
              ch <- hs_append_all hs_empty
                      (match strcmp (skipn x k) (skipn x (nkey n)) with
                       | Gt => [old; new]
                       | _ => [new; old]
                       end) ;;
              Ok (hs_update subs i (Node (firstn x (nkey n)) None ch), true)
          end
      end
    end
  end.

Definition rt_set (t : rtree) (k : str) (d : option V) : res rtree :=
  r <- set_sub (length k) (troot t) k d ;;
  Ok (mkT (fst r) (if snd r then S (tlen t) else tlen t)).

(** __comps_objrtree_get, 462-508. *)
Fixpoint get_sub (fuel : nat) (subs : hsl node) (k : str) : res (option V) :=
  match k with
  | [] => Ok None                                             (* 473, 505-507 *)
  | c :: k' =>
    match fuel with
    | O => NoFuel
    | S fuel' =>
      match find_child c (hitems subs) 0 None with
      | NotFound _ => Ok None
      | Found _ n =>
          match scan 1 k' (tl (nkey n)) with
          | E3 => Ok (ndata n)
          | E1 x => get_sub fuel' (nsubs n) (skipn x k)
          | _ => Ok None
          end
      end
    end
  end.
Definition rt_get (t : rtree) (k : str) : res (option V) := get_sub (length k) (troot t) k.

(** comps_objrtree_unset, 516-611.  [parent] is the list of the node on top of
    [path] -- the list being searched -- or [None] at the root.  When the
    key's node has [subnodes->last == NULL] the node and its whole subtree are
    destroyed (558-563), otherwise only its data (565-569).  Below the root the
    loop at 579 then tests the parent's [subnodes->last]; if it is NULL the
    parent is destroyed (581) and its own freed list is passed to
    comps_hslist_remove (582-584, because 604-605 recorded the node's own
    [subnodes] as [parent_nodes]): undefined behaviour. *)
Fixpoint unset_sub (fuel : nat) (isroot : bool) (subs : hsl node) (k : str)
  : res (hsl node) :=
  match k with
  | [] => Ok subs
  | c :: k' =>
    match fuel with
    | O => NoFuel
    | S fuel' =>
      match find_child c (hitems subs) 0 None with
      | NotFound _ => Ok subs
      | Found i n =>
          match scan 1 k' (tl (nkey n)) with
          | E3 =>
              let s' := match htail (nsubs n) with
                        | TNull => hs_remove subs i
                        | _ => hs_update subs i (Node (nkey n) None (nsubs n))
                        end in
              if isroot then Ok s'
              else match htail s' with TNull => UB | _ => Ok s' end
          | E1 x =>
              s' <- unset_sub fuel' false (nsubs n) (skipn x k) ;;
              Ok (hs_update subs i (Node (nkey n) (ndata n) s'))
          | _ => Ok subs
          end
      end
    end
  end.
Definition rt_unset (t : rtree) (k : str) : res rtree :=
  s <- unset_sub (length k) true (troot t) k ;; Ok (mkT s (tlen t)).

(** comps_objrtree_clear, 613-617. *)
Definition rt_clear (t : rtree) : rtree := mkT hs_empty 0.

(** Rebuilding every child list with append, as comps_objrtree_clone 106-142
    does.  The C loop visits the tree breadth first through a work list; since
    each node is rebuilt exactly once and independently, the model recurses on
    the tree.  [cp] is comps_object_copy. *)
Fixpoint clone_node (cp : V -> V) (n : node) : node :=
  match n with
  | Node k d (mkH l _) =>
      let l' := map (clone_node cp) l in
      Node k (option_map cp d)
           (mkH l' (match length l' with O => TNull | S m => TAt m end))
  end.
Definition clone_sub (cp : V -> V) (h : hsl node) : hsl node :=
  let l' := map (clone_node cp) (hitems h) in
  mkH l' (match length l' with O => TNull | S m => TAt m end).

(** comps_objrtree_clone, 91-145 (keeps [len], line 104). *)
Definition rt_clone (cp : V -> V) (t : rtree) : rtree := mkT (clone_sub cp (troot t)) (tlen t).
(** comps_objrtree_copy, 146-202 ([len] is set to 0 at line 158 and never
    restored). *)
Definition rt_copy (cp : V -> V) (t : rtree) : rtree := mkT (clone_sub cp (troot t)) 0.
(** comps_objrtree_copy_shallow, 205-260: shares the values. *)
Definition rt_copy_shallow (t : rtree) : rtree := mkT (clone_sub (fun v => v) (troot t)) 0.

(** __comps_objrtree_all, 619-681: work list of (full key, data, subnodes);
    the children of the node taken are inserted at positions 0,1,2,... *)
Definition wl_item := (str * option V * hsl node)%type.
Definition wl_child (pre : str) (n : node) : wl_item := (pre ++ nkey n, ndata n, nsubs n).
Fixpoint wl_insert (l : list wl_item) (x : nat) (w : hsl wl_item) : hsl wl_item :=
  match l with
  | [] => w
  | p :: r => wl_insert r (S x) (hs_insert_at w (Z.of_nat x) p)
  end.
Fixpoint all_loop (fuel : nat) (w : hsl wl_item) : res (list (str * V)) :=
  match hitems w with
  | [] => Ok []
  | (k, d, subs) :: _ =>
      match fuel with
      | O => NoFuel
      | S fuel' =>
          let w' := wl_insert (map (wl_child k) (hitems subs)) 0 (hs_remove w 0) in
          r <- all_loop fuel' w' ;;
          Ok (match d with Some v => (k, v) :: r | None => r end)
      end
  end.
(** Number of nodes of a tree: the fuel for the traversals. *)
Fixpoint nsize (n : node) : nat :=
  match n with Node _ _ (mkH l _) => S (fold_right (fun m a => nsize m + a) 0 l) end.
Definition fsize (l : list node) : nat := fold_right (fun m a => nsize m + a) 0 l.

(** comps_objrtree_pairs/keys/values, 752-762. *)
Definition rt_pairs (t : rtree) : res (list (str * V)) :=
  w <- hs_append_all hs_empty (map (wl_child []) (hitems (troot t))) ;;
  all_loop (fsize (hitems (troot t))) w.
Definition rt_keys (t : rtree) : res (list str) := rmap (map fst) (rt_pairs t).
Definition rt_values (t : rtree) : res (list V) := rmap (map snd) (rt_pairs t).

(** comps_objrtree_values_walk, 262-284: breadth-first; the work list of
    subnode lists is only appended to and shifted, kept as a plain list. *)
Fixpoint walk_loop (fuel : nat) (q : list (hsl node)) : res (list V) :=
  match q with
  | [] => Ok []
  | subs :: q' =>
      match fuel with
      | O => NoFuel
      | S fuel' =>
          r <- walk_loop fuel'
                 (q' ++ map nsubs (filter (fun n => match hitems (nsubs n) with [] => false | _ => true end)
                                          (hitems subs))) ;;
          Ok (flat_map (fun n => match ndata n with Some v => [v] | None => [] end) (hitems subs) ++ r)
      end
  end.
Definition rt_values_walk (t : rtree) : res (list V) :=
  walk_loop (S (fsize (hitems (troot t)))) [troot t].

(** comps_objrtree_unite, 683-742: breadth-first over rt2, setting every node
    that has data into rt1.  The work list (append / remove first) is a plain
    list of (subnodes, key). *)
Fixpoint set_nodes (t : rtree) (pre : str) (l : list node) : res rtree :=
  match l with
  | [] => Ok t
  | n :: r =>
      t' <- match ndata n with
            | Some v => rt_set t (pre ++ nkey n) (Some v)
            | None => Ok t
            end ;;
      set_nodes t' pre r
  end.
Fixpoint unite_loop (fuel : nat) (t : rtree) (q : list (hsl node * str)) : res rtree :=
  match q with
  | [] => Ok t
  | (subs, pre) :: q' =>
      match fuel with
      | O => NoFuel
      | S fuel' =>
          t' <- set_nodes t pre (hitems subs) ;;
          unite_loop fuel' t'
            (q' ++ map (fun n => (nsubs n, pre ++ nkey n))
                       (filter (fun n => match hitems (nsubs n) with [] => false | _ => true end)
                               (hitems subs)))
      end
  end.
Definition rt_unite (t1 t2 : rtree) : res rtree :=
  unite_loop (S (fsize (hitems (troot t2)))) t1 [(troot t2, [])].

(** comps_objrtree_union, 744-749. *)
Definition rt_union (cp : V -> V) (t1 t2 : rtree) : res rtree := rt_unite (rt_clone cp t1) t2.

End RTree.
Arguments node V : clear implicits.
Arguments rtree V : clear implicits.

(** Comparison of dictionaries uses the set container. *)
From Verif Require Import SetModel.
(** comps_objrtree_paircmp, comps_objradix.c:286-294; [eqv] is comps_object_cmp
    on the two values. *)
Definition paircmp {V} (eqv : V -> V -> bool) (p q : str * V) : bool :=
  if streq (fst p) (fst q) then eqv (snd p) (snd q) else false.
(** comps_objrtree_cmp, comps_objradix.c:297-336. *)
Definition rt_cmp {V} (eqv : V -> V -> bool) (t1 t2 : rtree V) : res bool :=
  p1 <- rt_pairs t1 ;;
  p2 <- rt_pairs t2 ;;
  s1 <- set_add_all (paircmp eqv) hs_empty p1 ;;
  s2 <- set_add_all (paircmp eqv) hs_empty p2 ;;
  Ok (set_cmp (paircmp eqv) s1 s2 =? 0)%Z.
