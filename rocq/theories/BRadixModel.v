(** Model of comps_bradix.c: a radix tree whose keys are handled through
    callbacks.  The callbacks are those of the only client in the repository,
    tests/check_brtree.c:66-172: a key is a sequence of bytes with a length.
    Lines without a file name refer to comps_bradix.c.  Nodes, lists and the
    released values are those of RTreeModel, HSListModel and OwnModel. *)
From Verif Require Import CStr HSListModel RTreeModel OwnModel.

(** key_cmp, tests/check_brtree.c:103-128, on the two keys from their offsets on;
    [x] is the loop counter.  The result is the returned number (the counter plus
    one) and [ended]. *)
Fixpoint kcmp (len x : nat) (r1 r2 : str) : nat * nat :=
  match len with
  | O => (S x, 0)
  | S len' =>
      match r1, r2 with
      | [], [] => (S x, 3)
      | [], _ :: _ => (S x, 1)
      | _ :: _, [] => (S x, 2)
      | a :: r1', b :: r2' => if Ascii.eqb a b then kcmp len' (S x) r1' r2' else (S x, 0)
      end
  end.

(** subkey, tests/check_brtree.c:130-146: bytes [off] to [len]; [len - off] is
    unsigned, so [off > len] copies from far outside the key. *)
Definition subkey (k : str) (off len : nat) : res str :=
  if (off <=? len) && (len <=? length k) then Ok (firstn (len - off) (skipn off k)) else UB.

Section BRadix.
Context {V : Type}.
Notation node := (node V).

(** Search loops 258-264, 333-339: the first subnode for which comparing one
    byte returns 2. *)
Fixpoint b_find (r : str) (l : list node) (i : nat) : option (nat * node) :=
  match l with
  | [] => None
  | n :: l' => if fst (kcmp 1 0 (nkey n) r) =? 2 then Some (i, n) else b_find r l' (S i)
  end.

(** comps_brtree_set, 232-318, after the constructor call; [off] is [offset].
    One unit of fuel per visited level. *)
Fixpoint b_set (dtor : bool) (fuel : nat) (subs : hsl node) (key : str) (off : nat) (d : option V)
  : res (hsl node * list (option V)) :=
  if off <? length key then
    match fuel with
    | O => NoFuel
    | S fuel' =>
      match b_find (skipn off key) (hitems subs) 0 with
      | None =>                                               (* 265-270 *)
          k <- subkey key off (length key) ;;
          s' <- hs_append subs (Node k d hs_empty) ;;
          Ok (s', [])
      | Some (i, n) =>
          let c := kcmp (length key) 0 (skipn 1 (nkey n)) (skipn (off + 1) key) in
          let x := fst c in
          match snd c with
          | 3 =>                                              (* 274-277 *)
              ev <- release (Plain dtor) (ndata n) ;;
              Ok (hs_update subs i (Node (nkey n) d (nsubs n)), ev)
          | 2 =>                                              (* 278-292 *)
              let len := length key - off in
              k <- subkey (nkey n) (length key + off) (length (nkey n) - len) ;;
              s' <- hs_append (hs_remove subs i) (Node key d (mkH [Node k (ndata n) (nsubs n)] (TAt 0))) ;;
              Ok (s', [])
          | 1 =>                                              (* 293-295 *)
              r <- b_set dtor fuel' (nsubs n) key (off + x) d ;;
              Ok (hs_update subs i (Node (nkey n) (ndata n) (fst r)), snd r)
          | _ =>                                              (* 296-315 *)
              knew <- subkey key (off + x) (length key) ;;
              kold <- subkey (nkey n) x (length (nkey n)) ;;
              s' <- hs_append (hs_remove subs i)
                      (Node (firstn x (nkey n)) None
                            (mkH [Node knew d hs_empty; Node kold (ndata n) (nsubs n)] (TAt 1))) ;;
              Ok (s', [])
          end
      end
    end
  else Ok (subs, []).

(** comps_brtree_get, 321-353 (comps_brtree_getp, 355-387, is the same search). *)
Fixpoint b_get (fuel : nat) (subs : hsl node) (key : str) (off : nat) : res (option V) :=
  if off <? length key then
    match fuel with
    | O => NoFuel
    | S fuel' =>
      match b_find (skipn off key) (hitems subs) 0 with
      | None => Ok None
      | Some (i, n) =>
          let c := kcmp (length key) 0 (skipn 1 (nkey n)) (skipn (off + 1) key) in
          match snd c with
          | 3 => Ok (ndata n)
          | 1 => b_get fuel' (nsubs n) key (off + fst c)
          | _ => Ok None
          end
      end
    end
  else Ok None.

(** comps_brtree_unset, 389-481, for keys that are C strings (408 takes
    [strlen(key)]).  The search 413-419 accepts any non-zero answer, and key_cmp
    never returns zero: the first subnode is taken.  An empty node key is read
    outside its bounds.  Below the root the loop 449-461 destroys a parent
    without subnodes and then passes its freed list to comps_hslist_remove
    (474-476 recorded the node's own subnodes), as comps_objrtree_unset does. *)
Fixpoint b_unset (dtor : bool) (fuel : nat) (isroot : bool) (subs : hsl node) (key : str) (off : nat)
  : res (hsl node * list (option V)) :=
  if off <? length key then
    match fuel with
    | O => NoFuel
    | S fuel' =>
      match hitems subs with
      | [] => Ok (subs, [])
      | n :: _ =>
          match nkey n with
          | [] => UB
          | _ =>
            let c := kcmp (length key) 0 (skipn 1 (nkey n)) (skipn (off + 1) key) in
            match snd c with
            | 3 =>
                let r := match htail (nsubs n) with
                         | TNull => (hs_remove subs 0, node_destroy (Plain dtor) n)
                         | _ => if dtor then (hs_update subs 0 (Node (nkey n) None (nsubs n)), [ndata n])
                                else (subs, [])
                         end in
                if isroot then Ok r
                else match htail (fst r) with TNull => UB | _ => Ok r end
            | 1 =>
                r <- b_unset dtor fuel' false (nsubs n) key (off + fst c) ;;
                Ok (hs_update subs 0 (Node (nkey n) (ndata n) (fst r)), snd r)
            | _ => Ok (subs, [])
            end
          end
      end
    end
  else Ok (subs, []).

(** A tree with its calls; [o_dead] as in OwnModel: comps_brtree_clear, 483-500,
    leaves pointers to the freed items. *)
Inductive bop :=
| BSet (k : str) (d : option V)
| BGet (k : str)
| BUnset (k : str)
| BClear.

Definition b_step (dtor : bool) (ctor : option V -> option V) (s : odict V) (o : bop) : res (odict V * effect V) :=
  match o with
  | BSet k d =>
      if live s k then
        r <- b_set dtor (length k) (o_root s) k 0 (ctor d) ;;
        Ok (mkO (fst r) (o_dead s), mkE [] (snd r) None)
      else UB
  | BGet k =>
      if live s k then v <- b_get (length k) (o_root s) k 0 ;; Ok (s, mkE [] [] v) else UB
  | BUnset k =>
      if live s k then
        r <- b_unset dtor (length k) true (o_root s) k 0 ;;
        Ok (mkO (fst r) (o_dead s), mkE [] (snd r) None)
      else UB
  | BClear => o_clear (Plain dtor) s
  end.
Fixpoint b_run (dtor : bool) (ctor : option V -> option V) (s : odict V) (os : list bop)
  : res (odict V * list (effect V)) :=
  match os with
  | [] => Ok (s, [])
  | o :: r =>
      p <- b_step dtor ctor s o ;;
      q <- b_run dtor ctor (fst p) r ;;
      Ok (fst q, snd p :: snd q)
  end.

(** comps_brtree_clone, 144-206: the cloner is called for the data of the nodes
    next to the root even when it is NULL (170), below only when it is not
    (190-193).  [cl None = UB] for a cloner that reads its argument, as
    int_cloner, tests/check_brtree.c:189-193. *)
Fixpoint b_clone_node (cl : option V -> res (option V)) (top : bool) (n : node) : res node :=
  match n with
  | Node k d (mkH l _) =>
      d' <- (match d with None => if top then cl None else Ok None | Some v => cl (Some v) end) ;;
      l' <- (fix go (l : list node) : res (list node) :=
               match l with
               | [] => Ok []
               | m :: r => m' <- b_clone_node cl false m ;; r' <- go r ;; Ok (m' :: r')
               end) l ;;
      Ok (Node k d' (mkH l' (match length l' with O => TNull | S j => TAt j end)))
  end.
Fixpoint b_clone_list (cl : option V -> res (option V)) (top : bool) (l : list node) : res (list node) :=
  match l with
  | [] => Ok []
  | m :: r => m' <- b_clone_node cl top m ;; r' <- b_clone_list cl top r ;; Ok (m' :: r')
  end.
Definition b_clone (cl : option V -> res (option V)) (s : odict V) : res (odict V) :=
  if o_dead s then UB
  else l <- b_clone_list cl true (hitems (o_root s)) ;;
       Ok (mkO (mkH l (match length l with O => TNull | S j => TAt j end)) false).

(** comps_brtree_values, 115-142 (comps_brtree_values_walk, 208-230, visits the
    same way): breadth first. *)
Definition b_values (s : odict V) : res (list V) :=
  if o_dead s then UB else walk_loop (S (fsize (hitems (o_root s)))) [o_root s].
(** __comps_brtree_all, 503-586: breadth first with the keys of the parents;
    [None] is the key of the root (518), for which the node's key is cloned
    instead of appended (543-550). *)
Fixpoint b_all (fuel : nat) (q : list (hsl node * option str)) : res (list (str * V)) :=
  match q with
  | [] => Ok []
  | (subs, pre) :: q' =>
      match fuel with
      | O => NoFuel
      | S fuel' =>
          let name n := match pre with Some p => p ++ nkey n | None => nkey n end in
          r <- b_all fuel' (q' ++ map (fun n => (nsubs n, Some (name n)))
                                      (filter (fun n => match hitems (nsubs n) with [] => false | _ => true end)
                                              (hitems subs))) ;;
          Ok (flat_map (fun n => match ndata n with Some v => [(name n, v)] | None => [] end) (hitems subs) ++ r)
      end
  end.
(** comps_brtree_pairs and comps_brtree_keys, 588-594. *)
Definition b_pairs (s : odict V) : res (list (str * V)) :=
  if o_dead s then UB else b_all (S (fsize (hitems (o_root s)))) [(o_root s, None)].
Definition b_keys (s : odict V) : res (list str) := rmap (map fst) (b_pairs s).
End BRadix.
Arguments bop V : clear implicits.
