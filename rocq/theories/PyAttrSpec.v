(** What programs over attributes show, without counters, addresses and freeing.

    Values (lists and dictionaries), objects and Python objects are numbered and
    live for ever.  A variable is a value or a Python object; a Python object is an
    object and what it remembers of it.  With [remember = false] nothing that is
    remembered is used: reading an attribute then yields what was last assigned to
    the attribute of that object, which is what a Python programmer expects. *)
From Verif Require Import CStr CountMem PyAttrModel.

Definition table (k : kind) : list (attr * vtype) :=
  match k with
  | KGroup => [(ANameByLang, TStrDict); (ADescByLang, TStrDict); (APackages, TPackages)]
  | KCategory => [(ANameByLang, TStrDict); (ADescByLang, TStrDict); (AGroupIds, TIds)]
  | KEnv => [(ANameByLang, TStrDict); (ADescByLang, TStrDict); (AGroupIds, TIds); (AOptionIds, TIds)]
  | KComps => [(AGroups, TGroups); (ACategories, TCategories); (AEnvironments, TEnvs);
               (ALangpacks, TStrDict); (ABlacklist, TMDict); (AWhiteout, TMDict)]
  end.
Fixpoint find_attr (a : attr) (l : list (attr * vtype)) : option vtype :=
  match l with [] => None | (b, t) :: r => if attr_eqb a b then Some t else find_attr a r end.
Definition by_lang (a : attr) : bool := match a with ANameByLang | ADescByLang => true | _ => false end.
Definition is_comps (k : kind) : bool := match k with KComps => true | _ => false end.

Inductive ivar := IVal (t : vtype) (v : nat) | IObj (w : nat).
Definition names := attr -> option nat.
Definition no_names : names := fun _ => None.
Definition name (f : names) (a : attr) (v : nat) : names := fun b => if attr_eqb a b then Some v else f b.

Section Spec.
Context {V : Type}.
Variable blank : vtype -> V.
Variable remember : bool.
Record world := mkW {
  w_vals : list V;
  w_objs : list (kind * names);
  w_wraps : list (kind * nat * names);        (* the object, what is remembered of it *)
  w_vars : list (option ivar);
  w_lost : nat }.                             (* references lost by assigning lists *)
Definition empty_world : world := mkW [] [] [] [] 0.

(** New values for the attributes of a new object. *)
Fixpoint make_parts (vals : list V) (k : kind) (c : attr -> option V) (l : list (attr * vtype)) : list V * names :=
  match l with
  | [] => (vals, no_names)
  | (a, t) :: r =>
      let (vals1, f) := make_parts vals k c r in
      match c a with
      | Some v => (vals1 ++ [v], name f a (length vals1))
      | None => if is_comps k then (vals1, f) else (vals1 ++ [blank t], name f a (length vals1))
      end
  end.
Definition new_var (w : world) (x : ivar) : world * out V :=
  (mkW (w_vals w) (w_objs w) (w_wraps w) (w_vars w ++ [Some x]) (w_lost w), OVar (length (w_vars w))).
Definition wvar (w : world) (x : nat) : option ivar := match nth_error (w_vars w) x with Some (Some a) => Some a | _ => None end.
Definition make_obj (w : world) (k : kind) (c : attr -> option V) : world :=
  let (vals, f) := make_parts (w_vals w) k c (table k) in
  mkW vals (w_objs w ++ [(k, f)]) (w_wraps w) (w_vars w) (w_lost w).
Definition set_wrap (w : world) (n : nat) (x : kind * nat * names) : world :=
  mkW (w_vals w) (w_objs w) (list_upd (w_wraps w) n x) (w_vars w) (w_lost w).
Definition set_obj (w : world) (n : nat) (x : kind * names) : world :=
  mkW (w_vals w) (list_upd (w_objs w) n x) (w_wraps w) (w_vars w) (w_lost w).
Definition add_wrap (w : world) (k : kind) (o : nat) : world :=
  mkW (w_vals w) (w_objs w) (w_wraps w ++ [(k, o, no_names)]) (w_vars w) (w_lost w).
Definition ierr (w : world) (e : exc) : option (world * out V) := Some (w, OErr e).

(** Reading the attribute [a] of type [t] of Python object [n]. *)
Definition look (w : world) (n : nat) (a : attr) (t : vtype) : world * nat :=
  match nth_error (w_wraps w) n with
  | None => (w, 0)
  | Some (k, o, R) =>
      match (if remember then R a else None) with
      | Some v => (w, v)
      | None =>
          match nth_error (w_objs w) o with
          | None => (w, 0)
          | Some (k', f) =>
              let (w1, v) := match f a with
                             | Some v => (w, v)
                             | None => let v := length (w_vals w) in
                                       (set_obj (mkW (w_vals w ++ [blank t]) (w_objs w) (w_wraps w) (w_vars w) (w_lost w)) o (k', name f a v), v)
                             end in
              (if is_comps k then match R a with Some _ => w1 | None => set_wrap w1 n (k, o, name R a v) end else w1, v)
          end
      end
  end.
(** Assigning [v]. *)
Definition store (w : world) (n : nat) (a : attr) (v : nat) : world :=
  match nth_error (w_wraps w) n with
  | None => w
  | Some (k, o, R) =>
      match nth_error (w_objs w) o with
      | None => w
      | Some (k', f) =>
          let w1 := set_obj w o (k', name f a v) in
          if is_comps k || by_lang a then set_wrap w1 n (k, o, name R a v)
          else mkW (w_vals w1) (w_objs w1) (w_wraps w1) (w_vars w1) (S (w_lost w1))
      end
  end.

(** [None]: the interpreter crashes. *)
Definition istep (w : world) (p : pop V) : option (world * out V) :=
  match p with
  | PNew k c => let w1 := add_wrap (make_obj w k c) k (length (w_objs w)) in Some (new_var w1 (IObj (length (w_wraps w))))
  | PMake t v => Some (new_var (mkW (w_vals w ++ [v]) (w_objs w) (w_wraps w) (w_vars w) (w_lost w)) (IVal t (length (w_vals w))))
  | PAgain x =>
      match wvar w x with
      | None => ierr w ENameError
      | Some (IVal _ _) => ierr w ETypeError
      | Some (IObj n) =>
          match nth_error (w_wraps w) n with
          | Some (k, o, _) => if is_comps k then ierr w ETypeError
                              else Some (new_var (add_wrap w k o) (IObj (length (w_wraps w))))
          | None => ierr w ETypeError
          end
      end
  | PDup x => match wvar w x with None => ierr w ENameError | Some a => Some (new_var w a) end
  | PDrop x =>
      match wvar w x with
      | None => ierr w ENameError
      | Some _ => Some (mkW (w_vals w) (w_objs w) (w_wraps w) (list_upd (w_vars w) x None) (w_lost w), ONone)
      end
  | PGet x a =>
      match wvar w x with
      | None => ierr w ENameError
      | Some (IVal _ _) => ierr w EAttributeError
      | Some (IObj n) =>
          match nth_error (w_wraps w) n with
          | Some (k, _, _) =>
              match find_attr a (table k) with
              | None => ierr w EAttributeError
              | Some t => let (w1, v) := look w n a t in Some (new_var w1 (IVal t v))
              end
          | None => ierr w EAttributeError
          end
      end
  | PSet x a y =>
      match wvar w x with
      | None => ierr w ENameError
      | Some (IVal _ _) => ierr w EAttributeError
      | Some (IObj n) =>
          match nth_error (w_wraps w) n with
          | Some (k, _, _) =>
              match find_attr a (table k) with
              | None => ierr w EAttributeError
              | Some t =>
                  match y with
                  | ArgDel => if is_comps k then None else ierr w ETypeError
                  | ArgOther => ierr w ETypeError
                  | ArgVar z =>
                      match wvar w z with
                      | None => ierr w ENameError
                      | Some (IObj _) => ierr w ETypeError
                      | Some (IVal t' v) => if vtype_eqb t' t then Some (store w n a v, ONone) else ierr w ETypeError
                      end
                  end
              end
          | None => ierr w EAttributeError
          end
      end
  | PEdit x c =>
      match wvar w x with
      | None => ierr w ENameError
      | Some (IObj _) => ierr w ETypeError
      | Some (IVal _ v) => Some (mkW (list_upd (w_vals w) v c) (w_objs w) (w_wraps w) (w_vars w) (w_lost w), ONone)
      end
  | PRead x =>
      match wvar w x with
      | None => ierr w ENameError
      | Some (IObj _) => ierr w ETypeError
      | Some (IVal _ v) => match nth_error (w_vals w) v with Some c => Some (w, OContent c) | None => ierr w ENameError end
      end
  | PClear x =>
      match wvar w x with
      | None => ierr w ENameError
      | Some (IVal _ _) => ierr w EAttributeError
      | Some (IObj n) =>
          match nth_error (w_wraps w) n with
          | Some (k, _, R) => if is_comps k
                              then Some (set_wrap (make_obj w k (fun _ => None)) n (k, length (w_objs w), R), ONone)
                              else ierr w EAttributeError
          | None => ierr w EAttributeError
          end
      end
  | PLoad x c =>
      match wvar w x with
      | None => ierr w ENameError
      | Some (IVal _ _) => ierr w EAttributeError
      | Some (IObj n) =>
          match nth_error (w_wraps w) n with
          | Some (k, _, _) => if is_comps k
                              then Some (set_wrap (make_obj w k c) n (k, length (w_objs w), no_names), ONone)
                              else ierr w EAttributeError
          | None => ierr w EAttributeError
          end
      end
  end.
Fixpoint irun (w : world) (l : list (pop V)) : option (world * list (out V)) :=
  match l with
  | [] => Some (w, [])
  | p :: r => match istep w p with
              | None => None
              | Some (w1, o) => match irun w1 r with Some (w2, os) => Some (w2, o :: os) | None => None end
              end
  end.
(** References that are never given back: one for each list assigned, one for each
    of these three parts that a Comps object remembers. *)
Definition kept (x : kind * nat * names) : nat :=
  match x with
  | (KComps, _, R) => (if R ALangpacks then 1 else 0) + (if R ABlacklist then 1 else 0) + (if R AWhiteout then 1 else 0)
  | _ => 0
  end.
Definition lost (w : world) : nat := w_lost w + list_sum (map kept (w_wraps w)).

(** Programs in which nothing remembered gets out of date: no [clear]; and either no
    object is reached through two Python objects ([again = false]), or no dictionary
    [name_by_lang] or [desc_by_lang] is assigned ([again = true]). *)
Definition allowed (again : bool) (p : pop V) : bool :=
  match p with
  | PClear _ => false
  | PAgain _ => again
  | PSet _ a _ => if again then negb (by_lang a) else true
  | _ => true
  end.
(** [del] of an attribute. *)
Definition deletes (p : pop V) : bool := match p with PSet _ _ ArgDel => true | _ => false end.
(** Programs that lose no reference: no list is assigned to a Group, Category or
    Environment; [langpacks], [blacklist] and [whiteout] of Comps are not used. *)
Definition unfreed (a : attr) : bool := match a with ALangpacks | ABlacklist | AWhiteout => true | _ => false end.
Definition is_list (a : attr) : bool := match a with APackages | AGroupIds | AOptionIds => true | _ => false end.
Definition clean (p : pop V) : bool :=
  match p with PGet _ a => negb (unfreed a) | PSet _ a _ => negb (unfreed a || is_list a) | _ => true end.
(** Counters of the live Python lists and dictionaries. *)
Definition py_counters (m : mem (pbody V)) : nat :=
  list_sum (map (fun c => match c with Some x => match body x with PyVal _ _ => cnt x | _ => 0 end | None => 0 end) m).
End Spec.
Arguments world V : clear implicits.
