(** Model of the memory of the document objects: creation, copying and destruction of
    COMPS_Doc, COMPS_DocGroup, COMPS_DocCategory, COMPS_DocEnv, COMPS_DocGroupPackage
    and COMPS_DocGroupId, the references their functions take and give up, and the
    temporary references of unions, intersections, filters, queries and comparisons.

    Memory is a list of cells; an address is a position.  Addresses are never given
    out again, so every use of freed memory is seen.  An object has a counter, a kind
    and labelled slots: the members of a struct, the items of a list, the entries of a
    dictionary.  A slot that was never written, or whose object was released, holds no
    usable pointer ([Hole]); reading it is undefined behaviour.

    Simplifications.  The nodes of lists, of the radix trees behind dictionaries and
    of COMPS_Set are not cells: a dictionary is its entries (RTreeModel, ObjDict and
    MRTreeModel have the trees), a set is the list of its members.  A list or
    dictionary being copied has its entries from the start, unwritten.  Integer
    members, the entries of a log and the member [lang] are left out.  Kinds say what
    a list or dictionary is used for, which C does not know.  Comparing two objects
    that are not both strings or numbers reads them, and answers anything
    ([oracle]); so does matching a pattern. *)
From Verif Require Import CStr.

Notation addr := nat (only parsing).
(** A pointer to an object: [None] is NULL. *)
Notation ref := (option nat) (only parsing).
(** What a list is a list of; what a dictionary is: [properties], [..._by_lang] and
    langpacks, [objects]. *)
Inductive ety := LPkg | LGid | LGroup | LCat | LEnv | LStr.
Inductive dty := DProp | DLang | DObjs.
Inductive tag := KVal (v : str + Z) | KList (e : ety) | KDict (d : dty) | KMDict | KPkg | KGid | KGroup | KCat | KEnv | KDoc | KLog.
Inductive slot := Hole | Ptr (r : ref).
(** COMPS_Object with COMPS_RefC, comps_obj.h:124-127, comps_mm.h:36-41. *)
Record cell := mkC { refc : nat; kind : tag; slots : list (str * slot) }.
(** [None]: freed. *)
Definition mem := list (option cell).
Definition peek (h : mem) (a : addr) : res cell := match nth_error h a with Some (Some c) => Ok c | _ => UB end.
Definition poke (h : mem) (a : addr) (c : option cell) : mem := list_upd h a c.

(** * Programs on memory *)
Definition M (A : Type) := mem -> res (mem * A).
Definition ret {A} (a : A) : M A := fun h => Ok (h, a).
Definition mbind {A B} (m : M A) (f : A -> M B) : M B := fun h => hv <- m h ;; f (snd hv) (fst hv).
Notation "'do' x <- m ; f" := (mbind m (fun x => f)) (at level 200, x name, m at level 100, f at level 200, right associativity).
Notation "m ;;; f" := (mbind m (fun _ => f)) (at level 199, right associativity).
Fixpoint foldM {S A} (f : S -> A -> M S) (s : S) (l : list A) : M S :=
  match l with [] => ret s | x :: l' => do s' <- f s x; foldM f s' l' end.
Definition forM {A} (f : A -> M unit) (l : list A) : M unit := foldM (fun _ x => f x) tt l.
Definition ub {A} : M A := fun _ => UB.

Definition look (a : addr) : M cell := fun h => c <- peek h a ;; Ok (h, c).
Definition rewrite_slots (a : addr) (s : list (str * slot)) : M unit :=
  fun h => c <- peek h a ;; Ok (poke h a (Some (mkC (refc c) (kind c) s)), tt).
(** comps_object_create, comps_obj.c:7-16, with comps_refc_create, comps_mm.c:21-32:
    the counter starts at 0. *)
Definition new (k : tag) (s : list (str * slot)) : M addr := fun h => Ok (h ++ [Some (mkC 0 k s)], length h).
(** comps_object_incref, comps_obj.c:74-78; comps_refc_incref, comps_mm.c:51-54. *)
Definition incref (r : ref) : M unit := fun h =>
  match r with None => Ok (h, tt) | Some a => c <- peek h a ;; Ok (poke h a (Some (mkC (S (refc c)) (kind c) (slots c))), tt) end.
Fixpoint each (f : mem -> ref -> res mem) (h : mem) (l : list slot) : res mem :=
  match l with [] => Ok h | Hole :: _ => UB | Ptr r :: l' => h' <- f h r ;; each f h' l' end.
(** comps_object_destroy, comps_obj.c:18-26, with comps_refc_destroy,
    comps_mm.c:34-41: count down, or at 0 run the destructor, then free.  The
    destructors: comps_doc_destroy, comps_doc.c:58-67; comps_docgroup_destroy,
    comps_docgroup.c:45-51; comps_doccategory_destroy, comps_doccategory.c:46-51;
    comps_docenv_destroy, comps_docenv.c:47-53; comps_docpackage_destroy,
    comps_docpackage.c:46-51; comps_docgroupid_destroy, comps_docgroupid.c:38-41;
    comps_objlist_destroy, comps_objlist.c:57-66; comps_objrtree_data_destroy,
    comps_objradix.c:24-29: every member that is an object is destroyed, in order. *)
Fixpoint destroy (fuel : nat) (h : mem) (r : ref) : res mem :=
  match r with
  | None => Ok h
  | Some a =>
    match fuel with
    | O => NoFuel
    | S fuel' =>
      c <- peek h a ;;
      match refc c with
      | S n => Ok (poke h a (Some (mkC n (kind c) (slots c))))
      | O => h1 <- each (destroy fuel') h (map snd (slots c)) ;; _ <- peek h1 a ;; Ok (poke h1 a None)
      end
    end
  end.
(** Nesting never exceeds the number of objects. *)
Definition release (r : ref) : M unit := fun h => h' <- destroy (S (length h)) h r ;; Ok (h', tt).

Definition seqb (a b : str) : bool := if list_eq_dec ascii_dec a b then true else false.
Fixpoint find_slot (k : str) (s : list (str * slot)) : option slot :=
  match s with [] => None | (k', v) :: r => if seqb k' k then Some v else find_slot k r end.
Fixpoint put_slot (k : str) (v : slot) (s : list (str * slot)) : list (str * slot) :=
  match s with [] => [(k, v)] | (k', v') :: r => if seqb k' k then (k', v) :: r else (k', v') :: put_slot k v r end.
(** Reading and writing a member of a struct. *)
Definition member (a : addr) (f : str) : M ref :=
  do c <- look a; match find_slot f (slots c) with Some (Ptr r) => ret r | _ => ub end.
Definition set_member (a : addr) (f : str) (v : slot) : M unit :=
  do c <- look a; match find_slot f (slots c) with Some _ => rewrite_slots a (put_slot f v (slots c)) | None => ub end.
(** A pointer that is followed. *)
Definition follow (r : ref) : M addr := match r with Some a => ret a | None => ub end.
(** [COMPS_OBJECT_DESTROY(a->f)]: from here on the member is not to be read before it
    is written. *)
Definition drop_member (a : addr) (f : str) : M unit := do r <- member a f; set_member a f Hole ;;; release r.

(** * Copying *)
Definition empty_slots (s : list (str * slot)) : list (str * slot) := map (fun kv => (fst kv, Hole)) s.
Definition doc_kind (k : tag) : bool := match k with KDoc => true | _ => false end.
(** comps_object_copy, comps_obj.c:32-41, with comps_docgroup_copy,
    comps_docgroup.c:32-42; comps_doccategory_copy, comps_doccategory.c:32-42;
    comps_docenv_copy, comps_docenv.c:33-44; comps_docpackage_copy,
    comps_docpackage.c:32-43; comps_docgroupid_copy, comps_docgroupid.c:30-35;
    comps_objlist_copy, comps_objlist.c:42-53; comps_objrtree_copy,
    comps_objradix.c:146-204, and clone, 91-145; comps_doc_copy, comps_doc.c:49-55,
    which does not write [log]; comps_objmrtree_copy, comps_objmradix.c:119-170, which
    uses the tree of its target unwritten.  [depth]: the nesting the stack has room
    for. *)
Section CopyEach.
Variable cp : ref -> M ref.
Variable n : addr.
Variable skip : str -> bool.
Fixpoint copy_slots (done todo : list (str * slot)) : M unit :=
  match todo with
  | [] => ret tt
  | (k, v) :: todo' =>
    if skip k then copy_slots (done ++ [(k, Hole)]) todo'
    else match v with
         | Hole => ub
         | Ptr r => do r' <- cp r; rewrite_slots n (done ++ (k, Ptr r') :: empty_slots todo') ;;; copy_slots (done ++ [(k, Ptr r')]) todo'
         end
  end.
End CopyEach.
Fixpoint copy (depth : nat) (r : ref) : M ref :=
  match r with
  | None => ret None
  | Some a =>
    match depth with
    | O => fun _ => NoFuel
    | S depth' =>
      do c <- look a;
      match kind c with
      | KMDict => ub
      | k => do n <- new k (empty_slots (slots c));
             copy_slots (copy depth') n (fun f => andb (doc_kind k) (seqb f (S_ "log"))) [] (slots c) ;;; ret (Some n)
      end
    end
  end.
(** More nesting than any document has. *)
Definition room : nat := 10.
Definition copy_obj (a : addr) : M addr := do r <- copy room (Some a); follow r.

(** * Lists *)
Definition item (r : ref) : str * slot := ([], Ptr r).
Fixpoint reads (l : list slot) : option (list ref) :=
  match l with [] => Some [] | Hole :: _ => None | Ptr r :: l' => option_map (cons r) (reads l') end.
(** The items of a list, for a loop from [first]. *)
Definition items (l : addr) : M (list ref) := do c <- look l; match reads (map snd (slots c)) with Some rs => ret rs | None => ub end.
(** [l ? l->first : NULL] *)
Definition items_if (r : ref) : M (list ref) := match r with None => ret [] | Some l => items l end.
(** comps_objlist_append_x, comps_objlist.c:156-159: takes the caller's reference;
    comps_objlist_append, 160-163. *)
Definition append_x (l : addr) (r : ref) : M unit := do c <- look l; rewrite_slots l (slots c ++ [item r]).
Definition append (l : addr) (r : ref) : M unit := incref r ;;; append_x l r.
Fixpoint position (a : addr) (rs : list ref) : option nat :=
  match rs with [] => None | Some b :: rs' => if Nat.eqb a b then Some 0 else option_map S (position a rs') | None :: rs' => option_map S (position a rs') end.
(** comps_objlist_index, 294-303: by pointer; [None] is -1. *)
Definition index (l : addr) (a : addr) : M (option nat) := do rs <- items l; ret (position a rs).
(** comps_objlist_remove_at, 250-271: out of range, nothing happens. *)
Definition remove_at (l : addr) (p : option nat) : M unit :=
  do rs <- items l;
  match p with
  | None => ret tt
  | Some i => match nth_error rs i with None => ret tt | Some r => rewrite_slots l (map item (list_del rs i)) ;;; release r end
  end.
(** comps_objlist_insert_at_x, 233-240: out of range, the reference is not taken. *)
Definition insert_at_x (l : addr) (p : option nat) (r : ref) : M unit :=
  do rs <- items l;
  match p with None => ret tt | Some i => if length rs <? i then ret tt else rewrite_slots l (map item (list_ins rs i r)) end.

(** * Dictionaries *)
(** comps_objdict_get_x, comps_objradix.c:512-514, 462-508: the value, not counted. *)
Definition dget_x (d : addr) (k : str) : M ref :=
  do c <- look d; match find_slot k (slots c) with None => ret None | Some (Ptr r) => ret r | Some Hole => ub end.
(** comps_objdict_get, 509-511. *)
Definition dget (d : addr) (k : str) : M ref := do r <- dget_x d k; incref r ;;; ret r.
(** comps_objdict_set_x, 447-449, with __comps_objrtree_set, 339-446: the old value is
    destroyed (390) before the new one is stored (391); takes the caller's reference. *)
Definition dset_x (d : addr) (k : str) (r : ref) : M unit :=
  do c <- look d;
  match find_slot k (slots c) with
  | None => rewrite_slots d (slots c ++ [(k, Ptr r)])
  | Some Hole => ub
  | Some (Ptr old) => rewrite_slots d (put_slot k Hole (slots c)) ;;; release old ;;; set_member d k (Ptr r)
  end.
(** comps_objdict_set, 450-452. *)
Definition dset (d : addr) (k : str) (r : ref) : M unit := incref r ;;; dset_x d k r.
Fixpoint pairs_of (s : list (str * slot)) : option (list (str * addr)) :=
  match s with
  | [] => Some []
  | (_, Hole) :: _ => None
  | (_, Ptr None) :: r => pairs_of r
  | (k, Ptr (Some a)) :: r => option_map (cons (k, a)) (pairs_of r)
  end.
(** comps_objdict_pairs, comps_objradix.c:757-759, 601-680: the entries with a value. *)
Definition pairs (d : addr) : M (list (str * addr)) := do c <- look d; match pairs_of (slots c) with Some l => ret l | None => ub end.
(** comps_objdict_union, comps_objradix.c:744-749, with clone, 91-145, and unite,
    682-742: the values of the first are copied, those of the second shared. *)
Definition dict_union (d1 d2 : addr) : M addr :=
  do r <- copy_obj d1; do ps <- pairs d2; forM (fun kv => dset r (fst kv) (Some (snd kv))) ps ;;; ret r.
(** comps_objmdict_set_x, comps_objmradix.c:355-460: each key has a list. *)
Definition mset_x (d : addr) (k : str) (r : ref) : M unit :=
  do l <- dget_x d k;
  match l with
  | Some l => append_x l r
  | None => do n <- new (KList LStr) []; append_x n r ;;; dset_x d k (Some n)
  end.

(** * Objects *)
Definition new_dict (d : dty) : M addr := new (KDict d) [].
Definition new_list (e : ety) : M addr := new (KList e) [].
(** comps_str, comps_num. *)
Definition new_val (v : str + Z) : M addr := new (KVal v) [].
Definition f_props := S_ "properties". Definition f_names := S_ "name_by_lang". Definition f_descs := S_ "desc_by_lang".
Definition f_pkgs := S_ "packages". Definition f_gids := S_ "group_ids". Definition f_groups := S_ "group_list". Definition f_options := S_ "option_list".
Definition f_name := S_ "name". Definition f_requires := S_ "requires". Definition f_basearch := S_ "basearchonly". Definition f_arches := S_ "arches".
Definition f_log := S_ "log". Definition f_objects := S_ "objects". Definition f_enc := S_ "encoding".
Definition f_dtname := S_ "doctype_name". Definition f_dtsys := S_ "doctype_sysid". Definition f_dtpub := S_ "doctype_pubid".
(** The members of a struct. *)
Definition layout (k : tag) : list str :=
  match k with
  | KPkg => [f_name; f_requires; f_basearch; f_arches]
  | KGid => [f_name; f_arches]
  | KGroup => [f_props; f_names; f_descs; f_pkgs]
  | KCat => [f_props; f_names; f_descs; f_gids]
  | KEnv => [f_props; f_names; f_descs; f_groups; f_options]
  | KDoc => [f_log; f_objects; f_enc; f_dtname; f_dtsys; f_dtpub]
  | _ => []
  end.
Definition struct (k : tag) : M addr := new k (map (fun f => (f, Hole)) (layout k)).
Definition init (a : addr) (f : str) (m : M addr) : M unit := do n <- m; set_member a f (Ptr (Some n)).
(** comps_docpackage_create, comps_docpackage.c:22-30; comps_docgroupid_create,
    comps_docgroupid.c:21-27. *)
Definition new_pkg : M addr :=
  do a <- struct KPkg; set_member a f_name (Ptr None) ;;; set_member a f_requires (Ptr None) ;;; set_member a f_basearch (Ptr None) ;;;
  set_member a f_arches (Ptr None) ;;; ret a.
Definition new_gid : M addr := do a <- struct KGid; set_member a f_name (Ptr None) ;;; set_member a f_arches (Ptr None) ;;; ret a.
(** comps_docgroup_create, comps_docgroup.c:23-29; comps_doccategory_create,
    comps_doccategory.c:23-29; comps_docenv_create, comps_docenv.c:23-30. *)
Definition new_common (k : tag) : M addr :=
  do a <- struct k; init a f_props (new_dict DProp) ;;; init a f_names (new_dict DLang) ;;; init a f_descs (new_dict DLang) ;;; ret a.
Definition new_group : M addr := do a <- new_common KGroup; init a f_pkgs (new_list LPkg) ;;; ret a.
Definition new_cat : M addr := do a <- new_common KCat; init a f_gids (new_list LGid) ;;; ret a.
Definition new_env : M addr := do a <- new_common KEnv; init a f_groups (new_list LGid) ;;; init a f_options (new_list LGid) ;;; ret a.
(** comps_doc_create, comps_doc.c:33-46. *)
Definition new_doc (enc : ref) : M addr :=
  do a <- struct KDoc; init a f_objects (new_dict DObjs) ;;; init a f_log (new KLog []) ;;;
  incref enc ;;; set_member a f_enc (Ptr enc) ;;;
  init a f_dtname (new_val (inl (S_ "comps"))) ;;; init a f_dtsys (new_val (inl (S_ "comps.dtd"))) ;;;
  init a f_dtpub (new_val (inl (S_ "-//Red Hat, Inc.//DTD Comps info//EN"))) ;;; ret a.

(** ** Members *)
Definition props (o : addr) : M addr := do r <- member o f_props; follow r.
(** COMPS_STRPROP_SETTER and COMPS_NUMPROP_SETTER, comps_utils.h:48-80. *)
Definition set_prop (o : addr) (k : str) (v : str + Z) : M unit := do p <- props o; do n <- new_val v; dset_x p k (Some n).
Definition unset_prop (o : addr) (k : str) : M unit := do p <- props o; dset_x p k None.
(** COMPS_PROP_GETTER, 82-86; COMPS_DOCOBJ_GETARCHES, 158-161. *)
Definition get_prop (o : addr) (k : str) : M ref := do p <- props o; dget p k.
(** COMPS_DOCOBJ_SETARCHES, 165-169: takes the caller's reference. *)
Definition set_arches (o : addr) (l : ref) : M unit := do p <- props o; dset_x p f_arches l.
(** COMPS_DOCOBJ_SETOBJLIST, 149-154: the old list is destroyed before the new one is
    counted. *)
Definition set_objlist (o : addr) (f : str) (l : addr) : M unit := drop_member o f ;;; incref (Some l) ;;; set_member o f (Ptr (Some l)).
(** comps_docgroup_add_package, comps_docgroup.c:84-95; comps_doccategory_add_groupid,
    comps_doccategory.c:71-82; comps_docenv_add_groupid and add_optionid,
    comps_docenv.c:77-101: take the caller's reference. *)
Definition add_item (o : addr) (f : str) (e : ety) (x : addr) : M unit :=
  do r <- member o f;
  match r with
  | Some l => append_x l (Some x)
  | None => do n <- new_list e; set_member o f (Ptr (Some n)) ;;; append_x n (Some x)
  end.
(** comps_docpackage_set_name, set_requires, set_basearchonly, comps_docpackage.c:54-88;
    comps_docgroupid_set_name, comps_docgroupid.c:48-53. *)
Definition set_val (o : addr) (f : str) (v : str + Z) : M unit :=
  do r <- member o f; (match r with None => ret tt | Some _ => drop_member o f end) ;;; init o f (new_val v).
(** comps_docpackage_get_name, get_requires, get_basearchonly, comps_docpackage_arches,
    233-235; comps_docgroupid_get_name, 44-46, and arches, 62-64. *)
Definition get_val (o : addr) (f : str) : M ref := do r <- member o f; incref r ;;; ret r.
(** comps_docpackage_set_arches, comps_docpackage.c:236-240; comps_docgroupid_set_arches,
    comps_docgroupid.c:65-69: take the caller's reference. *)
Definition set_item_arches (o : addr) (l : ref) : M unit := drop_member o f_arches ;;; set_member o f_arches (Ptr l).

(** ** Documents *)
Definition objects (d : addr) : M addr := do r <- member d f_objects; follow r.
Definition o_groups := S_ "groups". Definition o_cats := S_ "categories". Definition o_envs := S_ "environments".
Definition o_lang := S_ "langpacks". Definition o_black := S_ "blacklist". Definition o_white := S_ "whiteout".
(** What [objects] has under a key. *)
Definition obj_kind (k : str) : tag :=
  if seqb k o_groups then KList LGroup else if seqb k o_cats then KList LCat else if seqb k o_envs then KList LEnv
  else if seqb k o_lang then KDict DLang else KMDict.
(** COMPS_DOC_GETOBJLIST, comps_doc.h:43-54, COMPS_DOC_GETOBJDICT, 72-82, and
    COMPS_DOC_GETOBJMDICT, 88-98. *)
Definition doc_get (d : addr) (k : str) : M addr :=
  do o <- objects d; do r <- dget o k;
  match r with Some l => ret l | None => do n <- new (obj_kind k) []; dset_x o k (Some n) ;;; incref (Some n) ;;; ret n end.
(** COMPS_DOC_SETOBJLIST, 61-65, SETOBJDICT, 104-108, SETOBJMDICT, 116-120. *)
Definition doc_set (d : addr) (k : str) (x : addr) : M unit := do o <- objects d; dset o k (Some x).
(** The start of COMPS_DOC_ADDOBJLIST, 129-136, ADDOBJDICT, 152-157, ADDOBJMDICT,
    176-181: what is there, or a new object the document shares. *)
Definition doc_open (d : addr) (k : str) : M addr :=
  do o <- objects d; do r <- dget o k;
  match r with Some l => ret l | None => do n <- new (obj_kind k) []; dset o k (Some n) ;;; ret n end.
Definition doc_add (d : addr) (k : str) (x : addr) : M unit := do l <- doc_open d k; append_x l (Some x) ;;; release (Some l).
Definition doc_add_lang (d : addr) (key : str) (x : ref) : M unit := do l <- doc_open d o_lang; dset_x l key x ;;; release (Some l).
Definition doc_add_multi (d : addr) (k : str) (key : str) (x : ref) : M unit := do l <- doc_open d k; mset_x l key x ;;; release (Some l).
(** comps_doc_doctype_name_set, sysid_set and pubid_set, comps_doc.c:825-833, with
    COMPS_OBJECT_REPLACE, comps_obj.h:75-77: all three write [doctype_name]; the old
    object is destroyed before the new one is counted.  The getters, 816-824, are
    [get_val]. *)
Definition doctype_set (d : addr) (v : ref) : M unit := drop_member d f_dtname ;;; incref v ;;; set_member d f_dtname (Ptr v).

(** * Comparing, sets *)
Section Compared.
(** What a comparison of two objects that are not both strings or numbers, and what a
    match against a pattern answers. *)
Variable oracle : mem -> addr -> addr -> bool.
Variable matches : mem -> addr -> bool.
Definition val_eqb (a b : str + Z) : bool := match a, b with inl x, inl y => seqb x y | inr x, inr y => Z.eqb x y | _, _ => false end.
(** comps_object_cmp, comps_obj.c:47-58. *)
Definition ocmp (r1 r2 : ref) : M bool :=
  match r1, r2 with
  | None, None => ret true
  | Some a, Some b => do c1 <- look a; do c2 <- look b;
      match kind c1, kind c2 with KVal v1, KVal v2 => ret (val_eqb v1 v2) | _, _ => fun h => Ok (h, oracle h a b) end
  | _, _ => ret false
  end.
(** comps_docpackage_cmp_set, comps_docpackage.c:138-141; __comps_docgroupid_cmp_set,
    comps_docgroupid.c:88-91. *)
Definition namecmp (a b : addr) : M bool := do n1 <- member a f_name; do n2 <- member b f_name; ocmp n1 n2.
(** __comps_docgroup_idcmp, comps_docgroup.c:164-173; __comps_doccategory_idcmp,
    comps_doccategory.c:114-123; __comps_docenv_idcmp, comps_docenv.c:146-155. *)
Definition idcmp (a b : addr) : M bool :=
  do p1 <- props a; do i1 <- dget p1 (S_ "id"); do p2 <- props b; do i2 <- dget p2 (S_ "id");
  do r <- ocmp i1 i2; release i1 ;;; release i2 ;;; ret r.
Section Sets.
Variable eqf : addr -> addr -> M bool.
(** comps_set_data_at, comps_set.c:96-104; comps_set_in, 74-81, says whether. *)
Fixpoint set_find (s : list addr) (x : addr) : M (option addr) :=
  match s with [] => ret None | y :: s' => do b <- eqf y x; if b then ret (Some y) else set_find s' x end.
(** comps_set_add, 106-116. *)
Definition set_add (s : list addr) (x : addr) : M (list addr * bool) :=
  do r <- set_find s x; match r with Some _ => ret (s, false) | None => ret (s ++ [x], true) end.
(** comps_set_remove, 118-132. *)
Fixpoint set_remove (s : list addr) (x : addr) : M (list addr) :=
  match s with [] => ret [] | y :: s' => do b <- eqf y x; if b then ret s' else do s2 <- set_remove s' x; ret (y :: s2) end.
End Sets.
(** comps_objrtree_paircmp, comps_objradix.c:286-294. *)
Fixpoint pair_in (s : list (str * addr)) (p : str * addr) : M bool :=
  match s with
  | [] => ret false
  | q :: s' => if seqb (fst q) (fst p) then do b <- ocmp (Some (snd q)) (Some (snd p)); if b then ret true else pair_in s' p else pair_in s' p
  end.
Fixpoint pair_set (s l : list (str * addr)) : M (list (str * addr)) :=
  match l with [] => ret s | p :: l' => do b <- pair_in s p; pair_set (if b then s else s ++ [p]) l' end.

(** ** Unions *)
(** An item of a list is followed. *)
Definition each_item {S} (f : S -> addr -> M S) (s : S) (l : list ref) : M S := foldM (fun s r => do x <- follow r; f s x) s l.
(** The loops of the unions of objects: comps_docgroup.c:190-195, comps_doccategory.c:143-147,
    comps_docenv.c:172-176: copied, added to the set and to the result. *)
Definition union_first (res : addr) (f : str) (e : ety) (l : list ref) : M (list addr) :=
  each_item (fun s x => do o <- copy_obj x; incref (Some o) ;;; do sb <- set_add namecmp s o; add_item res f e o ;;; ret (fst sb)) [] l.
(** comps_docenv.c:197-206: counted a second time only when the set took it. *)
Definition union_options (res : addr) (l : list ref) : M (list addr) :=
  each_item (fun s x => do o <- copy_obj x; do sb <- set_add namecmp s o;
                        (if snd sb then incref (Some o) else ret tt) ;;; add_item res f_options LGid o ;;; ret (fst sb)) [] l.
(** comps_docgroup.c:198-209, comps_doccategory.c:148-159, comps_docenv.c:177-188 and
    207-218: an item found in the set takes the place of the object there. *)
Definition union_second (res : addr) (f : str) (e : ety) (s : list addr) (l : list ref) : M unit :=
  each_item (fun _ x =>
    do d <- set_find namecmp s x;
    match d with
    | Some data => do r <- member res f; do l <- follow r; do i <- index l data; remove_at l i ;;;
                   do o <- copy_obj x; insert_at_x l i (Some o)
    | None => do o <- copy_obj x; add_item res f e o
    end) tt l.
(** comps_set_destroy with a destructor, comps_set.c:48-52. *)
Definition set_destroy (s : list addr) : M unit := forM (fun a => release (Some a)) s.
Definition union_lists (res g1 g2 : addr) (f : str) (e : ety) : M unit :=
  do l1 <- member g1 f; do i1 <- items_if l1; do s <- union_first res f e i1;
  do l2 <- member g2 f; do i2 <- items_if l2; union_second res f e s i2 ;;; set_destroy s.
Definition union_props (res g1 g2 : addr) (f : str) : M unit :=
  do r1 <- member g1 f; do d1 <- follow r1; do r2 <- member g2 f; do d2 <- follow r2; init res f (dict_union d1 d2).
(** The end of the three: comps_docgroup.c:211-214, comps_doccategory.c:161-164,
    comps_docenv.c:220-223. *)
Definition union_langs (res g1 g2 : addr) : M unit :=
  drop_member res f_names ;;; drop_member res f_descs ;;; union_props res g1 g2 f_names ;;; union_props res g1 g2 f_descs.
(** comps_docgroup_union, comps_docgroup.c:175-216; comps_doccategory_union,
    comps_doccategory.c:125-166; comps_docenv_union, comps_docenv.c:157-225. *)
Definition group_union (g1 g2 : addr) : M addr :=
  do res <- new_group; drop_member res f_props ;;; union_props res g1 g2 f_props ;;;
  union_lists res g1 g2 f_pkgs LPkg ;;; union_langs res g1 g2 ;;; ret res.
Definition cat_union (g1 g2 : addr) : M addr :=
  do res <- new_cat; drop_member res f_props ;;; union_props res g1 g2 f_props ;;;
  union_lists res g1 g2 f_gids LGid ;;; union_langs res g1 g2 ;;; ret res.
Definition env_union (g1 g2 : addr) : M addr :=
  do res <- new_env; drop_member res f_props ;;; union_props res g1 g2 f_props ;;;
  union_lists res g1 g2 f_groups LGid ;;;
  (do l1 <- member g1 f_options; do i1 <- items_if l1; do s <- union_options res i1;
   do l2 <- member g2 f_options; do i2 <- items_if l2; union_second res f_options LGid s i2 ;;; set_destroy s) ;;;
  union_langs res g1 g2 ;;; ret res.
(** The three parts of comps_doc_union, comps_doc.c:301-326, 328-352, 354-384: a set of
    copies by id; on a match the two are united, the copy is destroyed. *)
Definition union_objs (res c1 c2 : addr) (k : str) (un : addr -> addr -> M addr) (l1 : addr) : M unit :=
  do i1 <- items l1;
  do s <- each_item (fun s x => do o <- copy_obj x; do sb <- set_add idcmp s o; ret (fst sb)) [] i1;
  release (Some l1) ;;;
  do l2 <- doc_get c2 k; do i2 <- items l2;
  do s <- each_item (fun s x =>
            do b <- set_find idcmp s x;
            match b with
            | Some _ => do d <- set_find idcmp s x; do d <- follow d; do t <- un d x;
                        do d2 <- set_find idcmp s x; do s2 <- set_remove idcmp s x; release d2 ;;;
                        do sb <- set_add idcmp s2 t; ret (fst sb)
            | None => do o <- copy_obj x; do sb <- set_add idcmp s o; ret (fst sb)
            end) s i2;
  release (Some l2) ;;; forM (fun x => doc_add res k x) s.
(** comps_doc_union, 283-395. *)
Definition doc_union (c1 c2 : addr) : M addr :=
  do g <- doc_get c1 o_groups; do c <- doc_get c1 o_cats; do e <- doc_get c1 o_envs;
  do enc <- member c1 f_enc; do res <- new_doc enc;
  union_objs res c1 c2 o_groups group_union g ;;; union_objs res c1 c2 o_cats cat_union c ;;; union_objs res c1 c2 o_envs env_union e ;;;
  do d1 <- doc_get c1 o_lang; do d2 <- doc_get c2 o_lang; do lp <- dict_union d1 d2;
  release (Some d1) ;;; release (Some d2) ;;; doc_set res o_lang lp ;;; release (Some lp) ;;; ret res.

(** ** Intersections *)
(** comps_docgroup.c:229-248, comps_doccategory.c:179-198, comps_docenv.c:235-252:
    values of the second, shared. *)
Definition meet_props (res g1 g2 : addr) : M unit :=
  do p1 <- props g1; do l1 <- pairs p1; do s <- pair_set [] l1;
  do p2 <- props g2; do l2 <- pairs p2; do pr <- props res;
  forM (fun p => do b <- pair_in s p; if b then dset pr (fst p) (Some (snd p)) else ret tt) l2.
(** comps_docgroup.c:256-266, comps_doccategory.c:200-209. *)
Definition meet_items (res g1 g2 : addr) (f : str) (e : ety) : M unit :=
  do r1 <- member g1 f; do l1 <- follow r1; do i1 <- items l1;
  do s <- each_item (fun s x => do sb <- set_add namecmp s x; ret (fst sb)) [] i1;
  do r2 <- member g2 f; do l2 <- follow r2; do i2 <- items l2;
  each_item (fun _ x => do b <- set_find namecmp s x; match b with Some _ => do o <- copy_obj x; add_item res f e o | None => ret tt end) tt i2.
(** comps_docenv.c:254-274 and 277-297: the matches go through a second set. *)
Definition meet_sets (res g1 g2 : addr) (f : str) (e : ety) : M unit :=
  do r1 <- member g1 f; do l1 <- follow r1; do i1 <- items l1;
  do s <- each_item (fun s x => do sb <- set_add namecmp s x; ret (fst sb)) [] i1;
  do r2 <- member g2 f; do l2 <- follow r2; do i2 <- items l2;
  do s2 <- each_item (fun s2 x => do b <- set_find namecmp s x; match b with Some _ => do sb <- set_add namecmp s2 x; ret (fst sb) | None => ret s2 end) [] i2;
  forM (fun x => do o <- copy_obj x; add_item res f e o) s2.
(** comps_docgroup_intersect, comps_docgroup.c:218-270; comps_doccategory_intersect,
    comps_doccategory.c:168-213; comps_docenv_intersect, comps_docenv.c:227-302. *)
Definition group_meet (g1 g2 : addr) : M addr := do res <- new_group; meet_props res g1 g2 ;;; meet_items res g1 g2 f_pkgs LPkg ;;; ret res.
Definition cat_meet (g1 g2 : addr) : M addr := do res <- new_cat; meet_props res g1 g2 ;;; meet_items res g1 g2 f_gids LGid ;;; ret res.
Definition env_meet (g1 g2 : addr) : M addr :=
  do res <- new_env; meet_props res g1 g2 ;;; meet_sets res g1 g2 f_groups LGid ;;; meet_sets res g1 g2 f_options LGid ;;; ret res.
(** The three parts of comps_doc_intersect, comps_doc.c:426-441, 443-459, 461-474, with
    its end, 475-479.  The set keeps the objects themselves, uncounted. *)
Definition meet_objs (res c2 : addr) (k : str) (mt : addr -> addr -> M addr) (l1 : addr) : M addr :=
  do i1 <- items l1;
  do s <- each_item (fun s x => do sb <- set_add idcmp s x; ret (fst sb)) [] i1;
  release (Some l1) ;;;
  do l2 <- doc_get c2 k; do i2 <- items l2;
  each_item (fun _ x => do b <- set_find idcmp s x;
             match b with
             | Some _ => do d <- set_find idcmp s x; do d <- follow d; do t <- mt x d; doc_add res k t
             | None => ret tt
             end) tt i2 ;;;
  ret l2.
Definition doc_meet (c1 c2 : addr) : M addr :=
  do g <- doc_get c1 o_groups; do c <- doc_get c1 o_cats; do e <- doc_get c1 o_envs;
  do enc <- member c1 f_enc; do res <- new_doc enc;
  do g2 <- meet_objs res c2 o_groups group_meet g; do c2' <- meet_objs res c2 o_cats cat_meet c; do e2 <- meet_objs res c2 o_envs env_meet e;
  release (Some g2) ;;; release (Some c2') ;;; release (Some e2) ;;; ret res.

(** ** Filters *)
(** __comps_objlist_intersected, comps_utils.c:76-84. *)
Fixpoint any_equal (x : ref) (l : list ref) : M bool := match l with [] => ret false | y :: l' => do b <- ocmp x y; if b then ret true else any_equal x l' end.
Fixpoint intersected (l1 l2 : list ref) : M bool := match l1 with [] => ret false | x :: l' => do b <- any_equal x l2; if b then ret true else intersected l' l2 end.
(** [(!arches2) || __comps_objlist_intersected(arches, arches2)] *)
Definition wanted (arches : addr) (a2 : ref) : M bool :=
  match a2 with None => ret true | Some l2 => do i1 <- items arches; do i2 <- items l2; intersected i1 i2 end.
Definition copy_member (res src : addr) (f : str) : M unit := drop_member res f ;;; do r <- member src f; do c <- copy room r; set_member res f (Ptr c).
Definition filter_items (res src arches : addr) (f : str) (e : ety) : M unit :=
  do r <- member src f; do l <- follow r; do is <- items l;
  each_item (fun _ x => do a2 <- get_val x f_arches; do b <- wanted arches a2;
                        (if b then do o <- copy_obj x; add_item res f e o else ret tt) ;;; release a2) tt is.
Definition filter_props (res src : addr) : M unit := copy_member res src f_props ;;; copy_member res src f_names ;;; copy_member res src f_descs.
(** comps_docgroup_arch_filter, comps_docgroup.c:429-449; comps_doccategory_arch_filter,
    comps_doccategory.c:347-367; comps_docenv_arch_filter, comps_docenv.c:449-478. *)
Definition group_filter (g arches : addr) : M addr := do res <- new_group; filter_props res g ;;; filter_items res g arches f_pkgs LPkg ;;; ret res.
Definition cat_filter (g arches : addr) : M addr := do res <- new_cat; filter_props res g ;;; filter_items res g arches f_gids LGid ;;; ret res.
Definition env_filter (g arches : addr) : M addr :=
  do res <- new_env; filter_props res g ;;; filter_items res g arches f_groups LGid ;;; filter_items res g arches f_options LGid ;;; ret res.
Definition filter_objs (res src arches : addr) (k : str) (fl : addr -> addr -> M addr) : M unit :=
  do l <- doc_get src k; do is <- items l;
  each_item (fun _ x => do a2 <- get_prop x f_arches; do b <- wanted arches a2;
                        (if b then do o <- fl x arches; doc_add res k o else ret tt) ;;; release a2) tt is ;;;
  release (Some l).
(** comps_doc_arch_filter, comps_doc.c:836-879. *)
Definition doc_filter (d arches : addr) : M addr :=
  do enc <- member d f_enc; do res <- new_doc enc;
  filter_objs res d arches o_cats cat_filter ;;; filter_objs res d arches o_groups group_filter ;;; filter_objs res d arches o_envs env_filter ;;; ret res.

(** ** Queries *)
Definition ask (a : addr) : M bool := fun h => _ <- peek h a ;; Ok (h, matches h a).
(** comps_docgroup_get_packages, comps_docgroup.c:98-127.  A NULL group returns before
    the name object is destroyed (105-106). *)
Definition get_packages (g : ref) (name : str) : M ref :=
  do n <- new_val (inl name);
  match g with
  | None => ret None
  | Some g =>
    do res <- new_list LPkg; do l <- member g f_pkgs; do is <- items_if l;
    each_item (fun _ x => do nm <- member x f_name; do _ <- ocmp nm (Some n); do b <- ask x; if b then append res (Some x) else ret tt) tt is ;;;
    release (Some n) ;;; ret (Some res)
  end.
(** The look at one property, comps_doc.c:493-505: first the property, then, when asked
    for a language and not matched yet, the text in that language; both given back. *)
Definition look_prop (o : addr) (k : str) (dict : str) (lang : option str) : M unit :=
  do t <- get_prop o k;
  match lang with
  | Some lg => do b <- (match t with Some a => ask a | None => ret false end);
               if b then release t
               else release t ;;; do r <- member o dict; do nb <- follow r; do t2 <- dget nb lg;
                    (match t2 with Some a => ask a ;;; ret tt | None => ret tt end) ;;; release t2
  | None => (match t with Some a => ask a ;;; ret tt | None => ret tt end) ;;; release t
  end.
(** comps_doc_get_groups, 468-525, get_categories, 527-582, get_envs, 584-637. *)
Definition doc_query (d : addr) (k : str) (e : ety) (id name desc : str) (lang : option str) : M addr :=
  do l <- doc_get d k; do t1 <- new_val (inl id); do t2 <- new_val (inl name); do t3 <- new_val (inl desc); do res <- new_list e;
  do is <- items l;
  each_item (fun _ x => look_prop x (S_ "id") f_names None ;;; look_prop x (S_ "name") f_names lang ;;; look_prop x (S_ "desc") f_descs lang ;;;
                        do b <- ask x; if b then append res (Some x) else ret tt) tt is ;;;
  release (Some t1) ;;; release (Some t2) ;;; release (Some t3) ;;; release (Some l) ;;; ret res.
(** comps_doc_cmp_u, comps_doc.c:70-146. *)
Fixpoint cmp_members (d1 d2 : addr) (fs : list str) : M bool :=
  match fs with [] => ret true | f :: fs' => do r1 <- member d1 f; do r2 <- member d2 f; do b <- ocmp r1 r2; if b then cmp_members d1 d2 fs' else ret false end.
Fixpoint cmp_objs (d1 d2 : addr) (ks : list str) : M bool :=
  match ks with
  | [] => ret true
  | k :: ks' => do t1 <- doc_get d1 k; do t2 <- doc_get d2 k; do b <- ocmp (Some t1) (Some t2); release (Some t1) ;;; release (Some t2) ;;;
                if b then cmp_objs d1 d2 ks' else ret false
  end.
Definition doc_cmp (d1 d2 : addr) : M bool :=
  do b <- cmp_members d1 d2 [f_enc; f_dtname; f_dtsys; f_dtpub];
  if b then cmp_objs d1 d2 [o_cats; o_groups; o_envs; o_lang; o_black; o_white] else ret false.
End Compared.
