(** Model of the document objects: comps_obj.c (strings, numbers, comparison),
    comps_docpackage.c, comps_docgroupid.c, comps_docgroup.c,
    comps_doccategory.c, comps_docenv.c.

    Simplifications.  Object lists are the sequences that C01 shows them to be
    (plain Coq lists); the list pointers of groups, categories and environments
    are never NULL (they are created with the object).  Dictionaries are the
    radix trees of RTreeModel.  An object is its value: reference counts are
    modelled in RefcModel.v and sharing between objects is not represented, so
    "copy" is a function on values.  The standard output traces of
    comps_docgroup_cmp_u are left out. *)
From Verif Require Import CStr HSListModel SetModel RTreeModel.

(** COMPS_Str, comps_obj.h: the [val] pointer (NULL or a string). *)
Definition ostr := option str.
(** comps_str_cmp_u, comps_obj.c:147-154. *)
Definition ostr_cmp (a b : ostr) : bool :=
  match a, b with
  | None, None => true
  | Some x, Some y => streq x y
  | _, _ => false
  end.
(** comps_str_copy_u, comps_obj.c:123-131. *)
Definition ostr_copy (a : ostr) : ostr := match a with Some s => Some s | None => None end.
(** comps_str_tostr, comps_obj.c:137-145. *)
Definition ostr_tostr (a : ostr) : str := match a with Some s => s | None => [] end.

(** comps_object_cmp, comps_obj.c:48-59, on two pointers to objects of one type
    with comparison [eqv]. *)
Definition obj_cmp {A} (eqv : A -> A -> bool) (a b : option A) : bool :=
  match a, b with
  | None, None => true
  | Some x, Some y => eqv x y
  | _, _ => false
  end.
(** comps_object_copy, comps_obj.c:32-41. *)
Definition obj_copy {A} (cp : A -> A) (a : option A) : option A := option_map cp a.
(** comps_object_tostr, comps_obj.c:63-72, on a string object or NULL. *)
Definition str_tostr (a : option ostr) : str := match a with Some s => ostr_tostr s | None => [] end.

(** Objects stored in the [properties] dictionaries: strings, numbers (C int,
    kept as Z) and the "arches" list. *)
Inductive pval := PStr (s : ostr) | PNum (z : Z) | PList (l : list ostr).
(** comps_objlist_cmp, comps_objlist.c:416-430, on lists of strings. *)
Fixpoint list_cmp {A} (eqv : A -> A -> bool) (l1 l2 : list A) : bool :=
  match l1, l2 with
  | [], [] => true
  | x :: r1, y :: r2 => if eqv x y then list_cmp eqv r1 r2 else false
  | _, _ => false
  end.
(** comps_object_cmp on two property values, comps_obj.c:53-57 (comparison of
    the first one's type: comps_str_cmp_u 147, comps_num_cmp_u 109,
    comps_objlist_cmp).  Values of different types, which the setters never
    store under one key, would be reinterpreted by the C code; here they are
    different. *)
Definition pval_cmp (a b : pval) : bool :=
  match a, b with
  | PStr x, PStr y => ostr_cmp x y
  | PNum x, PNum y => (x =? y)%Z
  | PList x, PList y => list_cmp ostr_cmp x y
  | _, _ => false
  end.
(** comps_str_copy_u 123, comps_num_copy_u 89-91, comps_objlist_copy
    (comps_objlist.c:42-53). *)
Definition pval_copy (a : pval) : pval :=
  match a with
  | PStr s => PStr (ostr_copy s)
  | PNum z => PNum z
  | PList l => PList (map ostr_copy l)
  end.

(** ** Packages (comps_docpackage.h:36-52) *)
(** COMPS_PackageType, as the int it is. *)
Definition PK_DEFAULT : Z := 0.
Definition PK_OPTIONAL : Z := 1.
Definition PK_CONDITIONAL : Z := 2.
Definition PK_MANDATORY : Z := 3.
Definition PK_UNKNOWN : Z := 4.
Record pkg := mkPkg {
  p_name : option ostr; p_requires : option ostr; p_bao : option Z;
  p_type : Z; p_arches : option (list ostr) }.
(** comps_docpackage_create, comps_docpackage.c:22-29. *)
Definition pkg_create : pkg := mkPkg None None None PK_UNKNOWN None.
(** comps_docpackage_copy, 32-42. *)
Definition pkg_copy (p : pkg) : pkg :=
  mkPkg (obj_copy ostr_copy (p_name p)) (obj_copy ostr_copy (p_requires p))
        (obj_copy (fun z => z) (p_bao p)) (p_type p) (obj_copy (map ostr_copy) (p_arches p)).
(** comps_docpackage_set_name 53-58, set_requires 64-69: comps_str(NULL) is a
    string object without text. *)
Definition pkg_set_name (p : pkg) (s : option str) : pkg :=
  mkPkg (Some s) (p_requires p) (p_bao p) (p_type p) (p_arches p).
Definition pkg_set_requires (p : pkg) (s : option str) : pkg :=
  mkPkg (p_name p) (Some s) (p_bao p) (p_type p) (p_arches p).
(** comps_docpackage_set_basearchonly, 75-82: [unset] is ignored. *)
Definition pkg_set_bao (p : pkg) (z : Z) (unset : bool) : pkg :=
  mkPkg (p_name p) (p_requires p) (Some z) (p_type p) (p_arches p).
(** comps_docpackage_set_type, set_type_i, 88-97. *)
Definition pkg_set_type (p : pkg) (z : Z) : pkg :=
  mkPkg (p_name p) (p_requires p) (p_bao p) z (p_arches p).
(** comps_docpackage_set_arches, 236-240. *)
Definition pkg_set_arches (p : pkg) (l : option (list ostr)) : pkg :=
  mkPkg (p_name p) (p_requires p) (p_bao p) (p_type p) l.
(** comps_docpackage_cmp_u, 104-118. *)
Definition pkg_cmp (a b : pkg) : bool :=
  if obj_cmp ostr_cmp (p_name a) (p_name b) then
    if obj_cmp ostr_cmp (p_requires a) (p_requires b) then (p_type a =? p_type b)%Z else false
  else false.
(** comps_docpackage_cmp_set, 138-141 (and __comps_docpackage_idcmp, 120-123). *)
Definition pkg_idcmp (a b : pkg) : bool := obj_cmp ostr_cmp (p_name a) (p_name b).
(** comps_docpackage_type_str, 125-136. *)
Definition pkg_type_str (t : Z) : str :=
  if (t =? PK_OPTIONAL)%Z then S_ "optional"
  else if (t =? PK_MANDATORY)%Z then S_ "mandatory"
  else if (t =? PK_CONDITIONAL)%Z then S_ "conditional"
  else S_ "default".

(** ** Group ids (comps_docgroupid.c) *)
Record gid := mkGid { gi_name : option ostr; gi_def : bool; gi_arches : option (list ostr) }.
(** comps_docgroupid_create, 21-27. *)
Definition gid_create : gid := mkGid None false None.
(** comps_docgroupid_copy, 30-35. *)
Definition gid_copy (g : gid) : gid :=
  mkGid (obj_copy ostr_copy (gi_name g)) (gi_def g) (obj_copy (map ostr_copy) (gi_arches g)).
(** comps_docgroupid_set_name 48-53, set_default 58-60, set_arches 65-69. *)
Definition gid_set_name (g : gid) (s : option str) : gid := mkGid (Some s) (gi_def g) (gi_arches g).
Definition gid_set_default (g : gid) (d : Z) : gid := mkGid (gi_name g) (negb (d =? 0)%Z) (gi_arches g).
Definition gid_set_arches (g : gid) (l : option (list ostr)) : gid := mkGid (gi_name g) (gi_def g) l.
(** comps_docgroupid_cmp_u, 71-86. *)
Definition gid_cmp (a b : gid) : bool :=
  if obj_cmp ostr_cmp (gi_name a) (gi_name b) then Bool.eqb (gi_def a) (gi_def b) else false.
(** __comps_docgroupid_cmp_set, 88-91. *)
Definition gid_idcmp (a b : gid) : bool := obj_cmp ostr_cmp (gi_name a) (gi_name b).

(** ** The three dictionaries common to groups, categories and environments
    (comps_docgroup.h, comps_doccategory.h, comps_docenv.h: properties,
    name_by_lang, desc_by_lang).  Each function below exists three times in the
    C code, once per object; all three places are cited. *)
Record base := mkB { b_props : rtree pval; b_names : rtree ostr; b_descs : rtree ostr }.
(** comps_docgroup.c:25-27, comps_doccategory.c:25-27, comps_docenv.c:25-27. *)
Definition base_create : base := mkB rt_create rt_create rt_create.
(** comps_docgroup.c:34-39, comps_doccategory.c:35-40, comps_docenv.c:34-39. *)
Definition base_copy (b : base) : base :=
  mkB (rt_copy pval_copy (b_props b)) (rt_copy ostr_copy (b_names b)) (rt_copy ostr_copy (b_descs b)).
(** COMPS_STRPROP_SETTER, comps_utils.h:52-62: a NULL argument is ignored. *)
Definition base_set_str (b : base) (k : str) (s : option str) : res base :=
  match s with
  | None => Ok b
  | Some x => p <- rt_set (b_props b) k (Some (PStr (Some x))) ;; Ok (mkB p (b_names b) (b_descs b))
  end.
(** COMPS_NUMPROP_SETTER, comps_utils.h:69-80: [None] stands for unset. *)
Definition base_set_num (b : base) (k : str) (z : option Z) : res base :=
  p <- rt_set (b_props b) k (option_map PNum z) ;; Ok (mkB p (b_names b) (b_descs b)).
(** COMPS_DOCOBJ_SETARCHES, comps_utils.h:165-169. *)
Definition base_set_arches (b : base) (l : option (list ostr)) : res base :=
  p <- rt_set (b_props b) (S_ "arches") (option_map PList l) ;; Ok (mkB p (b_names b) (b_descs b)).
(** COMPS_PROP_GETTER, comps_utils.h:87-91. *)
Definition base_get (b : base) (k : str) : res (option pval) := rt_get (b_props b) k.
(** COMPS_DOCOBJ_GETARCHES, comps_utils.h:158-161: the object found is used as a
    list. *)
Definition base_arches (b : base) : res (option (list ostr)) :=
  v <- base_get b (S_ "arches") ;;
  match v with
  | None => Ok None
  | Some (PList l) => Ok (Some l)
  | Some _ => UB
  end.
(** comps_objdict_set on name_by_lang / desc_by_lang (the parser and the Python
    bindings write them directly). *)
Definition base_set_name (b : base) (lang : str) (s : ostr) : res base :=
  d <- rt_set (b_names b) lang (Some s) ;; Ok (mkB (b_props b) d (b_descs b)).
Definition base_set_desc (b : base) (lang : str) (s : ostr) : res base :=
  d <- rt_set (b_descs b) lang (Some s) ;; Ok (mkB (b_props b) (b_names b) d).
(** comps_docgroup.c:128-145, comps_doccategory.c:87-101, comps_docenv.c:104-118. *)
Definition base_cmp (a b : base) : res bool :=
  c <- rt_cmp pval_cmp (b_props a) (b_props b) ;;
  if c then
    c <- rt_cmp ostr_cmp (b_names a) (b_names b) ;;
    if c then rt_cmp ostr_cmp (b_descs a) (b_descs b) else Ok false
  else Ok false.
(** __comps_docgroup_idcmp, comps_docgroup.c:157-166; comps_doccategory.c:113-122;
    comps_docenv.c:140-149. *)
Definition base_idcmp (a b : base) : res bool :=
  x <- base_get a (S_ "id") ;; y <- base_get b (S_ "id") ;; Ok (obj_cmp pval_cmp x y).
(** comps_docgroup.c:177,204-205; comps_doccategory.c:137,161-162;
    comps_docenv.c:162,217-218. *)
Definition base_union (a b : base) : res base :=
  p <- rt_union pval_copy (b_props a) (b_props b) ;;
  n <- rt_union ostr_copy (b_names a) (b_names b) ;;
  d <- rt_union ostr_copy (b_descs a) (b_descs b) ;;
  Ok (mkB p n d).
(** Setting a list of pairs one by one. *)
Fixpoint set_pairs (t : rtree pval) (kvs : list (str * pval)) : res (rtree pval) :=
  match kvs with
  | [] => Ok t
  | (k, v) :: r => t' <- rt_set t k (Some v) ;; set_pairs t' r
  end.
(** comps_docgroup.c:219-236, comps_doccategory.c:176-194, comps_docenv.c:229-246:
    the translations are not intersected but dropped. *)
Definition base_intersect (a b : base) : res base :=
  p1 <- rt_pairs (b_props a) ;;
  s <- set_add_all (paircmp pval_cmp) hs_empty p1 ;;
  p2 <- rt_pairs (b_props b) ;;
  p <- set_pairs rt_create (filter (set_in (paircmp pval_cmp) s) p2) ;;
  Ok (mkB p rt_create rt_create).

(** ** Merging and intersecting member lists *)
Section Members.
Context {A : Type} (cp : A -> A) (idcmp : A -> A -> bool).

(** A copy in the result list of a union: its address and its value.  Addresses
    are numbered in order of allocation. *)
Definition tagged := (nat * A)%type.
Definition tag_cmp (a b : tagged) : bool := idcmp (snd a) (snd b).
(** comps_objlist_index by address, comps_objlist.c:294-303. *)
Fixpoint tag_index (l : list tagged) (a : nat) (i : nat) : option nat :=
  match l with
  | [] => None
  | x :: r => if fst x =? a then Some i else tag_index r a (S i)
  end.
(** First loop: comps_docgroup.c:181-186, comps_doccategory.c:141-146,
    comps_docenv.c:166-171 and 193-203. *)
Fixpoint merge_first (l1 : list A) (next : nat) (set : hsl tagged) (out : list tagged)
  : res (hsl tagged * list tagged * nat) :=
  match l1 with
  | [] => Ok (set, out, next)
  | x :: r =>
      s <- set_add tag_cmp set (next, cp x) ;;
      merge_first r (S next) (fst s) (out ++ [(next, cp x)])
  end.
(** Second loop: comps_docgroup.c:189-200, comps_doccategory.c:147-158,
    comps_docenv.c:172-183 and 204-215.  The [int] index -1 becomes an
    [unsigned] position that no list reaches: remove_at and insert_at_x then do
    nothing. *)
Fixpoint merge_second (l2 : list A) (next : nat) (set : hsl tagged) (out : list tagged)
  : list tagged :=
  match l2 with
  | [] => out
  | x :: r =>
      match set_data_at tag_cmp set (next, x) with
      | Some d =>
          merge_second r (S next) set
            (match tag_index out (fst d) 0 with
             | None => out
             | Some i => list_ins (list_del out i) i (next, cp x)
             end)
      | None => merge_second r (S next) set (out ++ [(next, cp x)])
      end
  end.
Definition merge_members (l1 l2 : list A) : res (list A) :=
  m <- merge_first l1 0 hs_empty [] ;;
  Ok (map snd (merge_second l2 (snd m) (fst (fst m)) (snd (fst m)))).

(** comps_docgroup.c:244-253, comps_doccategory.c:198-206. *)
Definition intersect_members (l1 l2 : list A) : res (list A) :=
  s <- set_add_all idcmp hs_empty l1 ;;
  Ok (map cp (filter (set_in idcmp s) l2)).
(** comps_docenv.c:248-267 and 269-288: through a second set, so that a name
    occurs once in the result. *)
Fixpoint add_common (s s2 : hsl A) (l2 : list A) : res (hsl A) :=
  match l2 with
  | [] => Ok s2
  | x :: r =>
      if set_in idcmp s x then p <- set_add idcmp s2 x ;; add_common s (fst p) r
      else add_common s s2 r
  end.
Definition intersect_members_env (l1 l2 : list A) : res (list A) :=
  s <- set_add_all idcmp hs_empty l1 ;;
  s2 <- add_common s hs_empty l2 ;;
  Ok (map cp (hitems s2)).
End Members.

(** __comps_objlist_intersected, comps_utils.c:76-84. *)
Definition arches_intersected (l1 l2 : list ostr) : bool :=
  existsb (fun a => existsb (ostr_cmp a) l2) l1.
(** The test made for every object by the arch filters, e.g.
    comps_docgroup.c:441-442. *)
Definition arch_ok (arches : list ostr) (own : option (list ostr)) : bool :=
  match own with None => true | Some l => arches_intersected arches l end.

(** ** Groups (comps_docgroup.c) *)
Record group := mkG { g_base : base; g_pkgs : list pkg }.
(** comps_docgroup_create, 23-29. *)
Definition group_create : group := mkG base_create [].
(** comps_docgroup_copy, 32-42. *)
Definition group_copy (g : group) : group := mkG (base_copy (g_base g)) (map pkg_copy (g_pkgs g)).
(** comps_docgroup_add_package, 79-90. *)
Definition group_add_pkg (g : group) (p : pkg) : group := mkG (g_base g) (g_pkgs g ++ [p]).
(** comps_docgroup_set_packages, COMPS_DOCOBJ_SETOBJLIST, comps_utils.h:148-154. *)
Definition group_set_pkgs (g : group) (l : list pkg) : group := mkG (g_base g) l.
(** comps_docgroup_get_packages, 93-121: counts the criteria met. *)
Definition b2n (b : bool) : nat := if b then 1 else 0.
Definition group_get_packages (g : group) (name : option str) (type : Z) : list pkg :=
  let matched_max := b2n (match name with Some _ => true | None => false end)
                     + b2n (negb (type =? PK_UNKNOWN)%Z) in
  filter (fun p =>
    b2n (match name with Some _ => obj_cmp ostr_cmp (p_name p) (Some name) | None => false end)
    + b2n (negb (type =? PK_UNKNOWN)%Z && (p_type p =? type)%Z) =? matched_max) (g_pkgs g).
(** comps_docgroup_cmp_u, 124-155. *)
Definition group_cmp (a b : group) : res bool :=
  c <- base_cmp (g_base a) (g_base b) ;;
  Ok (if c then list_cmp pkg_cmp (g_pkgs a) (g_pkgs b) else false).
(** comps_docgroup_union, 168-207. *)
Definition group_union (a b : group) : res group :=
  bs <- base_union (g_base a) (g_base b) ;;
  l <- merge_members pkg_copy pkg_idcmp (g_pkgs a) (g_pkgs b) ;;
  Ok (mkG bs l).
(** comps_docgroup_intersect, 209-256. *)
Definition group_intersect (a b : group) : res group :=
  bs <- base_intersect (g_base a) (g_base b) ;;
  l <- intersect_members pkg_copy pkg_idcmp (g_pkgs a) (g_pkgs b) ;;
  Ok (mkG bs l).
(** comps_docgroup_arch_filter, 429-449. *)
Definition group_arch_filter (g : group) (arches : list ostr) : group :=
  mkG (base_copy (g_base g))
      (map pkg_copy (filter (fun p => arch_ok arches (p_arches p)) (g_pkgs g))).

(** ** Categories (comps_doccategory.c) *)
Record category := mkC { c_base : base; c_gids : list gid }.
(** comps_doccategory_create, 23-29. *)
Definition category_create : category := mkC base_create [].
(** comps_doccategory_copy, 32-42. *)
Definition category_copy (c : category) : category := mkC (base_copy (c_base c)) (map gid_copy (c_gids c)).
(** comps_doccategory_add_groupid, 70-81. *)
Definition category_add_gid (c : category) (g : gid) : category := mkC (c_base c) (c_gids c ++ [g]).
(** comps_doccategory_cmp_u, 83-111. *)
Definition category_cmp (a b : category) : res bool :=
  c <- base_cmp (c_base a) (c_base b) ;;
  Ok (if c then list_cmp gid_cmp (c_gids a) (c_gids b) else false).
(** comps_doccategory_union, 124-164. *)
Definition category_union (a b : category) : res category :=
  bs <- base_union (c_base a) (c_base b) ;;
  l <- merge_members gid_copy gid_idcmp (c_gids a) (c_gids b) ;;
  Ok (mkC bs l).
(** comps_doccategory_intersect, 166-208. *)
Definition category_intersect (a b : category) : res category :=
  bs <- base_intersect (c_base a) (c_base b) ;;
  l <- intersect_members gid_copy gid_idcmp (c_gids a) (c_gids b) ;;
  Ok (mkC bs l).
(** comps_doccategory_arch_filter, 347-367. *)
Definition category_arch_filter (c : category) (arches : list ostr) : category :=
  mkC (base_copy (c_base c))
      (map gid_copy (filter (fun g => arch_ok arches (gi_arches g)) (c_gids c))).

(** ** Environments (comps_docenv.c) *)
Record env := mkE { e_base : base; e_groups : list gid; e_options : list gid }.
(** comps_docenv_create, 23-30. *)
Definition env_create : env := mkE base_create [] [].
(** comps_docenv_copy, 33-44. *)
Definition env_copy (e : env) : env :=
  mkE (base_copy (e_base e)) (map gid_copy (e_groups e)) (map gid_copy (e_options e)).
(** comps_docenv_add_groupid 75-86, add_optionid 88-99. *)
Definition env_add_group (e : env) (g : gid) : env := mkE (e_base e) (e_groups e ++ [g]) (e_options e).
Definition env_add_option (e : env) (g : gid) : env := mkE (e_base e) (e_groups e) (e_options e ++ [g]).
(** comps_docenv_cmp_u, 101-138. *)
Definition env_cmp (a b : env) : res bool :=
  c <- base_cmp (e_base a) (e_base b) ;;
  Ok (if c then
        if list_cmp gid_cmp (e_groups a) (e_groups b)
        then list_cmp gid_cmp (e_options a) (e_options b) else false
      else false).
(** comps_docenv_union, 151-220. *)
Definition env_union (a b : env) : res env :=
  bs <- base_union (e_base a) (e_base b) ;;
  l <- merge_members gid_copy gid_idcmp (e_groups a) (e_groups b) ;;
  o <- merge_members gid_copy gid_idcmp (e_options a) (e_options b) ;;
  Ok (mkE bs l o).
(** comps_docenv_intersect, 222-290. *)
Definition env_intersect (a b : env) : res env :=
  bs <- base_intersect (e_base a) (e_base b) ;;
  l <- intersect_members_env gid_copy gid_idcmp (e_groups a) (e_groups b) ;;
  o <- intersect_members_env gid_copy gid_idcmp (e_options a) (e_options b) ;;
  Ok (mkE bs l o).
(** comps_docenv_arch_filter, 449-478. *)
Definition env_arch_filter (e : env) (arches : list ostr) : env :=
  mkE (base_copy (e_base e))
      (map gid_copy (filter (fun g => arch_ok arches (gi_arches g)) (e_groups e)))
      (map gid_copy (filter (fun g => arch_ok arches (gi_arches g)) (e_options e))).
