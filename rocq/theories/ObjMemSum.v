(** Model of the memory of the sums of Python lists: comps_groups_union and
    comps_pkgs_union, libcomps/src/python/src/pycomps_groups.c:381-415 and 575-603;
    comps_cats_union, pycomps_categories.c:309-341; comps_envs_union,
    pycomps_envs.c:329-363.

    On top of ObjMemModel.v: the same memory, objects, lists, sets and unions of two
    objects.  The lists of the operands are read once; the loops do not write them.
    The number in a package that says what type it is is not part of this memory:
    where the code assigns it, nothing happens here (see PyObjModel.v for values). *)
From Verif Require Import CStr ObjMemModel.

Section Compared.
Variable oracle : mem -> addr -> addr -> bool.
(** The first loop, pycomps_groups.c:395-399 and 588-592, pycomps_categories.c:322-326,
    pycomps_envs.c:342-346: each object is copied; the copy is offered to the set and
    appended to the result, which counts it.  A copy the set does not take keeps the
    reference of its creation. *)
Definition sum_first (eqf : addr -> addr -> M bool) (r : addr) (l : list ref) : M (list addr) :=
  each_item (fun s x => do o <- copy_obj x; do sb <- set_add eqf s o; append r (Some o) ;;; ret (fst sb)) [] l.
(** The second loop, pycomps_groups.c:400-412, pycomps_categories.c:327-338,
    pycomps_envs.c:347-360: an object with the id of one in the set is united with
    that and the union takes its place; others are appended themselves. *)
Definition sum_second (un : addr -> addr -> M addr) (r : addr) (s : list addr) (l : list ref) : M unit :=
  each_item (fun _ x =>
    do d <- set_find (idcmp oracle) s x;
    match d with
    | Some data => do i <- index r data; remove_at r i ;;; do t <- un data x; insert_at_x r i (Some t)
    | None => append r (Some x)
    end) tt l.
Definition sum_objs (et : ety) (un : addr -> addr -> M addr) (l1 l2 : addr) : M addr :=
  do r <- new_list et; do i1 <- items l1; do s <- sum_first (idcmp oracle) r i1;
  do i2 <- items l2; sum_second un r s i2 ;;; set_destroy s ;;; ret r.
(** comps_groups_union, comps_cats_union, comps_envs_union. *)
Definition sum_groups : addr -> addr -> M addr := sum_objs LGroup (group_union oracle).
Definition sum_cats : addr -> addr -> M addr := sum_objs LCat (cat_union oracle).
Definition sum_envs : addr -> addr -> M addr := sum_objs LEnv (env_union oracle).
(** pycomps_groups.c:593-600: on a match only the type of the copy is set.  The set
    compares by name, __comps_docpackage_idcmp, comps_docpackage.c:120-123. *)
Definition sum_second_pkgs (r : addr) (s : list addr) (l : list ref) : M unit :=
  each_item (fun _ x =>
    do d <- set_find (namecmp oracle) s x;
    match d with Some _ => ret tt | None => append r (Some x) end) tt l.
(** comps_pkgs_union. *)
Definition sum_pkgs (l1 l2 : addr) : M addr :=
  do r <- new_list LPkg; do i1 <- items l1; do s <- sum_first (namecmp oracle) r i1;
  do i2 <- items l2; sum_second_pkgs r s i2 ;;; set_destroy s ;;; ret r.
End Compared.
