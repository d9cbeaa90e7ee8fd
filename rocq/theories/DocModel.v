(** Model of comps_doc.c / comps_doc.h: the document, its parts, union,
    intersection, architecture filter and queries.

    Simplifications.  A document's [objects] dictionary is the radix tree of
    RTreeModel; appending to a list stored in it (done in place by the C code)
    writes the longer list back under the same key.  The message log is in
    LogModel.v.  comps_doc_copy (49-55) is left out: it leaves the [log] and
    [lang] pointers of the copy unset, so that destroying the copy is undefined,
    and it goes through the copy of multi-dictionaries, which is undefined too
    (MRTreeModel.mt_copy).  An object is fetched from [objects] with a cast; an
    object of another type is [UB] here. *)
From Verif Require Import CStr HSListModel SetModel RTreeModel MRTreeModel ObjModel.

(** Values of [doc->objects] (comps_doc.h:226-227, comps_doc.c:156-174). *)
Inductive dval :=
| DGroups (l : list group) | DCats (l : list category) | DEnvs (l : list env)
| DDict (t : rtree ostr) | DMdict (t : @mtree ostr) | DStr (s : ostr).
(** COMPS_Doc, comps_doc.h:224-236. *)
Record doc := mkDoc {
  d_objs : rtree dval; d_enc : option ostr;
  d_name : option ostr; d_sysid : option ostr; d_pubid : option ostr }.
Definition with_objs (d : doc) (t : rtree dval) : doc :=
  mkDoc t (d_enc d) (d_name d) (d_sysid d) (d_pubid d).

(** comps_default_doctype_*, comps_default.c:11-13. *)
Definition default_doctype_name : str := S_ "comps".
Definition default_doctype_sysid : str := S_ "comps.dtd".
Definition default_doctype_pubid : str := S_ "-//Red Hat, Inc.//DTD Comps info//EN".

(** comps_doc_create, comps_doc.c:32-46.  [None]: no argument array;
    [Some None]: an array holding a NULL pointer, which is dereferenced. *)
Definition doc_create (args : option (option ostr)) : res doc :=
  enc <- match args with
         | None => Ok None
         | Some None => UB
         | Some (Some e) => Ok (Some e)
         end ;;
  Ok (mkDoc rt_create enc (Some (Some default_doctype_name))
            (Some (Some default_doctype_sysid)) (Some (Some default_doctype_pubid))).

(** ** Accessors *)
Definition k_groups : str := S_ "groups".
Definition k_cats : str := S_ "categories".
Definition k_envs : str := S_ "environments".
Definition k_langpacks : str := S_ "langpacks".
Definition k_blacklist : str := S_ "blacklist".
Definition k_whiteout : str := S_ "whiteout".
Definition k_lang : str := S_ "lang".

(** COMPS_DOC_SETOBJLIST / SETOBJDICT / SETOBJMDICT / SETPROP,
    comps_doc.h:61-66, 103-108, 114-119, 206-211; a NULL argument is stored as
    such (comps_objdict_set of NULL). *)
Definition doc_put (d : doc) (k : str) (v : option dval) : res doc :=
  t <- rt_set (d_objs d) k v ;; Ok (with_objs d t).
Definition doc_set_groups (d : doc) (l : option (list group)) := doc_put d k_groups (option_map DGroups l).
Definition doc_set_cats (d : doc) (l : option (list category)) := doc_put d k_cats (option_map DCats l).
Definition doc_set_envs (d : doc) (l : option (list env)) := doc_put d k_envs (option_map DEnvs l).
Definition doc_set_langpacks (d : doc) (t : option (rtree ostr)) := doc_put d k_langpacks (option_map DDict t).
Definition doc_set_blacklist (d : doc) (t : option (@mtree ostr)) := doc_put d k_blacklist (option_map DMdict t).
Definition doc_set_whiteout (d : doc) (t : option (@mtree ostr)) := doc_put d k_whiteout (option_map DMdict t).
Definition doc_set_lang (d : doc) (s : option ostr) := doc_put d k_lang (option_map DStr s).

(** COMPS_DOC_GETOBJLIST / GETOBJDICT / GETOBJMDICT, comps_doc.h:44-55, 75-86,
    88-101: a missing object is created, stored and returned.  [pick] is the
    cast. *)
Definition doc_get {A} (pick : dval -> res A) (wrap : A -> dval) (dflt : A) (k : str) (d : doc) : res (doc * A) :=
  v <- rt_get (d_objs d) k ;;
  match v with
  | Some x => a <- pick x ;; Ok (d, a)
  | None => d' <- doc_put d k (Some (wrap dflt)) ;; Ok (d', dflt)
  end.
Definition as_groups (v : dval) : res (list group) := match v with DGroups l => Ok l | _ => UB end.
Definition as_cats (v : dval) : res (list category) := match v with DCats l => Ok l | _ => UB end.
Definition as_envs (v : dval) : res (list env) := match v with DEnvs l => Ok l | _ => UB end.
Definition as_dict (v : dval) : res (rtree ostr) := match v with DDict t => Ok t | _ => UB end.
Definition as_mdict (v : dval) : res (@mtree ostr) := match v with DMdict t => Ok t | _ => UB end.
Definition doc_groups := doc_get as_groups DGroups [] k_groups.
Definition doc_cats := doc_get as_cats DCats [] k_cats.
Definition doc_envs := doc_get as_envs DEnvs [] k_envs.
Definition doc_langpacks := doc_get as_dict DDict rt_create k_langpacks.
Definition doc_blacklist := doc_get as_mdict DMdict mt_create k_blacklist.
Definition doc_whiteout := doc_get as_mdict DMdict mt_create k_whiteout.

(** COMPS_DOC_ADDOBJLIST, comps_doc.h:122-137. *)
Definition doc_add_group (d : doc) (g : group) : res doc :=
  p <- doc_groups d ;; doc_put (fst p) k_groups (Some (DGroups (snd p ++ [g]))).
Definition doc_add_cat (d : doc) (c : category) : res doc :=
  p <- doc_cats d ;; doc_put (fst p) k_cats (Some (DCats (snd p ++ [c]))).
Definition doc_add_env (d : doc) (e : env) : res doc :=
  p <- doc_envs d ;; doc_put (fst p) k_envs (Some (DEnvs (snd p ++ [e]))).
(** COMPS_DOC_ADDOBJDICT, comps_doc.h:144-158. *)
Definition doc_add_langpack (d : doc) (k : str) (s : ostr) : res doc :=
  p <- doc_langpacks d ;; t <- rt_set (snd p) k (Some s) ;; doc_put (fst p) k_langpacks (Some (DDict t)).
(** COMPS_DOC_ADDOBJMDICT, comps_doc.h:167-181. *)
Definition doc_add_blacklist (d : doc) (k : str) (s : ostr) : res doc :=
  p <- doc_blacklist d ;; t <- mt_set (snd p) k s ;; doc_put (fst p) k_blacklist (Some (DMdict t)).
Definition doc_add_whiteout (d : doc) (k : str) (s : ostr) : res doc :=
  p <- doc_whiteout d ;; t <- mt_set (snd p) k s ;; doc_put (fst p) k_whiteout (Some (DMdict t)).

(** comps_doc_doctype_*_get 816-824 are the projections; the three setters,
    825-833, all replace [doctype_name]. *)
Definition doc_doctype_name_set (d : doc) (v : option ostr) : doc :=
  mkDoc (d_objs d) (d_enc d) v (d_sysid d) (d_pubid d).
Definition doc_doctype_sysid_set (d : doc) (v : option ostr) : doc :=
  mkDoc (d_objs d) (d_enc d) v (d_sysid d) (d_pubid d).
Definition doc_doctype_pubid_set (d : doc) (v : option ostr) : doc :=
  mkDoc (d_objs d) (d_enc d) v (d_sysid d) (d_pubid d).

(** ** Comparison *)
(** comps_objlist_cmp, comps_objlist.c:416-430, with an element comparison that
    walks dictionaries. *)
Fixpoint list_cmp_r {A} (eqv : A -> A -> res bool) (l1 l2 : list A) : res bool :=
  match l1, l2 with
  | [], [] => Ok true
  | x :: r1, y :: r2 => c <- eqv x y ;; if c then list_cmp_r eqv r1 r2 else Ok false
  | _, _ => Ok false
  end.
(** comps_objlist_cmp on the value lists of a multi-dictionary. *)
Fixpoint mval_cmp (a b : mval ostr) {struct a} : bool :=
  match a, b with
  | MV x, MV y => ostr_cmp x y
  | MNest l1, MNest l2 =>
      (fix go (l1 l2 : list (mval ostr)) {struct l1} : bool :=
         match l1, l2 with
         | [], [] => true
         | x :: r1, y :: r2 => if mval_cmp x y then go r1 r2 else false
         | _, _ => false
         end) l1 l2
  | _, _ => false
  end.
(** comps_doc_cmp_u, comps_doc.c:70-148; the getters may add empty parts to the
    two documents, which are returned. *)
Definition doc_cmp (d1 d2 : doc) : res (doc * doc * bool) :=
  if negb (obj_cmp ostr_cmp (d_enc d1) (d_enc d2)) then Ok (d1, d2, false)
  else if negb (obj_cmp ostr_cmp (d_name d1) (d_name d2)) then Ok (d1, d2, false)
  else if negb (obj_cmp ostr_cmp (d_sysid d1) (d_sysid d2)) then Ok (d1, d2, false)
  else if negb (obj_cmp ostr_cmp (d_pubid d1) (d_pubid d2)) then Ok (d1, d2, false)
  else
    p <- doc_cats d1 ;; q <- doc_cats d2 ;;
    c <- list_cmp_r category_cmp (snd p) (snd q) ;;
    if negb c then Ok (fst p, fst q, false) else
    p <- doc_groups (fst p) ;; q <- doc_groups (fst q) ;;
    c <- list_cmp_r group_cmp (snd p) (snd q) ;;
    if negb c then Ok (fst p, fst q, false) else
    p <- doc_envs (fst p) ;; q <- doc_envs (fst q) ;;
    c <- list_cmp_r env_cmp (snd p) (snd q) ;;
    if negb c then Ok (fst p, fst q, false) else
    p <- doc_langpacks (fst p) ;; q <- doc_langpacks (fst q) ;;
    c <- rt_cmp ostr_cmp (snd p) (snd q) ;;
    if negb c then Ok (fst p, fst q, false) else
    p <- doc_blacklist (fst p) ;; q <- doc_blacklist (fst q) ;;
    c <- mt_cmp (list_cmp mval_cmp) (snd p) (snd q) ;;
    if negb c then Ok (fst p, fst q, false) else
    p <- doc_whiteout (fst p) ;; q <- doc_whiteout (fst q) ;;
    c <- mt_cmp (list_cmp mval_cmp) (snd p) (snd q) ;;
    Ok (fst p, fst q, c).

(** ** Union *)
(** The set callbacks __comps_docgroup_idcmp etc.; reading a dictionary never
    fails (RTreeFacts.rt_get_look). *)
Definition idcmp_by {A} (base_of : A -> base) (a b : A) : bool :=
  match base_idcmp (base_of a) (base_of b) with Ok c => c | _ => false end.
Section Merge.
Context {A : Type} (idc : A -> A -> bool) (cp : A -> A) (un : A -> A -> res A).
(** comps_doc.c:295-311, 318-334, 342-361: a merged object is taken out of the
    set and put back at its end. *)
Fixpoint doc_merge (s : hsl A) (l2 : list A) : res (hsl A) :=
  match l2 with
  | [] => Ok s
  | x :: r =>
      if set_in idc s x then
        match set_data_at idc s x with
        | None => UB
        | Some y =>
            u <- un y x ;;
            p <- set_add idc (fst (set_remove idc s x)) u ;;
            doc_merge (fst p) r
        end
      else p <- set_add idc s (cp x) ;; doc_merge (fst p) r
  end.
Definition merge_lists (l1 l2 : list A) : res (list A) :=
  s <- set_add_all idc hs_empty (map cp l1) ;;
  s <- doc_merge s l2 ;;
  Ok (hitems s).
(** comps_doc.c:413-425, 430-442, 447-457: [un] is called with the second
    document's object first. *)
Fixpoint doc_common (s : hsl A) (l2 : list A) : res (list A) :=
  match l2 with
  | [] => Ok []
  | x :: r =>
      if set_in idc s x then
        match set_data_at idc s x with
        | None => UB
        | Some y => u <- un x y ;; out <- doc_common s r ;; Ok (u :: out)
        end
      else doc_common s r
  end.
Definition common_lists (l1 l2 : list A) : res (list A) :=
  s <- set_add_all idc hs_empty l1 ;; doc_common s l2.
End Merge.
(** Adding every object of a list, comps_doc.c:312-314, 335-337, 362-364. *)
Fixpoint add_all {A} (add : doc -> A -> res doc) (d : doc) (l : list A) : res doc :=
  match l with [] => Ok d | x :: r => d' <- add d x ;; add_all add d' r end.

(** comps_doc_union, comps_doc.c:273-382; the getters' additions of empty parts
    to the arguments are carried along but not returned. *)
Definition doc_union (c1 c2 : doc) : res doc :=
  g1 <- doc_groups c1 ;; k1 <- doc_cats (fst g1) ;; e1 <- doc_envs (fst k1) ;;
  r <- doc_create (Some (d_enc c1)) ;;
  g2 <- doc_groups c2 ;;
  gs <- merge_lists (idcmp_by g_base) group_copy group_union (snd g1) (snd g2) ;;
  r <- add_all doc_add_group r gs ;;
  k2 <- doc_cats (fst g2) ;;
  cs <- merge_lists (idcmp_by c_base) category_copy category_union (snd k1) (snd k2) ;;
  r <- add_all doc_add_cat r cs ;;
  e2 <- doc_envs (fst k2) ;;
  es <- merge_lists (idcmp_by e_base) env_copy env_union (snd e1) (snd e2) ;;
  r <- add_all doc_add_env r es ;;
  l1 <- doc_langpacks (fst e1) ;; l2 <- doc_langpacks (fst e2) ;;
  l <- rt_union ostr_copy (snd l1) (snd l2) ;;
  doc_set_langpacks r (Some l).

(** ** Intersection: comps_doc_intersect, comps_doc.c:396-466. *)
Definition doc_intersect (c1 c2 : doc) : res doc :=
  g1 <- doc_groups c1 ;; k1 <- doc_cats (fst g1) ;; e1 <- doc_envs (fst k1) ;;
  r <- doc_create (Some (d_enc c1)) ;;
  g2 <- doc_groups c2 ;;
  gs <- common_lists (idcmp_by g_base) group_intersect (snd g1) (snd g2) ;;
  r <- add_all doc_add_group r gs ;;
  k2 <- doc_cats (fst g2) ;;
  cs <- common_lists (idcmp_by c_base) category_intersect (snd k1) (snd k2) ;;
  r <- add_all doc_add_cat r cs ;;
  e2 <- doc_envs (fst k2) ;;
  es <- common_lists (idcmp_by e_base) env_intersect (snd e1) (snd e2) ;;
  add_all doc_add_env r es.

(** ** Architecture filter *)
(** The loop body of comps_doc.c:846-854, 857-865, 868-876. *)
Fixpoint filter_objs {A} (base_of : A -> base) (flt : A -> list ostr -> A) (arches : list ostr) (l : list A)
  : res (list A) :=
  match l with
  | [] => Ok []
  | x :: r =>
      a <- base_arches (base_of x) ;;
      out <- filter_objs base_of flt arches r ;;
      Ok (if arch_ok arches a then flt x arches :: out else out)
  end.
(** comps_doc_arch_filter, comps_doc.c:836-879. *)
Definition doc_arch_filter (d : doc) (arches : list ostr) : res doc :=
  r <- doc_create (Some (d_enc d)) ;;
  k <- doc_cats d ;;
  cs <- filter_objs c_base category_arch_filter arches (snd k) ;;
  r <- add_all doc_add_cat r cs ;;
  g <- doc_groups (fst k) ;;
  gs <- filter_objs g_base group_arch_filter arches (snd g) ;;
  r <- add_all doc_add_group r gs ;;
  e <- doc_envs (fst g) ;;
  es <- filter_objs e_base env_arch_filter arches (snd e) ;;
  add_all doc_add_env r es.

(** ** Queries *)
Section Query.
(** fnmatch(3): pattern, string, flags. *)
Variable fnm : str -> str -> Z -> bool.
(** comps_str_fnmatch, comps_obj.c:182-184, on a non-NULL string object. *)
Definition str_fnmatch (s : ostr) (pat : str) (flags : Z) : res bool :=
  match s with Some x => Ok (fnm pat x flags) | None => UB end.
(** The string property read as COMPS_Str. *)
Definition str_prop (b : base) (k : str) : res (option ostr) :=
  v <- base_get b k ;;
  match v with None => Ok None | Some (PStr s) => Ok (Some s) | Some _ => UB end.
(** [x && fnmatch(x, pat)] *)
Definition opt_match (s : option ostr) (pat : str) (flags : Z) : res bool :=
  match s with Some x => str_fnmatch x pat flags | None => Ok false end.
(** The id criterion, comps_doc.c:489-492, 547-550, 604-607. *)
Definition id_matched (b : base) (id : option str) (flags : Z) : res bool :=
  p <- str_prop b (S_ "id") ;;
  match id with Some pat => opt_match p pat flags | None => Ok false end.
(** The name criterion, 494-502, 552-559, 609-616. *)
Definition name_matched (b : base) (name lang : option str) (flags : Z) : res bool :=
  p <- str_prop b (S_ "name") ;;
  match name with
  | None => Ok false
  | Some pat =>
      match lang with
      | None => opt_match p pat flags
      | Some l => t <- rt_get (b_names b) l ;; opt_match t pat flags
      end
  end.
(** The description criterion of categories and environments, 561-568, 618-625. *)
Definition desc_matched (b : base) (desc lang : option str) (flags : Z) : res bool :=
  p <- str_prop b (S_ "desc") ;;
  match desc with
  | None => Ok false
  | Some pat =>
      match lang with
      | None => opt_match p pat flags
      | Some l => t <- rt_get (b_descs b) l ;; opt_match t pat flags
      end
  end.
(** The description criterion of groups, 504-511: the untranslated text is tried
    first even if [lang] is given. *)
Definition group_desc_matched (b : base) (desc lang : option str) (flags : Z) : res bool :=
  p <- str_prop b (S_ "desc") ;;
  match desc with
  | None => Ok false
  | Some pat =>
      m <- opt_match p pat flags ;;
      if m then Ok true else
      match lang with
      | None => Ok false
      | Some l => t <- rt_get (b_descs b) l ;; opt_match t pat flags
      end
  end.
Definition given (o : option str) : nat := match o with Some _ => 1 | None => 0 end.
Fixpoint query {A} (base_of : A -> base) (dm : base -> option str -> option str -> Z -> res bool)
  (id name desc lang : option str) (flags : Z) (l : list A) : res (list A) :=
  match l with
  | [] => Ok []
  | x :: r =>
      i <- id_matched (base_of x) id flags ;;
      n <- name_matched (base_of x) name lang flags ;;
      e <- dm (base_of x) desc lang flags ;;
      out <- query base_of dm id name desc lang flags r ;;
      Ok (if b2n i + b2n n + b2n e =? given id + given name + given desc then x :: out else out)
  end.
(** comps_doc_get_groups 468-523, get_categories 525-580, get_envs 582-637. *)
Definition doc_get_groups (d : doc) (id name desc lang : option str) (flags : Z) : res (list group) :=
  p <- doc_groups d ;; query g_base group_desc_matched id name desc lang flags (snd p).
Definition doc_get_categories (d : doc) (id name desc lang : option str) (flags : Z) : res (list category) :=
  p <- doc_cats d ;; query c_base desc_matched id name desc lang flags (snd p).
Definition doc_get_envs (d : doc) (id name desc lang : option str) (flags : Z) : res (list env) :=
  p <- doc_envs d ;; query e_base desc_matched id name desc lang flags (snd p).
End Query.
