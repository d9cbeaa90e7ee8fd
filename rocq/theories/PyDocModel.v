(** Model of the Python document object Comps (libcomps/src/python/src/pycomps.c).

    A Comps object holds a pointer to a document and one cached Python object
    per part (pycomps.h:65-74).  The lists and dictionaries of the parts are
    locations of a heap, because a cached object, the document and other
    documents may all point at the same one.

    Simplifications.  The dictionary [objects] of a document (comps_doc.h:226)
    is a map from its six parts to locations; [view] is the document of DocModel
    that it stands for.  A Python object holding a list or a dictionary
    (pycomps_types.h:38-60) never changes the pointer it holds once it is handed
    out (pycomps_sequence.c:547, pycomps_dict.c:60, pycomps_mdict.c:64 and
    pycomps.c:393 are the assignments), so a change made through it is a change
    of the value at its location ([OEdit]).  Nothing is freed: reference counts
    are in RefcModel.  Objects inside a list are values here; changing an object
    that is in two lists is two edits.  The getters comps_doc_groups etc. called
    within the library create empty parts; these calls are steps of their own
    ([OTouch]).  The text of a log entry (comps_log_entry_str) is a parameter;
    for the library's own formats see LogModel. *)
From Verif Require Import CStr HSListModel SetModel RTreeModel MRTreeModel ObjModel DocModel ParseModel XmlModel
  ValidateModel PyObjModel PyDictModel.

(** * Parts *)
(** The closures of pycomps.c:653-678. *)
Inductive part := Groups | Categories | Environments | Langpacks | Blacklist | Whiteout.
Definition all_parts : list part := [Groups; Categories; Environments; Langpacks; Blacklist; Whiteout].
Definition part_key (p : part) : str :=
  match p with
  | Groups => k_groups | Categories => k_cats | Environments => k_envs
  | Langpacks => k_langpacks | Blacklist => k_blacklist | Whiteout => k_whiteout
  end.
Definition part_eqb (a b : part) : bool :=
  match a, b with
  | Groups, Groups | Categories, Categories | Environments, Environments
  | Langpacks, Langpacks | Blacklist, Blacklist | Whiteout, Whiteout => true
  | _, _ => false
  end.
(** The Python types of the closures, 653-678. *)
Inductive ptype := TyGroups | TyCats | TyEnvs | TyStrDict | TyMDict.
Definition part_type (p : part) : ptype :=
  match p with
  | Groups => TyGroups | Categories => TyCats | Environments => TyEnvs
  | Langpacks => TyStrDict | Blacklist => TyMDict | Whiteout => TyMDict
  end.
Definition ptype_eqb (a b : ptype) : bool :=
  match a, b with
  | TyGroups, TyGroups | TyCats, TyCats | TyEnvs, TyEnvs | TyStrDict, TyStrDict | TyMDict, TyMDict => true
  | _, _ => false
  end.
(** COMPS_OBJECT_CREATE in the getters, comps_doc.h:44-101. *)
Definition empty_of (t : ptype) : dval :=
  match t with
  | TyGroups => DGroups [] | TyCats => DCats [] | TyEnvs => DEnvs []
  | TyStrDict => DDict rt_create | TyMDict => DMdict mt_create
  end.

Definition has_type (t : ptype) (v : dval) : bool :=
  match t, v with
  | TyGroups, DGroups _ | TyCats, DCats _ | TyEnvs, DEnvs _ | TyStrDict, DDict _ | TyMDict, DMdict _ => true
  | _, _ => false
  end.

(** * State *)
(** An entry of the log of a document: from the parser or from the writer. *)
Inductive logitem := FromParser (e : pentry) | FromWriter (e : Z * list (option pval)).
Definition is_error (i : logitem) : bool := match i with FromParser e => negb (pe_warn e) | FromWriter _ => true end.
(** PyCOMPS, pycomps.h:65-74, with the document it points at. *)
Record pydoc := mkPD {
  pd_objs : part -> option nat;      (* locations *)
  pd_enc : option ostr; pd_name : option ostr; pd_sysid : option ostr; pd_pubid : option ostr;
  pd_log : list logitem;
  pd_cache : part -> option nat }.   (* wrappers *)
(** [w_wraps]: the Python objects handed out, with their type and location. *)
Record world := mkWorld { w_heap : list dval; w_wraps : list (ptype * nat); w_docs : list pydoc }.
Definition start : world := mkWorld [] [] [].
Definition none {A} : part -> option A := fun _ => None.
Definition upd {A} (f : part -> option A) (p : part) (x : option A) : part -> option A :=
  fun q => if part_eqb p q then x else f q.
Fixpoint set_at {A} (l : list A) (i : nat) (x : A) : list A :=
  match l, i with
  | [], _ => []
  | _ :: r, 0 => x :: r
  | y :: r, S j => y :: set_at r j x
  end.
Definition at_ {A} (l : list A) (i : nat) : res A := match nth_error l i with Some x => Ok x | None => UB end.
Definition with_pd (w : world) (d : nat) (x : pydoc) : world :=
  mkWorld (w_heap w) (w_wraps w) (set_at (w_docs w) d x).
Definition with_objs_pd x o := mkPD o (pd_enc x) (pd_name x) (pd_sysid x) (pd_pubid x) (pd_log x) (pd_cache x).
Definition with_cache x c := mkPD (pd_objs x) (pd_enc x) (pd_name x) (pd_sysid x) (pd_pubid x) (pd_log x) c.
Definition with_log_pd x l := mkPD (pd_objs x) (pd_enc x) (pd_name x) (pd_sysid x) (pd_pubid x) l (pd_cache x).
Definition with_enc x e := mkPD (pd_objs x) e (pd_name x) (pd_sysid x) (pd_pubid x) (pd_log x) (pd_cache x).

(** The document of DocModel that a Comps object stands for. *)
Fixpoint put_all (w : world) (x : pydoc) (ps : list part) (t : rtree dval) : res (rtree dval) :=
  match ps with
  | [] => Ok t
  | p :: r =>
      t' <- match pd_objs x p with
            | Some l => v <- at_ (w_heap w) l ;; rt_set t (part_key p) (Some v)
            | None => Ok t
            end ;;
      put_all w x r t'
  end.
Definition view (w : world) (x : pydoc) : res doc :=
  t <- put_all w x all_parts rt_create ;; Ok (mkDoc t (pd_enc x) (pd_name x) (pd_sysid x) (pd_pubid x)).
(** A document of the library taken over: its parts become locations.  A part is
    cast to the type of its attribute (393), so that one of another type is
    [UB]. *)
Fixpoint adopt_parts (d : doc) (ps : list part) (h : list dval) (o : part -> option nat)
  : res (list dval * (part -> option nat)) :=
  match ps with
  | [] => Ok (h, o)
  | p :: r =>
      v <- rt_get (d_objs d) (part_key p) ;;
      match v with
      | Some x =>
          if has_type (part_type p) x then adopt_parts d r (h ++ [x]) (upd o p (Some (length h))) else UB
      | None => adopt_parts d r h o
      end
  end.
Definition adopt (h : list dval) (d : doc) (lg : list logitem) : res (list dval * pydoc) :=
  r <- adopt_parts d all_parts h none ;;
  Ok (fst r, mkPD (snd r) (d_enc d) (d_name d) (d_sysid d) (d_pubid d) lg none).

(** * Results *)
Inductive dexc := EType | EIO | EParser | EXmlGen | EValue (msg : str).
(** [DRetSet]: a result while an exception is set, for CPython a SystemError. *)
Inductive dres (R : Type) := DRet (r : R) | DRaise (e : dexc) | DRetSet (r : R).
Arguments DRet {R} r. Arguments DRaise {R} e. Arguments DRetSet {R} r.
Inductive outv := VNone | VWrap (w : nat) | VDoc (d : nat) | VNum (z : Z) | VTexts (l : list str) | VCalls (l : list (call * bool)).

(** * Option dictionaries *)
(** The argument: left out, a dict, or something else. *)
Inductive optarg := NoOpt | OptDict (l : list (str * pyval)) | OptOther.
(** PyDict_GetItemString. *)
Fixpoint lookup (l : list (str * pyval)) (k : str) : option pyval :=
  match l with [] => None | (x, v) :: r => if streq x k then Some v else lookup r k end.
(** The loop bodies of 65-71 and 111-117. *)
Definition opt_bool (l : list (str * pyval)) (k : str) (dflt : bool) : bool :=
  match lookup l k with Some (PyBool b) => b | _ => dflt end.
(** __pycomps_dict_to_xml_opts, pycomps.c:32-75.  The keys empty_langpacks,
    empty_blacklist and empty_whiteout set options nobody reads (XmlModel). *)
Definition xml_opts (l : list (str * pyval)) : xopts :=
  mkXO (opt_bool l (S_ "empty_groups") (x_empty_groups default_xopts))
       (opt_bool l (S_ "empty_categories") (x_empty_categories default_xopts))
       (opt_bool l (S_ "empty_environments") (x_empty_environments default_xopts))
       (opt_bool l (S_ "empty_packages") (x_empty_packages default_xopts))
       (opt_bool l (S_ "empty_grouplist") (x_empty_grouplist default_xopts))
       (opt_bool l (S_ "empty_optionlist") (x_empty_optionlist default_xopts))
       (opt_bool l (S_ "biarchonly_explicit") (x_biarchonly default_xopts))
       (opt_bool l (S_ "uservisible_explicit") (x_uservisible default_xopts))
       (opt_bool l (S_ "default_explicit") (x_default default_xopts))
       (opt_bool l (S_ "gid_default_explicit") (x_gid_default default_xopts))
       (opt_bool l (S_ "bao_explicit") (x_bao default_xopts))
       (opt_bool l (S_ "arch_output") (x_arch default_xopts)).
(** PyLong_AsLong: a bool is an int; -1 with an exception set otherwise.  64-bit
    long. *)
Definition as_long (v : pyval) : Z * bool :=
  match v with
  | PyBool b => ((if b then 1 else 0)%Z, false)
  | PyInt z => if ((- 9223372036854775808 <=? z) && (z <=? 9223372036854775807))%Z then (z, false) else ((-1)%Z, true)
  | _ => ((-1)%Z, true)
  end.
(** __pycomps_dict_to_def_opts, 77-122; the flag: an exception is left set. *)
Definition def_opts (l : list (str * pyval)) : dopts * bool :=
  let ty := match lookup l (S_ "default_pkgtype") with
            | Some v =>
                let z := fst (as_long v) in
                (if ((z =? PK_DEFAULT) || (z =? PK_OPTIONAL) || (z =? PK_CONDITIONAL) || (z =? PK_MANDATORY))%Z
                 then z else o_pkgtype default_dopts, snd (as_long v))
            | None => (o_pkgtype default_dopts, false)
            end in
  (mkDO (opt_bool l (S_ "default_uservisible") (o_uservisible default_dopts))
        (opt_bool l (S_ "default_biarchonly") (o_biarchonly default_dopts))
        (opt_bool l (S_ "default_default") (o_default default_dopts)) (fst ty), snd ty).
(** What the argument parser makes of them: [None] for a failure (a converter
    that returns 0; CPython sets TypeError). *)
Definition xml_arg (a : optarg) : option (option xopts) :=
  match a with NoOpt => Some None | OptDict l => Some (Some (xml_opts l)) | OptOther => None end.
Definition def_arg (a : optarg) : option (option dopts * bool) :=
  match a with
  | NoOpt => Some (None, false)
  | OptDict l => Some (Some (fst (def_opts l)), snd (def_opts l))
  | OptOther => None
  end.
(** Libcomps_xml_default, 940-979: the test is of the address of the option. *)
Local Open Scope string_scope. Local Open Scope list_scope.
Definition default_keys : list str := map S_
  ["empty_groups"; "empty_categories"; "empty_environments"; "empty_langpacks"; "empty_blacklist";
   "empty_whiteout"; "empty_packages"; "empty_grouplist"; "empty_optionlist"; "uservisible_explicit";
   "biarchonly_explicit"; "default_explicit"; "gid_default_explicit"; "bao_explicit"].
Definition xml_default : list (str * pyval) := map (fun k => (k, PyBool true)) default_keys.
Local Close Scope string_scope.

(** * Operations *)
(** A value assigned to an attribute: one of the library's objects, anything
    else, or NULL ([del]). *)
Inductive sarg := AWrap (w : nat) | AForeign | ADel.
Inductive dop :=
| ONew (enc : option str)                        (* Comps(), Comps(enc) *)
| OMake (t : ptype) (v : dval)                   (* GroupList(...), a slice, a sum, ... *)
| OEdit (wr : nat) (v : dval)                    (* a change made through a wrapper *)
| OTouch (d : nat) (p : part)
| OGet (d : nat) (p : part) | OSet (d : nat) (p : part) (a : sarg)
| OClear (d : nat)
| OLoadStr (d : nat) (f : feed) (o : optarg)
| OLoadFile (d : nat) (f : option (list feed)) (o : optarg)
| OSaveFile (d : nat) (fname : str) (saved : bool) (x o : optarg)
| OSaveStr (d : nat) (x o : optarg)
| OUnion (d e : nat) | OFilter (d : nat) (arches : list ostr).

Section Calls.
(** Parameters of ParseModel and XmlModel, and the text of a log entry. *)
Variable strict : bool.
Variable accepts : list (call * bool) -> call -> bool.
Variable text : logitem -> str.

(** PyCOMPS_new and PyCOMPS_init, 866-892; 892 keeps the name of the encoding. *)
Definition new_doc (w : world) (enc : str) : res (world * nat) :=
  d <- doc_create None ;;
  r <- adopt (w_heap w) d [] ;;
  Ok (mkWorld (fst r) (w_wraps w) (w_docs w ++ [with_enc (snd r) (Some (Some enc))]), length (w_docs w)).
(** COMPS_DOC_GETOBJLIST etc., comps_doc.h:44-101. *)
Definition touch (w : world) (d : nat) (p : part) : res (world * nat) :=
  x <- at_ (w_docs w) d ;;
  match pd_objs x p with
  | Some l => Ok (w, l)
  | None =>
      let l := length (w_heap w) in
      Ok (with_pd (mkWorld (w_heap w ++ [empty_of (part_type p)]) (w_wraps w) (w_docs w)) d
            (with_objs_pd x (upd (pd_objs x) p (Some l))), l)
  end.
(** PyCOMPS_get_, 380-399. *)
Definition get_attr (w : world) (d : nat) (p : part) : res (world * nat) :=
  x <- at_ (w_docs w) d ;;
  match pd_cache x p with
  | Some wr => Ok (w, wr)
  | None =>
      r <- touch w d p ;;
      let w' := fst r in
      x' <- at_ (w_docs w') d ;;
      let wr := length (w_wraps w') in
      Ok (with_pd (mkWorld (w_heap w') (w_wraps w' ++ [(part_type p, snd r)]) (w_docs w')) d
            (with_cache x' (upd (pd_cache x') p (Some wr))), wr)
  end.
(** PyCOMPS_set_, 442-460: 445 reads the type of NULL when the attribute is
    deleted. *)
Definition set_attr (w : world) (d : nat) (p : part) (a : sarg) : res (world * dres outv) :=
  x <- at_ (w_docs w) d ;;
  match a with
  | ADel => UB
  | AForeign => Ok (w, DRaise EType)
  | AWrap wr =>
      tl <- at_ (w_wraps w) wr ;;
      if ptype_eqb (fst tl) (part_type p)
      then Ok (with_pd w d (with_cache (with_objs_pd x (upd (pd_objs x) p (Some (snd tl)))) (upd (pd_cache x) p (Some wr))),
               DRet VNone)
      else Ok (w, DRaise EType)
  end.
(** PyCOMPS_clear, 203-214: the caches stay. *)
Definition clear (w : world) (d : nat) : res (world * dres outv) :=
  x <- at_ (w_docs w) d ;;
  n <- doc_create None ;;
  r <- adopt (w_heap w) n [] ;;
  Ok (with_pd (mkWorld (fst r) (w_wraps w) (w_docs w)) d (with_cache (with_enc (snd r) (pd_enc x)) (pd_cache x)), DRet VNone).

(** The end of 216-277 and 326-378: the document the parser made, or an empty
    one, replaces the old one, with the log of the parser and no caches. *)
Definition utf8_name : str := S_ "UTF-8".
Definition replace_doc (w : world) (d : nat) (st : pst) : res world :=
  new <- match ps_doc st with
         | PLive n => Ok n
         | PNull => doc_create (Some (Some (Some utf8_name)))
         | PFreed => UB
         end ;;
  r <- adopt (w_heap w) new (map FromParser (ps_log st)) ;;
  Ok (with_pd (mkWorld (fst r) (w_wraps w) (w_docs w)) d (snd r)).
Definition give {R} (pending : bool) (r : R) : dres R := if pending then DRetSet r else DRet r.
(** PyCOMPS_fromxml_f, 216-277.  [None]: the file could not be opened. *)
Definition load_file (w : world) (d : nat) (f : option (list feed)) (o : optarg) : res (world * dres outv) :=
  _ <- at_ (w_docs w) d ;;
  match def_arg o with
  | None => Ok (w, DRaise EType)
  | Some (df, pending) =>
      match f with
      | None => Ok (w, DRaise EIO)
      | Some fs =>
          r <- parse_file strict (parsed_init (Some utf8_name)) (Some fs) df ;;
          w' <- replace_doc w d (fst r) ;;
          Ok (w', if (snd r =? -1)%Z then DRaise EParser else give pending (VNum (snd r)))
      end
  end.
(** PyCOMPS_fromxml_str, 326-378. *)
Definition load_str (w : world) (d : nat) (f : feed) (o : optarg) : res (world * dres outv) :=
  _ <- at_ (w_docs w) d ;;
  match def_arg o with
  | None => Ok (w, DRaise EType)
  | Some (df, pending) =>
      r <- parse_str strict (parsed_init (Some utf8_name)) f df ;;
      if (snd r =? -1)%Z then Ok (w, DRaise EParser)
      else w' <- replace_doc w d (fst r) ;; Ok (w', give pending (VNum (snd r)))
  end.

(** A list of texts of log entries.  A text that is not UTF-8 makes a list with
    a NULL in it (166-167) or a Py_DECREF of NULL (296, 319). *)
Fixpoint texts (l : list logitem) : res (list str) :=
  match l with
  | [] => Ok []
  | i :: r => if utf8 (text i) then ts <- texts r ;; Ok (text i :: ts) else UB
  end.
(** PyCOMPS_toxml_f, 124-172. *)
Definition save_file (w : world) (d : nat) (fname : str) (saved : bool) (x o : optarg) : res (world * dres outv) :=
  y <- at_ (w_docs w) d ;;
  match xml_arg x, def_arg o with
  | Some xo, Some (df, pending) =>
      let y := with_log_pd (with_enc y (match pd_enc y with None => Some (Some utf8_name) | e => e end)) [] in
      v <- view w y ;;
      r <- comps2xml_f accepts fname saved xo df v (mkW [] []) ;;
      let y := with_log_pd y (map FromWriter (w_log (fst r))) in
      ts <- texts (pd_log y) ;;
      Ok (with_pd w d y, give (pending || (snd r =? -1)%Z) (VTexts ts))
  | _, _ => Ok (w, DRaise EType)
  end.
(** PyCOMPS_toxml_str, 174-197; the result is given by the calls of the writer. *)
Definition save_str (w : world) (d : nat) (x o : optarg) : res (world * dres outv) :=
  y <- at_ (w_docs w) d ;;
  match xml_arg x, def_arg o with
  | Some xo, Some (df, pending) =>
      v <- view w y ;;
      r <- comps2xml_str accepts xo df v (mkW [] []) ;;
      Ok (with_pd w d (with_log_pd y (pd_log y ++ map FromWriter (w_log (fst r)))),
          give pending (VCalls (w_calls (fst r))))
  | _, _ => Ok (w, DRaise EType)
  end.
(** A new Comps object for a document of the library, 899-919, 504-541: its log
    is empty. *)
Definition wrap_doc (w : world) (n : doc) : res (world * dres outv) :=
  r <- adopt (w_heap w) n [] ;;
  Ok (mkWorld (fst r) (w_wraps w) (w_docs w ++ [snd r]), DRet (VDoc (length (w_docs w)))).
(** PyCOMPS_union, 895-914, PyCOMPS_filter_arches, 504-541. *)
Definition union (w : world) (d e : nat) : res (world * dres outv) :=
  x <- at_ (w_docs w) d ;; y <- at_ (w_docs w) e ;;
  a <- view w x ;; b <- view w y ;; n <- doc_union a b ;; wrap_doc w n.
Definition filter_arches (w : world) (d : nat) (arches : list ostr) : res (world * dres outv) :=
  x <- at_ (w_docs w) d ;; a <- view w x ;; n <- doc_arch_filter a arches ;; wrap_doc w n.

Definition step_doc (w : world) (op : dop) : res (world * dres outv) :=
  match op with
  | ONew enc => r <- new_doc w (match enc with Some e => cut e | None => utf8_name end) ;; Ok (fst r, DRet (VDoc (snd r)))
  | OMake t v =>   (* [UB]: there is no such object, no such change *)
      if has_type t v
      then Ok (mkWorld (w_heap w ++ [v]) (w_wraps w ++ [(t, length (w_heap w))]) (w_docs w),
               DRet (VWrap (length (w_wraps w))))
      else UB
  | OEdit wr v =>
      tl <- at_ (w_wraps w) wr ;;
      if has_type (fst tl) v then Ok (mkWorld (set_at (w_heap w) (snd tl) v) (w_wraps w) (w_docs w), DRet VNone) else UB
  | OTouch d p => r <- touch w d p ;; Ok (fst r, DRet VNone)
  | OGet d p => r <- get_attr w d p ;; Ok (fst r, DRet (VWrap (snd r)))
  | OSet d p a => set_attr w d p a
  | OClear d => clear w d
  | OLoadStr d f o => load_str w d f o
  | OLoadFile d f o => load_file w d f o
  | OSaveFile d fname saved x o => save_file w d fname saved x o
  | OSaveStr d x o => save_str w d x o
  | OUnion d e => union w d e
  | OFilter d arches => filter_arches w d arches
  end.
Fixpoint run_docs (w : world) (ops : list dop) : res (world * list (dres outv)) :=
  match ops with
  | [] => Ok (w, [])
  | op :: r =>
      a <- step_doc w op ;; b <- run_docs (fst a) r ;; Ok (fst b, snd a :: snd b)
  end.

(** PyCOMPS_get_last_log, PyCOMPS_get_last_errors, 279-323. *)
Definition last_log (x : pydoc) : res (list str) := texts (pd_log x).
Definition last_errors (x : pydoc) : res (list str) := texts (filter is_error (pd_log x)).

(** * Questions about a document *)
(** PyCOMPS_validate, PyCOMPS_validate_nf, 612-651. *)
Definition validate (w : world) (x : pydoc) : res (dres outv) :=
  v <- view w x ;; r <- doc_validate v ;;
  match r with
  | VOk => Ok (DRet VNone)
  | VErr ((_, m) :: _) => Ok (DRaise (EValue m))
  | VErr [] => UB
  end.
Definition validate_nf (w : world) (x : pydoc) : res (list str) :=
  v <- view w x ;; r <- doc_validate v ;;
  match r with VOk => Ok [] | VErr l => Ok (map snd l) end.
(** PyCOMPS_cmp, 916-930.  The right operand is taken to be a Comps object. *)
Inductive dop2 := DSame (x : pydoc) | DForeign.
Inductive dcmp := DAnswer (b : bool) | DUnsupported.
Definition compare (w : world) (op : cmp_op) (x : pydoc) (y : dop2) : res dcmp :=
  match op with
  | OpEq | OpNe =>
      match y with
      | DForeign => UB
      | DSame y =>
          a <- view w x ;; b <- view w y ;; r <- doc_cmp a b ;;
          Ok (DAnswer (match op with OpEq => snd r | _ => negb (snd r) end))
      end
  | _ => Ok DUnsupported
  end.
End Calls.

(** * The operator + *)
(** An operand: of the type at hand, or of another type, whose own [+] does or
    does not take the other operand. *)
Inductive side (A : Type) := Mine (a : A) | NotMine (answers : bool).
Arguments Mine {A}. Arguments NotMine {A}.
Inductive sum (R : Type) := Sum (r : R) | SumTypeErr | SumElse.   (* [SumElse]: the left operand's answer *)
Arguments Sum {R}. Arguments SumTypeErr {R}. Arguments SumElse {R}.
(** The nb_add functions PyCOMPS_union (pycomps.c:895-914), PyCOMPSGroup_union,
    PyCOMPSGroups_union, PyCOMPSPacks_union (pycomps_groups.c:23-38, 461-478,
    605-622), PyCOMPSCat_union, PyCOMPSCats_union (pycomps_categories.c:23-39,
    343-360), PyCOMPSEnv_union, PyCOMPSEnvs_union (pycomps_envs.c:24-40, 365-382)
    check the type of [other] only; CPython calls them as well when only the right
    operand has the type. *)
Definition py_add {A R} (un : A -> A -> res R) (a b : side A) : res (sum R) :=
  match a, b with
  | Mine x, Mine y => r <- un x y ;; Ok (Sum r)
  | Mine _, NotMine _ => Ok SumTypeErr
  | NotMine true, _ => Ok SumElse
  | NotMine false, Mine _ => UB
  | NotMine false, NotMine _ => Ok SumElse
  end.
