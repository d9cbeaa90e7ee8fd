(** Model of comps_parse.c and comps_elem.c: the handlers that expat calls while
    it reads a comps file, the tables that describe the elements, and the two
    entry points that feed a file or a string to expat.

    expat itself is not modelled: a run of the parser is driven by a list of
    events (start tag, end tag, character data, doctype declaration), and every
    buffer handed to expat comes with the events it caused and, if expat refused
    it, the error message.  Line and column numbers of log entries are left out.
    Strings handed over by expat hold no NUL.  malloc is assumed to succeed.

    In C an object that is already in the document is changed through its
    pointer; here it is taken out of its list, changed and put back. *)
From Verif Require Import CStr HSListModel RTreeModel MRTreeModel ObjModel Dec StrModel DocModel.

(** ** Elements *)
(** COMPS_ElemType, comps_elem.h:34-60, without NONE and SENTINEL. *)
Inductive etype :=
| TUnknown | TDoc | TGroup | TId | TName | TDesc | TDefault | TLangonly | TUservisible
| TBiarchonly | TPackagelist | TPackagereq | TCategory | TGrouplist | TGroupid
| TDisplayorder | TEnv | TOptlist | TLangpacks | TMatch | TBlacklist | TPackage
| TWhiteout | TIgnoredep.
Definition etype_eqb (a b : etype) : bool :=
  match a, b with
  | TUnknown, TUnknown | TDoc, TDoc | TGroup, TGroup | TId, TId | TName, TName | TDesc, TDesc
  | TDefault, TDefault | TLangonly, TLangonly | TUservisible, TUservisible
  | TBiarchonly, TBiarchonly | TPackagelist, TPackagelist | TPackagereq, TPackagereq
  | TCategory, TCategory | TGrouplist, TGrouplist | TGroupid, TGroupid
  | TDisplayorder, TDisplayorder | TEnv, TEnv | TOptlist, TOptlist | TLangpacks, TLangpacks
  | TMatch, TMatch | TBlacklist, TBlacklist | TPackage, TPackage | TWhiteout, TWhiteout
  | TIgnoredep, TIgnoredep => true
  | _, _ => false
  end.

(** comps_elem_get_type, comps_elem.c:375-404 (the name is never NULL here). *)
Definition get_type (name : str) : etype :=
  if streq name (S_ "comps") then TDoc
  else if streq name (S_ "group") then TGroup
  else if streq name (S_ "id") then TId
  else if streq name (S_ "name") then TName
  else if streq name (S_ "description") then TDesc
  else if streq name (S_ "default") then TDefault
  else if streq name (S_ "uservisible") then TUservisible
  else if streq name (S_ "biarchonly") then TBiarchonly
  else if streq name (S_ "packagelist") then TPackagelist
  else if streq name (S_ "packagereq") then TPackagereq
  else if streq name (S_ "category") then TCategory
  else if streq name (S_ "grouplist") then TGrouplist
  else if streq name (S_ "groupid") then TGroupid
  else if streq name (S_ "display_order") then TDisplayorder
  else if streq name (S_ "langonly") then TLangonly
  else if streq name (S_ "environment") then TEnv
  else if streq name (S_ "optionlist") then TOptlist
  else if streq name (S_ "langpacks") then TLangpacks
  else if streq name (S_ "match") then TMatch
  else if streq name (S_ "blacklist") then TBlacklist
  else if streq name (S_ "package") then TPackage
  else if streq name (S_ "whiteout") then TWhiteout
  else if streq name (S_ "ignoredep") then TIgnoredep
  else TUnknown.

(** COMPS_ElemInfos, comps_elem.c:22-293.  The ancestors, without the sentinel;
    the empty list stands for COMPS_ELEM_NONE. *)
Definition ancestors (t : etype) : list etype :=
  match t with
  | TUnknown | TDoc => []
  | TGroup | TCategory | TEnv | TLangpacks | TBlacklist | TWhiteout => [TDoc]
  | TId | TName | TDesc | TDisplayorder => [TGroup; TCategory; TEnv]
  | TDefault | TLangonly | TUservisible | TBiarchonly | TPackagelist => [TGroup]
  | TPackagereq => [TPackagelist]
  | TGrouplist => [TCategory; TEnv]
  | TGroupid => [TGrouplist; TOptlist]
  | TOptlist => [TEnv]
  | TMatch => [TLangpacks]
  | TPackage => [TBlacklist]
  | TIgnoredep => [TWhiteout]
  end.
(** The attributes, without the terminating NULL. *)
Definition attributes (t : etype) : list str :=
  match t with
  | TGroup | TCategory | TEnv => [S_ "arch"]
  | TName | TDesc => [S_ "xml:lang"]
  | TPackagereq => [S_ "requires"; S_ "type"; S_ "basearchonly"; S_ "arch"]
  | TGroupid => [S_ "default"; S_ "arch"]
  | TMatch => [S_ "name"; S_ "install"]
  | TPackage => [S_ "name"; S_ "arch"]
  | TIgnoredep => [S_ "requires"; S_ "package"]
  | _ => []
  end.
(** The two tables that lack the terminating NULL, comps_elem.c:60, 70. *)
Definition unterminated (t : etype) : bool := match t with TName | TDesc => true | _ => false end.
(** The names in the tables, comps_elem.c:23, 30, ...; they only show up in log
    entries ("option_list" is the table's). *)
Definition info_name (t : etype) : str :=
  match t with
  | TUnknown => S_ "???" | TDoc => S_ "comps" | TGroup => S_ "group" | TId => S_ "id"
  | TName => S_ "name" | TDesc => S_ "description" | TDefault => S_ "default"
  | TLangonly => S_ "langonly" | TUservisible => S_ "uservisible"
  | TBiarchonly => S_ "biarchonly" | TPackagelist => S_ "packagelist"
  | TPackagereq => S_ "packagereq" | TCategory => S_ "category"
  | TGrouplist => S_ "grouplist" | TGroupid => S_ "groupid"
  | TDisplayorder => S_ "display_order" | TEnv => S_ "environment"
  | TOptlist => S_ "option_list" | TLangpacks => S_ "langpacks" | TMatch => S_ "match"
  | TBlacklist => S_ "blacklist" | TPackage => S_ "package" | TWhiteout => S_ "whiteout"
  | TIgnoredep => S_ "ignoredep"
  end.

(** COMPS_Elem, comps_elem.h:61-69.  [ancestor] is the element below in the
    stack; [name] is only read for elements of known type, where it is NULL. *)
Record elem := mkElem { el_type : etype; el_valid : bool; el_attrs : rtree str }.
(** comps_elem_create, comps_elem.c:895-929: the attributes go into a COMPS_Dict,
    whose code (comps_radix.c:189-344, 462-520) is that of comps_objradix.c. *)
Fixpoint attrs_dict (t : rtree str) (attrs : list (str * str)) : res (rtree str) :=
  match attrs with
  | [] => Ok t
  | (k, v) :: r => t' <- rt_set t k (Some v) ;; attrs_dict t' r
  end.

(** ** The state of a parser *)
(** A log entry: warning or error, code, the string arguments. *)
Record pentry := mkPE { pe_warn : bool; pe_code : Z; pe_args : list ostr }.
Definition perr (code : Z) (args : list ostr) : pentry := mkPE false code args.
Definition pwarn (code : Z) (args : list ostr) : pentry := mkPE true code args.
(** comps_log_codes.h:14-38. *)
Definition E_ALREADYSET : Z := 3.
Definition E_PARSER : Z := 4.
Definition E_DEFAULT_PARAM : Z := 5.
Definition E_NOPARENT : Z := 16.
Definition E_READFD : Z := 18.
Definition E_REQUIRED : Z := 21.
Definition E_LIST_EMPTY : Z := 22.
Definition E_TEXT_BETWEEN : Z := 23.
Definition E_NOCONTENT : Z := 24.
Definition E_ATTR_UNKNOWN : Z := 27.

(** COMPS_DefaultsOptions, comps_default.h:8-13; the default ones,
    comps_default.c:4-9. *)
Record dopts := mkDO { o_uservisible : bool; o_biarchonly : bool; o_default : bool; o_pkgtype : Z }.
Definition default_dopts : dopts := mkDO true false false PK_MANDATORY.

(** The pointer comps_doc: NULL, dangling, or to a live document. *)
Inductive docptr := PNull | PFreed | PLive (d : doc).
Definition live (p : docptr) : res doc := match p with PLive d => Ok d | _ => UB end.

(** COMPS_Parsed, comps_parse.h:47-65.  [ps_text], [ps_len]: text_buffer and
    text_buffer_len.  tmp_buffer only lives within the end tag handler.
    [ps_doctype]: the objects doctype_name, doctype_sysid, doctype_pubid, which
    are set together. *)
Record pst := mkP {
  ps_stack : list elem; ps_text : list str; ps_len : nat; ps_doc : docptr;
  ps_log : list pentry; ps_fatal : bool; ps_doctype : option (ostr * ostr * ostr);
  ps_enc : ostr; ps_opts : dopts }.
Definition with_stack st s := mkP s (ps_text st) (ps_len st) (ps_doc st) (ps_log st) (ps_fatal st) (ps_doctype st) (ps_enc st) (ps_opts st).
Definition with_text st t n := mkP (ps_stack st) t n (ps_doc st) (ps_log st) (ps_fatal st) (ps_doctype st) (ps_enc st) (ps_opts st).
Definition with_doc st d := mkP (ps_stack st) (ps_text st) (ps_len st) d (ps_log st) (ps_fatal st) (ps_doctype st) (ps_enc st) (ps_opts st).
Definition logged st (es : list pentry) := mkP (ps_stack st) (ps_text st) (ps_len st) (ps_doc st) (ps_log st ++ es) (ps_fatal st) (ps_doctype st) (ps_enc st) (ps_opts st).
Definition with_fatal st b := mkP (ps_stack st) (ps_text st) (ps_len st) (ps_doc st) (ps_log st) b (ps_doctype st) (ps_enc st) (ps_opts st).
Definition with_doctype st x := mkP (ps_stack st) (ps_text st) (ps_len st) (ps_doc st) (ps_log st) (ps_fatal st) x (ps_enc st) (ps_opts st).
Definition with_opts st o := mkP (ps_stack st) (ps_text st) (ps_len st) (ps_doc st) (ps_log st) (ps_fatal st) (ps_doctype st) (ps_enc st) o.

(** comps_parse_parsed_init, comps_parse.c:48-87. *)
Definition parsed_init (enc : ostr) : pst :=
  mkP [] [] 0 PNull [] false None enc default_dopts.

(** ** The object being read: the last one of its list *)
Definition split_last {A} (l : list A) : res (list A * A) :=
  match rev l with [] => UB | x :: r => Ok (rev r, x) end.
(** list = comps_doc_X(parsed->comps_doc); list->last->comps_obj. *)
Definition upd_last_group {A} (d : doc) (f : group -> res (group * A)) : res (doc * A) :=
  p <- doc_groups d ;; q <- split_last (snd p) ;; r <- f (snd q) ;;
  d' <- doc_set_groups (fst p) (Some (fst q ++ [fst r])) ;; Ok (d', snd r).
Definition upd_last_cat {A} (d : doc) (f : category -> res (category * A)) : res (doc * A) :=
  p <- doc_cats d ;; q <- split_last (snd p) ;; r <- f (snd q) ;;
  d' <- doc_set_cats (fst p) (Some (fst q ++ [fst r])) ;; Ok (d', snd r).
Definition upd_last_env {A} (d : doc) (f : env -> res (env * A)) : res (doc * A) :=
  p <- doc_envs d ;; q <- split_last (snd p) ;; r <- f (snd q) ;;
  d' <- doc_set_envs (fst p) (Some (fst q ++ [fst r])) ;; Ok (d', snd r).
(** The three dictionaries of that object. *)
Inductive owner := OGroup | OCat | OEnv.
Definition upd_base {A} (o : owner) (d : doc) (f : base -> res (base * A)) : res (doc * A) :=
  match o with
  | OGroup => upd_last_group d (fun g => r <- f (g_base g) ;; Ok (mkG (fst r) (g_pkgs g), snd r))
  | OCat => upd_last_cat d (fun c => r <- f (c_base c) ;; Ok (mkC (fst r) (c_gids c), snd r))
  | OEnv => upd_last_env d (fun e => r <- f (e_base e) ;; Ok (mkE (fst r) (e_groups e) (e_options e), snd r))
  end.
(** elem->ancestor->type, elem->ancestor->ancestor->type. *)
Definition parent_type (anc : list elem) : res etype := match anc with a :: _ => Ok (el_type a) | [] => UB end.
Definition grand_type (anc : list elem) : res etype := match anc with _ :: a :: _ => Ok (el_type a) | _ => UB end.

(** ** Start tag callbacks (preproc) *)
(** comps_package_get_type, comps_elem.c:406-412. *)
Definition package_get_type (s : str) : Z :=
  if streq s (S_ "default") then PK_DEFAULT
  else if streq s (S_ "optional") then PK_OPTIONAL
  else if streq s (S_ "conditional") then PK_CONDITIONAL
  else if streq s (S_ "mandatory") then PK_MANDATORY
  else PK_UNKNOWN.
(** The object with the architectures of the attribute "arch", comps_elem.c:455-465,
    502-511, 527-536. *)
Definition base_of_attrs (attrs : rtree str) : res base :=
  a <- rt_get attrs (S_ "arch") ;;
  match a with
  | Some s => base_set_arches base_create (Some (split_arches s))
  | None => Ok base_create
  end.
(** comps_elem_packagereq_preproc, 597-615. *)
Definition pkg_of_attrs (o : dopts) (attrs : rtree str) : res pkg :=
  ty <- rt_get attrs (S_ "type") ;;
  rq <- rt_get attrs (S_ "requires") ;;
  bo <- rt_get attrs (S_ "basearchonly") ;;
  ar <- rt_get attrs (S_ "arch") ;;
  Ok (mkPkg None
        (match rq with Some s => Some (Some s) | None => None end)
        (match bo with Some s => if streq s (S_ "true") then Some 1%Z else None | None => None end)
        (match ty with Some s => package_get_type s | None => o_pkgtype o end)
        (match ar with Some s => Some (split_arches s) | None => None end)).
(** comps_elem_groupid_preproc, 637-643, 662-668. *)
Definition gid_of_attrs (attrs : rtree str) : res gid :=
  df <- rt_get attrs (S_ "default") ;;
  ar <- rt_get attrs (S_ "arch") ;;
  Ok (mkGid None
        (match df with Some s => streq s (S_ "true") | None => false end)
        (match ar with Some s => Some (split_arches s) | None => None end)).
(** Where a group id belongs, 644-661, 673-693. *)
Inductive gplace := GOption | GEnv | GCat.
Definition gid_place (anc : list elem) : res gplace :=
  p <- parent_type anc ;;
  if etype_eqb p TOptlist then Ok GOption
  else g <- grand_type anc ;; if etype_eqb g TEnv then Ok GEnv else Ok GCat.
(** comps_elem_{match,package,ignoredep}_preproc, 696-710: a missing key is a
    NULL pointer given to strlen, a missing value a string without text. *)
Definition pair_of_attrs (attrs : rtree str) (kk vk : str) : res (str * ostr) :=
  k <- rt_get attrs kk ;; v <- rt_get attrs vk ;;
  match k with Some k => Ok (k, v) | None => UB end.

Definition preproc (o : dopts) (enc : ostr) (el : elem) (anc : list elem) (p : docptr) : res docptr :=
  let attrs := el_attrs el in
  match el_type el with
  | TDoc => (* 449-454 *) d <- doc_create (Some (Some enc)) ;; Ok (PLive d)
  | TGroup => (* 455-465 *)
      d <- live p ;; b <- base_of_attrs attrs ;; d' <- doc_add_group d (mkG b []) ;; Ok (PLive d')
  | TCategory => (* 502-511 *)
      d <- live p ;; b <- base_of_attrs attrs ;; d' <- doc_add_cat d (mkC b []) ;; Ok (PLive d')
  | TEnv => (* 527-536 *)
      d <- live p ;; b <- base_of_attrs attrs ;; d' <- doc_add_env d (mkE b [] []) ;; Ok (PLive d')
  | TPackagereq => (* 587-616 *)
      d <- live p ;; k <- pkg_of_attrs o attrs ;;
      r <- upd_last_group d (fun g => Ok (group_add_pkg g k, tt)) ;; Ok (PLive (fst r))
  | TGroupid => (* 633-669 *)
      d <- live p ;; i <- gid_of_attrs attrs ;; w <- gid_place anc ;;
      r <- match w with
           | GOption => upd_last_env d (fun e => Ok (env_add_option e i, tt))
           | GEnv => upd_last_env d (fun e => Ok (env_add_group e i, tt))
           | GCat => upd_last_cat d (fun c => Ok (category_add_gid c i, tt))
           end ;;
      Ok (PLive (fst r))
  | TMatch => (* 696-700 *)
      d <- live p ;; kv <- pair_of_attrs attrs (S_ "name") (S_ "install") ;;
      d' <- doc_add_langpack d (fst kv) (snd kv) ;; Ok (PLive d')
  | TPackage => (* 701-705 *)
      d <- live p ;; kv <- pair_of_attrs attrs (S_ "name") (S_ "arch") ;;
      d' <- doc_add_blacklist d (fst kv) (snd kv) ;; Ok (PLive d')
  | TIgnoredep => (* 706-710 *)
      d <- live p ;; kv <- pair_of_attrs attrs (S_ "requires") (S_ "package") ;;
      d' <- doc_add_whiteout d (fst kv) (snd kv) ;; Ok (PLive d')
  | _ => Ok p
  end.

(** ** End tag callbacks (postproc) *)
(** sscanf(s, "%d", &val): [None] if nothing is converted.  A number outside the
    range of int is undefined (C11 7.21.6.2p10). *)
Definition is_space (c : ascii) : bool :=
  let n := nat_of_ascii c in (n =? 32) || ((9 <=? n) && (n <=? 13)).
Fixpoint skip_space (s : str) : str :=
  match s with c :: r => if is_space c then skip_space r else s | [] => [] end.
Fixpoint take_digits (s : str) : str :=
  match s with c :: r => if is_digit c then c :: take_digits r else [] | [] => [] end.
Definition in_int (z : Z) : bool := ((- 2147483648 <=? z) && (z <=? 2147483647))%Z.
Definition scan_int (s : str) : res (option Z) :=
  let s := skip_space s in
  let '(neg, s) := match s with
                   | c :: r => if Ascii.eqb c "-" then (true, r)
                               else if Ascii.eqb c "+" then (false, r) else (false, s)
                   | [] => (false, [])
                   end in
  match take_digits s with
  | [] => Ok None
  | ds => let n := Z.of_N (value ds) in
          let z := if neg then (- n)%Z else n in
          if in_int z then Ok (Some z) else UB
  end.

(** __comps_check_required_param, __comps_check_allready_set, 417-435. *)
Definition check_required (b : base) (k shown : str) : res (list pentry) :=
  v <- base_get b k ;;
  Ok match v with None => [perr E_REQUIRED [Some shown]] | Some _ => [] end.
Definition check_already {V} (v : option V) (shown : str) : list pentry :=
  match v with Some _ => [perr E_ALREADYSET [Some shown]] | None => [] end.
Definition required (b : base) : res (list pentry) :=
  e1 <- check_required b (S_ "id") (S_ "id") ;;
  e2 <- check_required b (S_ "name") (S_ "name") ;;
  e3 <- check_required b (S_ "desc") (S_ "description") ;;
  Ok (e1 ++ e2 ++ e3).
(** 478-498: a property that the file did not give gets its default. *)
Definition fill (b : base) (k : str) (dflt : bool) : res base :=
  v <- base_get b k ;;
  match v with None => base_set_num b k (Some (if dflt then 1%Z else 0%Z)) | Some _ => Ok b end.
(** comps_objdict_set_x of a string on the properties. *)
Definition set_prop_str (b : base) (k s : str) : res base :=
  p <- rt_set (b_props b) k (Some (PStr (Some s))) ;; Ok (mkB p (b_names b) (b_descs b)).
(** "false" and "true", 776-785, 802-811, 818-827. *)
Definition set_bool (b : base) (k : str) (tmp : ostr) : res (base * list pentry) :=
  let is w := match tmp with Some s => streq s (S_ w) | None => false end in
  if is "false"%string then b' <- base_set_num b k (Some 0%Z) ;; Ok (b', [])
  else if is "true"%string then b' <- base_set_num b k (Some 1%Z) ;; Ok (b', [])
  else Ok (b, [pwarn E_DEFAULT_PARAM [tmp]]).
(** strcmp(parsed->tmp_buffer, ...): the pointer must not be NULL. *)
Definition non_null {A} (s : option A) : res A := match s with Some x => Ok x | None => UB end.

(** comps_elem_idnamedesc_postproc, 743-769, on the object's dictionaries. *)
Definition set_text (t : etype) (attrs : rtree str) (s : str) (b : base) : res (base * list pentry) :=
  let plain k := v <- base_get b k ;; b' <- set_prop_str b k s ;; Ok (b', check_already v k) in
  match t with
  | TId => plain (S_ "id")
  | TName =>
      lang <- rt_get attrs (S_ "xml:lang") ;;
      match lang with
      | Some l => b' <- base_set_name b l (Some s) ;; Ok (b', [])
      | None => plain (S_ "name")
      end
  | _ =>
      lang <- rt_get attrs (S_ "xml:lang") ;;
      match lang with
      | Some l => b' <- base_set_desc b l (Some s) ;; Ok (b', [])
      | None => plain (S_ "desc")
      end
  end.
(** comps_elem_display_order_postproc, 854-863: an existing number is warned
    about -- with elem->name, which is NULL -- and overwritten in place. *)
Definition set_order (tmp : ostr) (b : base) : res (base * list pentry) :=
  v <- base_get b (S_ "display_order") ;;
  s <- non_null tmp ;;
  n <- scan_int s ;;
  match v with
  | None =>
      b' <- base_set_num b (S_ "display_order") (Some match n with Some z => z | None => 0%Z end) ;;
      Ok (b', [])
  | Some (PNum old) =>
      b' <- base_set_num b (S_ "display_order") (Some match n with Some z => z | None => old end) ;;
      Ok (b', [pwarn E_ALREADYSET [None]])
  | Some _ => UB
  end.
(** comps_docpackage_set_name on the last package of a group, 618-622;
    comps_docgroupid_set_name on the last group id of a list, 671-691. *)
Definition name_last_pkg (l : list pkg) (s : str) : res (list pkg) :=
  q <- split_last l ;; Ok (fst q ++ [pkg_set_name (snd q) (Some s)]).
Definition name_last_gid (l : list gid) (s : ostr) : res (list gid) :=
  q <- split_last l ;; Ok (fst q ++ [gid_set_name (snd q) s]).

(** Returns the document, the new log entries and what is left in tmp_buffer. *)
Definition postproc (o : dopts) (el : elem) (anc : list elem) (p : docptr) (tmp : ostr)
  : res (docptr * list pentry * ostr) :=
  let done r := Ok (PLive (fst r), snd r, tmp) in
  let used r := Ok (PLive (fst r), snd r, None) in
  match el_type el with
  | TGroup => (* 466-500 *)
      d <- live p ;;
      r <- upd_last_group d (fun g =>
             es <- required (g_base g) ;;
             b1 <- fill (g_base g) (S_ "def") (o_default o) ;;
             b2 <- fill b1 (S_ "uservisible") (o_uservisible o) ;;
             b3 <- fill b2 (S_ "biarchonly") (o_biarchonly o) ;;
             Ok (mkG b3 (g_pkgs g), es)) ;;
      done r
  | TCategory => (* 512-526 *)
      d <- live p ;; r <- upd_base OCat d (fun b => es <- required b ;; Ok (b, es)) ;; done r
  | TEnv => (* 537-551 *)
      d <- live p ;; r <- upd_base OEnv d (fun b => es <- required b ;; Ok (b, es)) ;; done r
  | TGrouplist => (* 552-566; a category is used as an environment, whose first
       members have the same layout, comps_doccategory.h:41-46, comps_docenv.h:40-46 *)
      pt <- parent_type anc ;; d <- live p ;;
      let empty (l : list gid) := match l with [] => [perr E_LIST_EMPTY [Some (info_name TGrouplist)]] | _ => [] end in
      r <- (if etype_eqb pt TEnv then upd_last_env d (fun e => Ok (e, empty (e_groups e)))
            else upd_last_cat d (fun c => Ok (c, empty (c_gids c)))) ;;
      done r
  | TPackagelist => (* 575-585 *)
      d <- live p ;;
      r <- upd_last_group d (fun g =>
             Ok (g, match g_pkgs g with [] => [perr E_LIST_EMPTY [Some (info_name TPackagelist)]] | _ => [] end)) ;;
      done r
  | TPackagereq => (* 617-631 *)
      d <- live p ;;
      match tmp with
      | Some s =>
          r <- upd_last_group d (fun g => l <- name_last_pkg (g_pkgs g) s ;; Ok (mkG (g_base g) l, [])) ;; used r
      | None =>
          q <- doc_groups d ;; used (fst q, [perr E_NOCONTENT [Some (info_name TPackagereq)]])
      end
  | TGroupid => (* 670-695 *)
      d <- live p ;; w <- gid_place anc ;;
      r <- match w with
           | GOption => upd_last_env d (fun e => l <- name_last_gid (e_options e) tmp ;; Ok (mkE (e_base e) (e_groups e) l, []))
           | GEnv => upd_last_env d (fun e => l <- name_last_gid (e_groups e) tmp ;; Ok (mkE (e_base e) l (e_options e), []))
           | GCat => upd_last_cat d (fun c => l <- name_last_gid (c_gids c) tmp ;; Ok (mkC (c_base c) l, []))
           end ;;
      used r
  | TId | TName | TDesc => (* 711-771 *)
      pt <- parent_type anc ;; d <- live p ;;
      let o := if etype_eqb pt TGroup then OGroup else if etype_eqb pt TCategory then OCat else OEnv in
      match tmp with
      | None => r <- upd_base o d (fun b => Ok (b, [perr E_NOCONTENT [Some (info_name (el_type el))]])) ;; done r
      | Some s => r <- upd_base o d (set_text (el_type el) (el_attrs el) s) ;; used r
      end
  | TDefault => (* 772-788: __comps_strcmp accepts NULL *)
      d <- live p ;; r <- upd_base OGroup d (fun b => set_bool b (S_ "def") tmp) ;; used r
  | TLangonly => (* 789-798 *)
      d <- live p ;;
      r <- upd_base OGroup d (fun b =>
             v <- base_get b (S_ "langonly") ;; b' <- base_set_str b (S_ "langonly") tmp ;;
             Ok (b', check_already v (S_ "langonly"))) ;;
      used r
  | TUservisible => (* 799-814 *)
      d <- live p ;; s <- non_null tmp ;;
      r <- upd_base OGroup d (fun b => set_bool b (S_ "uservisible") tmp) ;; used r
  | TBiarchonly => (* 815-831 *)
      d <- live p ;; s <- non_null tmp ;;
      r <- upd_base OGroup d (fun b => set_bool b (S_ "biarchonly") tmp) ;; used r
  | TDisplayorder => (* 832-865 *)
      pt <- parent_type anc ;; d <- live p ;;
      let o := if etype_eqb pt TCategory then OCat else if etype_eqb pt TEnv then OEnv else OGroup in
      r <- upd_base o d (set_order tmp) ;; used r
  | _ => Ok (p, [], tmp)
  end.

(** ** The handlers *)
Inductive event :=
| EStart (name : str) (attrs : list (str * str))
| EEnd (name : str)
| EChars (s : str)
| EDoctype (name sysid pubid : ostr).

Section Handlers.
(** [strict]: reading past the end of an unterminated attribute table is
    undefined.  Otherwise the word behind the table is taken to be NULL, which
    is what the functions need to work at all. *)
Variable strict : bool.

(** comps_parse_check_attributes, comps_parse.c:438-471: the first key equal to
    a known attribute is dropped, for every known attribute. *)
Fixpoint drop_key (k : str) (l : list str) : list str :=
  match l with [] => [] | x :: r => if streq x k then r else x :: drop_key k r end.
Definition check_attributes (t : etype) (attrs : rtree str) : res (list pentry) :=
  if strict && unterminated t then UB
  else keys <- rt_keys attrs ;;
       Ok (map (fun k => pwarn E_ATTR_UNKNOWN [Some k; Some (info_name t)])
               (fold_left (fun l k => drop_key k l) (attributes t) keys)).

(** comps_parse.c:354-371. *)
Definition elem_valid (t : etype) (stack : list elem) : bool :=
  match ancestors t with
  | [] => negb (etype_eqb t TUnknown)
  | l => match stack with
         | [] => false
         | a :: _ => existsb (fun x => etype_eqb x (el_type a) && el_valid a) l
         end
  end.

(** comps_parse_start_elem_handler, 334-407. *)
Definition start_handler (st : pst) (name : str) (attrs : list (str * str)) : res pst :=
  let t := get_type name in
  dict <- attrs_dict rt_create attrs ;;
  let el := mkElem t (elem_valid t (ps_stack st)) dict in
  let st1 := if el_valid el then st else logged st [perr E_NOPARENT [Some name]] in
  let st2 := match ps_text st1 with
             | [] => st1
             | s :: _ => with_text (logged st1 [perr E_TEXT_BETWEEN [Some s]]) [] 0
             end in
  let st3 := with_stack st2 (el :: ps_stack st2) in
  es <- check_attributes t dict ;;
  let st4 := logged st3 es in
  if el_valid el then d <- preproc (ps_opts st4) (ps_enc st4) el (ps_stack st) (ps_doc st4) ;; Ok (with_doc st4 d)
  else Ok st4.

(** comps_parse_end_elem_handler, 275-326.  287-304: the collected text. *)
Fixpoint concat_text (size : nat) (b : str) (l : list str) : res str :=
  match l with [] => Ok b | s :: r => if length (b ++ s) <? size then concat_text size (b ++ s) r else UB end.
Definition all_text (chunks : list str) (len : nat) : res ostr :=
  match len with
  | O => match chunks with [] => Ok None | _ => UB end
  | _ => s <- concat_text (S len) [] chunks ;; Ok (Some s)
  end.
Definition end_handler (st : pst) (name : str) : res pst :=
  tmp <- all_text (ps_text st) (ps_len st) ;;
  let st1 := with_text st [] 0 in
  match ps_stack st1 with
  | [] => UB
  | el :: anc =>
      if etype_eqb (get_type name) (el_type el) then
        r <- (if el_valid el then postproc (ps_opts st1) el anc (ps_doc st1) tmp
              else Ok (ps_doc st1, [], tmp)) ;;
        let '(d, es, tmp') := r in
        let es' := match tmp' with Some s => if el_valid el then [perr E_TEXT_BETWEEN [Some s]] else [] | None => [] end in
        Ok (with_stack (logged (with_doc st1 d) (es ++ es')) anc)
      else Ok st1
  end.

(** comps_parse_char_data_handler, 410-436, with __comps_is_whitespace_only
    33-40 (isspace of a byte above 127 is taken to be false). *)
Definition chars_handler (st : pst) (s : str) : pst :=
  if forallb is_space s then st
  else with_text st (ps_text st ++ [s]) (ps_len st + length s).

(** comps_parse_start_doctype, 129-139. *)
Definition doctype_handler (st : pst) (name sysid pubid : ostr) : pst :=
  with_doctype st (Some (name, sysid, pubid)).

Definition step (st : pst) (e : event) : res pst :=
  match e with
  | EStart n a => start_handler st n a
  | EEnd n => end_handler st n
  | EChars s => Ok (chars_handler st s)
  | EDoctype n s p => Ok (doctype_handler st n s p)
  end.
Fixpoint run (st : pst) (es : list event) : res pst :=
  match es with [] => Ok st | e :: r => st' <- step st e ;; run st' r end.

(** ** Entry points *)
(** A buffer given to XML_Parse or XML_ParseBuffer: the events it causes, and
    the error message if expat reports failure. *)
Definition feed := (list event * option str)%type.
Fixpoint run_feeds (st : pst) (fs : list feed) : res pst :=
  match fs with
  | [] => Ok st
  | (es, err) :: r =>
      st' <- run st es ;;
      run_feeds (match err with
                 | None => st'
                 | Some m => with_fatal (logged st' [perr E_PARSER [Some m]]) true
                 end) r
  end.
(** __comps_after_parse, 178-200. *)
Definition after_parse (st : pst) : res pst :=
  match ps_doctype st, ps_doc st with
  | None, _ | _, PNull => Ok st
  | Some _, PFreed => UB
  | Some (n, s, p), PLive d =>
      Ok (with_doc st (PLive (mkDoc (d_objs d) (d_enc d) (Some n) (Some s) (Some p))))
  end.
(** 242-247, 267-272. *)
Definition parse_code (st : pst) : Z :=
  match ps_fatal st, ps_log st with
  | false, [] => 0%Z
  | false, _ => 1%Z
  | true, _ => (-1)%Z
  end.
(** comps_parse_parsed_reinit, 89-110: text_buffer_len keeps its value and
    comps_doc keeps pointing at the object it gave up.  The document is taken to
    be owned by the parser alone. *)
Definition reinit (st : pst) : res pst :=
  match ps_doc st with
  | PFreed => UB
  | p => Ok (mkP [] [] (ps_len st) (match p with PLive _ => PFreed | x => x end) [] false None (ps_enc st) (ps_opts st))
  end.
(** comps_parse_file, 202-248.  [None]: no file. *)
Definition parse_file (st : pst) (f : option (list feed)) (o : option dopts) : res (pst * Z) :=
  match f with
  | None => Ok (with_fatal (logged st [perr E_READFD []]) true, (-1)%Z)
  | Some fs =>
      st1 <- reinit st ;;
      st2 <- run_feeds (with_opts st1 (match o with Some x => x | None => default_dopts end)) fs ;;
      st3 <- after_parse st2 ;;
      Ok (st3, parse_code st3)
  end.
(** comps_parse_str, 250-273. *)
Definition parse_str (st : pst) (f : feed) (o : option dopts) : res (pst * Z) :=
  st2 <- run_feeds (with_opts st (match o with Some x => x | None => default_dopts end)) [f] ;;
  st3 <- after_parse st2 ;;
  Ok (st3, parse_code st3).
(** comps_parse_parsed_destroy, 112-122: the document is given up once more. *)
Definition parsed_destroy (st : pst) : res unit :=
  match ps_doc st with PFreed => UB | _ => Ok tt end.
End Handlers.
