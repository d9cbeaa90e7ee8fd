(** Model of the code that saves a document: comps2xml_f, comps2xml_str and
    comps_doc_xml (comps_doc.c), comps_docgroup_xml, comps_doccategory_xml,
    comps_docenv_xml, comps_docpackage_xml, comps_docgroupid_xml, and the helpers
    of comps_utils.c.

    libxml2's text writer is not modelled: saving is the sequence of calls made
    to it, and whether the writer accepts a call is decided by an oracle that
    sees all calls made so far (a call is refused by returning -1).  An entry of
    the log is its code and its arguments. *)
From Verif Require Import CStr HSListModel RTreeModel MRTreeModel ObjModel Dec StrModel DocModel ParseModel.

(** Calls of xmlTextWriter*: StartDocument, EndDocument, StartDTD, EndDTD,
    StartElement, WriteAttribute, WriteString, EndElement. *)
Inductive call :=
| WStartDoc (enc : str) | WEndDoc
| WDTD (name pubid sysid : ostr) | WEndDTD
| WStart (n : str) | WAttr (k v : str) | WText (s : str) | WEnd.
Record wst := mkW { w_calls : list (call * bool); w_log : list (Z * list (option pval)) }.
Definition wm A := wst -> res (wst * A).
Definition wret {A} (a : A) : wm A := fun w => Ok (w, a).
Definition wbind {A B} (m : wm A) (f : A -> wm B) : wm B := fun w => r <- m w ;; f (snd r) (fst r).
Definition wlift {A} (x : res A) : wm A := fun w => a <- x ;; Ok (w, a).
Notation "x <~ m ;; f" := (wbind m (fun x => f)) (at level 61, m at next level, right associativity).
(** comps_log_error. *)
Definition wlog (code : Z) (args : list (option pval)) : wm unit :=
  fun w => Ok (mkW (w_calls w) (w_log w ++ [(code, args)]), tt).

(** COMPS_XMLOptions, comps_types.h:28-44; empty_langpacks, empty_blacklist and
    empty_whiteout are never read. *)
Record xopts := mkXO {
  x_empty_groups : bool; x_empty_categories : bool; x_empty_environments : bool;
  x_empty_packages : bool; x_empty_grouplist : bool; x_empty_optionlist : bool;
  x_biarchonly : bool; x_uservisible : bool; x_default : bool;
  x_gid_default : bool; x_bao : bool; x_arch : bool }.
(** COMPS_XMLDefaultOptions, comps_types.c:22-38. *)
Definition default_xopts : xopts :=
  mkXO false false false false false false false false false false false false.
(** comps_log_codes.h:28, 33. *)
Definition E_XMLGEN : Z := 20.
Definition E_WRITEF : Z := 19.
Definition E_PKGLIST_EMPTY : Z := 25.

Definition true_str : str := S_ "true".
Definition false_str : str := S_ "false".
Definition bool_str (b : bool) : str := if b then true_str else false_str.

Section Writer.
(** Does the writer accept the call, given the calls made before? *)
Variable accepts : list (call * bool) -> call -> bool.

Definition emit (c : call) : wm bool :=
  fun w => let b := accepts (w_calls w) c in Ok (mkW (w_calls w ++ [(c, b)]) (w_log w), b).
(** COMPS_XMLRET_CHECK, comps_utils.h:175-179; __comps_check_xml_get,
    comps_utils.c:141-146, and the return that follows it everywhere. *)
Definition check (ok : bool) (k : wm Z) : wm Z :=
  if ok then k else (_ <~ wlog E_XMLGEN [] ;; wret (-1)%Z).

(** __comps_xml_prop, comps_utils.c:39-46; no caller looks at the result. *)
Definition xml_prop (key val : str) : wm unit :=
  _ <~ emit (WStart key) ;; _ <~ emit (WText val) ;; _ <~ emit WEnd ;; wret tt.
(** __comps_xml_arch, comps_utils.c:116-125. *)
Definition xml_arch (l : option (list ostr)) : wm bool :=
  match l with
  | None | Some [] => wret true
  | Some _ => s <~ wlift (arch_str l) ;; emit (WAttr (S_ "arch") s)
  end.

(** comps_docpackage_xml, comps_docpackage.c:143-205. *)
Definition pkg_xml (o : xopts) (p : pkg) : wm Z :=
  r <~ emit (WStart (S_ "packagereq")) ;; check r (
  r <~ (if x_arch o then xml_arch (p_arches p) else wret true) ;; check r (
  let type := if (p_type p =? PK_OPTIONAL)%Z then S_ "optional"
              else if (p_type p =? PK_MANDATORY)%Z then S_ "mandatory"
              else if (p_type p =? PK_CONDITIONAL)%Z then S_ "conditional"
              else S_ "default" in
  r <~ emit (WAttr (S_ "type") type) ;;
  r <~ match p_requires p with
       | Some s => match str_tostr s with [] => wret r | t => emit (WAttr (S_ "requires") t) end
       | None => wret r
       end ;; check r (
  r <~ (if x_bao o then
          emit (WAttr (S_ "basearchonly") (match p_bao p with Some _ => true_str | None => false_str end))
        else match p_bao p with
             | Some z => if (z =? 0)%Z then wret r else emit (WAttr (S_ "basearchonly") true_str)
             | None => wret r
             end) ;; check r (
  r <~ emit (WText (ostr_tostr (p_name p))) ;; check r (
  r <~ emit WEnd ;; check r (wret 0%Z)))))).

(** comps_docgroupid_xml, comps_docgroupid.c:102-142. *)
Definition gid_xml (o : xopts) (g : gid) : wm Z :=
  r <~ emit (WStart (S_ "groupid")) ;; check r (
  r <~ (if x_arch o then xml_arch (gi_arches g) else wret true) ;; check r (
  let rest : wm Z :=
    r <~ emit (WText (ostr_tostr (gi_name g))) ;; check r (
    r <~ emit WEnd ;; check r (wret 0%Z)) in
  if x_gid_default o then
    r <~ emit (WAttr (S_ "default") (bool_str (gi_def g))) ;; check r rest
  else if gi_def g then
    _ <~ emit (WAttr (S_ "default") (bool_str (gi_def g))) ;; rest
  else rest)).

(** __comps_num2boolstr, comps_utils.c:48-60: the object is used as a number. *)
Definition num2bool (v : pval) : res bool := match v with PNum z => Ok (negb (z =? 0)%Z) | _ => UB end.

(** The rows of the tables props/type/aliases/explicit/default_val/tostrf,
    comps_docgroup.c:266-301, comps_doccategory.c:219-222, comps_docenv.c:300-305. *)
Inductive row :=
| RText (key tag : str)                       (* a property as it is *)
| RBool (key tag : str) (explicit dflt : bool)
| RNames | RDescs.                            (* name_by_lang, desc_by_lang *)
(** Translations: comps_docgroup.c:344-360, comps_doccategory.c:250-281,
    comps_docenv.c:334-365; [k] is what follows. *)
Fixpoint pairs_xml (tag : str) (l : list (str * ostr)) (k : wm Z) : wm Z :=
  match l with
  | [] => k
  | (lang, v) :: t =>
      r <~ emit (WStart tag) ;; check r (
      r <~ emit (WAttr (S_ "xml:lang") lang) ;; check r (
      r <~ emit (WText (str_tostr v)) ;; check r (
      r <~ emit WEnd ;; check r (pairs_xml tag t k))))
  end.
(** comps_docgroup.c:315-362, comps_doccategory.c:240-282, comps_docenv.c:324-366. *)
Fixpoint rows_xml (b : base) (rows : list row) (k : wm Z) : wm Z :=
  match rows with
  | [] => k
  | RText key tag :: t =>
      v <~ wlift (base_get b key) ;;
      _ <~ match v with
           | Some x => s <~ wlift (pval_tostr (Some x)) ;; xml_prop tag s
           | None => wret tt
           end ;;
      rows_xml b t k
  | RBool key tag explicit dflt :: t =>
      v <~ wlift (base_get b key) ;;
      _ <~ match v with
           | Some x =>
               c <~ wlift (num2bool x) ;;
               if explicit || negb (Bool.eqb c dflt) then xml_prop tag (bool_str c) else wret tt
           | None => if explicit then xml_prop tag (bool_str dflt) else wret tt
           end ;;
      rows_xml b t k
  | RNames :: t => l <~ wlift (rt_pairs (b_names b)) ;; pairs_xml (S_ "name") l (rows_xml b t k)
  | RDescs :: t => l <~ wlift (rt_pairs (b_descs b)) ;; pairs_xml (S_ "description") l (rows_xml b t k)
  end.
(** comps_docgroup.c:364-372, comps_doccategory.c:282-291, comps_docenv.c:367-386:
    the members, whose results are not looked at. *)
Fixpoint each_xml {A} (f : A -> wm Z) (l : list A) : wm unit :=
  match l with [] => wret tt | x :: t => _ <~ f x ;; each_xml f t end.
Definition members_xml {A} (tag : str) (always : bool) (f : A -> wm Z) (l : list A) (k : wm Z) : wm Z :=
  match l, always with
  | [], false => k
  | _, _ =>
      r <~ emit (WStart tag) ;; check r (
      _ <~ each_xml f l ;;
      r <~ emit WEnd ;; check r k)
  end.
(** What the three functions have in common: the arch attribute of the object,
    its rows, its members, the end tag. *)
Definition object_xml (o : xopts) (tag : str) (b : base) (rows : list row) (members : wm Z -> wm Z) : wm Z :=
  r <~ emit (WStart tag) ;; check r (
  r <~ (if x_arch o then a <~ wlift (base_arches b) ;; xml_arch a else wret true) ;; check r (
  rows_xml b rows (members (r <~ emit WEnd ;; check r (wret 0%Z))))).
(** An object that is left out: its id is logged and 1 returned,
    comps_docgroup.c:302-307, comps_doccategory.c:226-231, comps_docenv.c:309-315. *)
Definition skipped_xml (b : base) : wm Z :=
  v <~ wlift (base_get b (S_ "id")) ;; _ <~ wlog E_PKGLIST_EMPTY [v] ;; wret 1%Z.

(** comps_docgroup_xml, comps_docgroup.c:259-376. *)
Definition group_rows (o : xopts) (d : dopts) : list row :=
  [ RText (S_ "id") (S_ "id"); RText (S_ "name") (S_ "name"); RNames;
    RText (S_ "desc") (S_ "description"); RDescs;
    RBool (S_ "def") (S_ "default") (x_default o) (o_default d);
    RBool (S_ "uservisible") (S_ "uservisible") (x_uservisible o) (o_uservisible d);
    RBool (S_ "biarchonly") (S_ "biarchonly") (x_biarchonly o) (o_biarchonly d);
    RText (S_ "display_order") (S_ "display_order"); RText (S_ "langonly") (S_ "langonly") ].
Definition group_xml (o : xopts) (d : dopts) (g : group) : wm Z :=
  match g_pkgs g, x_empty_groups o with
  | [], false => skipped_xml (g_base g)
  | _, _ => object_xml o (S_ "group") (g_base g) (group_rows o d)
              (members_xml (S_ "packagelist") (x_empty_packages o) (pkg_xml o) (g_pkgs g))
  end.
(** comps_doccategory_xml, comps_doccategory.c:208-295. *)
Definition common_rows : list row :=
  [ RText (S_ "id") (S_ "id"); RText (S_ "name") (S_ "name"); RNames;
    RText (S_ "desc") (S_ "description"); RDescs; RText (S_ "display_order") (S_ "display_order") ].
Definition category_xml (o : xopts) (c : category) : wm Z :=
  match c_gids c, x_empty_categories o with
  | [], false => skipped_xml (c_base c)
  | _, _ => object_xml o (S_ "category") (c_base c) common_rows
              (members_xml (S_ "grouplist") (x_empty_grouplist o) (gid_xml o) (c_gids c))
  end.
(** comps_docenv_xml, comps_docenv.c:290-390. *)
Definition env_xml (o : xopts) (e : env) : wm Z :=
  match e_groups e, e_options e, x_empty_environments o with
  | [], [], false => skipped_xml (e_base e)
  | _, _, _ => object_xml o (S_ "environment") (e_base e) common_rows
      (fun k => members_xml (S_ "grouplist") (x_empty_grouplist o) (gid_xml o) (e_groups e)
                 (members_xml (S_ "optionlist") (x_empty_optionlist o) (gid_xml o) (e_options e) k))
  end.

(** A signed char. *)
Definition schar8 (z : Z) : Z := ((z + 128) mod 256 - 128)%Z.
(** comps_doc.c:659-668, 671-680, 683-692: [ret] is a signed char; [k] is what
    follows. *)
Fixpoint objs_xml {A} (f : A -> wm Z) (l : list A) (ret : Z) (k : Z -> wm Z) : wm Z :=
  match l with
  | [] => k ret
  | x :: t =>
      r <~ f x ;;
      if (r =? -1)%Z then wret (-1)%Z else objs_xml f t (schar8 (ret + r)) k
  end.
(** The entries of a dictionary, comps_doc.c:701-727 (also 741-764, 776-799):
    the results of the attribute calls are not looked at. *)
Fixpoint entries_xml (tag ka va : str) (l : list (str * str)) (k : wm Z) : wm Z :=
  match l with
  | [] => k
  | (key, v) :: t =>
      r <~ emit (WStart tag) ;; check r (
      _ <~ emit (WAttr ka key) ;;
      _ <~ emit (WAttr va v) ;;
      r <~ emit WEnd ;; check r (entries_xml tag ka va t k))
  end.
Definition dict_xml (tag etag ka va : str) (l : list (str * str)) (k : wm Z) : wm Z :=
  r <~ emit (WStart tag) ;; check r (
  entries_xml etag ka va l (r <~ emit WEnd ;; check r k)).
(** comps_object_tostr of a value of a multi-dictionary: the caller's string or
    a list that comps_objmrtree_set stored. *)
Fixpoint mval_tostr (v : mval ostr) : res str :=
  match v with
  | MV s => Ok (str_tostr s)
  | MNest l =>
      ts <- (fix go (l : list (mval ostr)) : res (list str) :=
               match l with [] => Ok [] | x :: t => y <- mval_tostr x ;; r <- go t ;; Ok (y :: r) end) l ;;
      list_tostr ts
  end.
(** The pairs in the order in which they are written, 739-764, 774-799. *)
Fixpoint mpairs_texts (l : list (str * list (mval ostr))) : res (list (str * str)) :=
  match l with
  | [] => Ok []
  | (k, vs) :: t => ts <- map_r mval_tostr vs ;; r <- mpairs_texts t ;; Ok (map (fun s => (k, s)) ts ++ r)
  end.
(** comps_doc_xml, comps_doc.c:639-814.  The texts of a dictionary are computed
    before the first of them is written; they have no effect. *)
Definition doc_xml (o : xopts) (df : dopts) (d : doc) : wm Z :=
  match d_name d, d_pubid d, d_sysid d with
  | Some n, Some p, Some s =>
      r <~ emit (WDTD n p s) ;;
      _ <~ emit WEndDTD ;; check r (
      r <~ emit (WStart (S_ "comps")) ;; check r (
      pg <~ wlift (doc_groups d) ;;
      objs_xml (group_xml o df) (snd pg) 0%Z (fun ret =>
      pc <~ wlift (doc_cats (fst pg)) ;;
      objs_xml (category_xml o) (snd pc) ret (fun ret =>
      pe <~ wlift (doc_envs (fst pc)) ;;
      objs_xml (env_xml o) (snd pe) ret (fun ret =>
      pl <~ wlift (doc_langpacks (fst pe)) ;;
      let finish := r <~ emit WEnd ;; check r (wret ret) in
      let white (dd : doc) :=
        pw <~ wlift (doc_whiteout dd) ;;
        if (mlen (snd pw) =? 0)%Z then finish
        else l <~ wlift (ps <- mt_pairs (snd pw) ;; mpairs_texts ps) ;;
             dict_xml (S_ "whiteout") (S_ "ignoredep") (S_ "requires") (S_ "package") l finish in
      let black (dd : doc) :=
        pb <~ wlift (doc_blacklist dd) ;;
        if (mlen (snd pb) =? 0)%Z then white (fst pb)
        else l <~ wlift (ps <- mt_pairs (snd pb) ;; mpairs_texts ps) ;;
             dict_xml (S_ "blacklist") (S_ "package") (S_ "name") (S_ "arch") l (white (fst pb)) in
      if tlen (snd pl) =? 0 then black (fst pl)
      else l <~ wlift (rt_pairs (snd pl)) ;;
           dict_xml (S_ "langpacks") (S_ "match") (S_ "name") (S_ "install")
             (map (fun kv => (fst kv, str_tostr (snd kv))) l) (black (fst pl)))))))
  | _, _, _ => fun _ => UB   (* 650-652: a NULL pointer is dereferenced *)
  end.

(** comps2xml_f, comps_doc.c:177-218.  [saved]: did xmlSaveFormatFileEnc
    succeed? *)
Definition opt_xopts (x : option xopts) : xopts := match x with Some o => o | None => default_xopts end.
Definition opt_dopts (x : option dopts) : dopts := match x with Some o => o | None => default_dopts end.
Definition enc_str (d : doc) : str := match d_enc d with Some e => str_tostr e | None => S_ "UTF-8" end.
Definition unless (ok : bool) (code : Z) (args : list (option pval)) : wm unit :=
  if ok then wret tt else wlog code args.
Definition comps2xml_f (filename : str) (saved : bool) (x : option xopts) (df : option dopts) (d : doc) : wm Z :=
  r <~ emit (WStartDoc (enc_str d)) ;;
  _ <~ unless r E_XMLGEN [] ;;
  genret <~ doc_xml (opt_xopts x) (opt_dopts df) d ;;
  r <~ emit WEndDoc ;;
  _ <~ unless r E_XMLGEN [] ;;
  _ <~ unless saved E_WRITEF [Some (PStr (Some filename))] ;;
  wret genret.
(** comps2xml_str, comps_doc.c:220-271, up to the text: the first result is
    tested twice; the caller never sees [genret], only the text. *)
Definition comps2xml_str (x : option xopts) (df : option dopts) (d : doc) : wm unit :=
  r <~ emit (WStartDoc (enc_str d)) ;;
  _ <~ unless r E_XMLGEN [] ;;
  genret <~ doc_xml (opt_xopts x) (opt_dopts df) d ;;
  _ <~ unless (genret =? 0)%Z E_XMLGEN [] ;;
  _ <~ unless r E_XMLGEN [] ;;
  r <~ emit WEndDoc ;;
  unless r E_XMLGEN [].
End Writer.
