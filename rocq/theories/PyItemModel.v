(** Model of what the Python side asks of single objects: their validation, their
    texts, and the queries of a document
    (libcomps/src/python/src/pycomps_utils.c, pycomps_groups.c,
    pycomps_categories.c, pycomps_envs.c, pycomps_gids.c, pycomps.c), and of the
    lists of packages and of group ids.

    Not modelled: reference counts; the buffer PyCOMPSSeq_str loses
    (pycomps_sequence.c:561-564); arguments of a wrong type. *)
From Coq Require Import NArith.
From Verif Require Import CStr HSListModel ObjListModel SetModel RTreeModel MRTreeModel ObjModel DocModel Dec StrModel ValidateModel
  PySeqModel SpecI.
From Verif Require PyDictModel PyDocModel.

(** * Validation *)
(** __pycomps_validate_process, pycomps_utils.c:399-409: [None]: nothing is
    raised; [Some m]: ValueError with text [m], the first message.  The text is
    decoded by PyErr_Format; all messages are ASCII. *)
Definition validate_process (r : vres) : res (option str) :=
  match r with
  | VOk => Ok None
  | VErr ((_, m) :: _) => Ok (Some m)
  | VErr [] => UB
  end.
(** pycomps_group_validate, PyCOMPSGroup_validate, pycomps_groups.c:183-197;
    pycomps_package_validate, PyCOMPSPackage_validate, 560-573; the same for
    categories (pycomps_categories.c), environments (pycomps_envs.c) and group
    ids (pycomps_gids.c). *)
Definition py_validate {A} (rules : list (rule A)) (x : A) : res (option str) :=
  r <- execute x rules ;; validate_process r.
(** The pre_checker of a list (pycomps_types.h:33) accepts [x]. *)
Definition accepts {A} (rules : list (rule A)) (x : A) : bool :=
  match py_validate rules x with Ok None => true | _ => false end.

(** * Texts *)
Section Texts.
(** PyUnicode_FromFormat decodes the argument of %s with the error handler
    "replace" (external); [%p] prints the address of the wrapper (external). *)
Variable replaced : str -> str.
Variable addr : str.
(** PyCOMPSGroup_str, pycomps_groups.c:102-112, PyCOMPSCat_str,
    pycomps_categories.c:95-105, PyCOMPSEnv_str, pycomps_envs.c:99-109. *)
Definition base_str (b : base) : res str :=
  v <- base_get b (S_ "id") ;; s <- pval_tostr v ;; Ok (replaced s).
Definition group_str g := base_str (g_base g).
Definition category_str c := base_str (c_base c).
Definition env_str e := base_str (e_base e).
(** PyCOMPSPack_str, pycomps_groups.c:790-800. *)
Definition package_str (p : pkg) : str := replaced (ostr_tostr (p_name p)).
(** PyCOMPSGID_str, pycomps_gids.c:126-133: PyUnicode_FromString of the text of
    the whole object. *)
Definition gid_str (i : gid) : res (PyDictModel.pyres str) := s <- gid_tostr i ;; Ok (PyDictModel.to_py s).
(** PyCOMPSGroup_repr, pycomps_groups.c:114-124, PyCOMPSCat_repr,
    pycomps_categories.c:107-117, PyCOMPSEnv_repr, pycomps_envs.c:111-121,
    PyCOMPSPack_repr, pycomps_groups.c:802-812. *)
Definition repr_text (type s : str) : str :=
  S_ "<libcomps." ++ type ++ S_ " object '" ++ s ++ S_ "' at " ++ addr ++ S_ ">".
Definition group_repr g := s <- group_str g ;; Ok (repr_text (S_ "Group") s).
Definition category_repr c := s <- category_str c ;; Ok (repr_text (S_ "Category") s).
Definition env_repr e := s <- env_str e ;; Ok (repr_text (S_ "Environment") s).
Definition package_repr p := repr_text (S_ "Package") (package_str p).
End Texts.

(** * Lists of packages and of group ids *)
Section Members.
Context {A : Type} (same : A -> A -> bool) (kind : ikind) (key : A -> option str) (valid : A -> bool).
(** [extra]: item assignment is PyCOMPSSeq_set_unique (packages,
    pycomps_groups.c:666); else it is the inherited PyCOMPSSeq_set (group ids,
    pycomps_gids.c:304, pycomps_sequence.c:609-613).  The methods are those of
    PyCOMPSSeq_methods. *)
Definition mem_step (extra : bool) (o : ol (option A)) (c : @sop A) : res (ol (option A) * pyret unit) :=
  match c with
  | SAppend it => seq_append valid o it
  | SSet i it => if extra then seq_setitem_unique kind key o i it else Ok (seq_setitem valid o i it)
  | SDel i => Ok (seq_delitem o i)
  | SInsert i it => seq_insert valid o i it
  | SRemove it => Ok (seq_remove same o it)
  | SClear => Ok (seq_clear o, Ret tt)
  | SSetSlice s v => seq_setslice kind key o s v
  | SDelSlice s => seq_delslice o s
  end.
Fixpoint mem_run (extra : bool) (o : ol (option A)) (cs : list (@sop A)) : res (ol (option A) * list (pyret unit)) :=
  match cs with
  | [] => Ok (o, [])
  | c :: r => p <- mem_step extra o c ;; q <- mem_run extra (fst p) r ;; Ok (fst q, snd p :: snd q)
  end.
End Members.

(** * Queries *)
(** PyCOMPS_groups_match, PyCOMPS_categories_match, PyCOMPS_envs_match,
    pycomps.c:546-610: a new list of the objects found.  The arguments are texts
    (format "|ssssi"), [None] if left out; the document is not changed. *)
Record query := mkQ { q_id : option str; q_name : option str; q_desc : option str; q_lang : option str; q_flags : Z }.
Section Queries.
Variable fnm : str -> str -> Z -> bool.
Definition groups_match (w : PyDocModel.world) (x : PyDocModel.pydoc) (q : query) : res (list group) :=
  n <- PyDocModel.view w x ;; doc_get_groups fnm n (q_id q) (q_name q) (q_desc q) (q_lang q) (q_flags q).
Definition categories_match (w : PyDocModel.world) (x : PyDocModel.pydoc) (q : query) : res (list category) :=
  n <- PyDocModel.view w x ;; doc_get_categories fnm n (q_id q) (q_name q) (q_desc q) (q_lang q) (q_flags q).
Definition environments_match (w : PyDocModel.world) (x : PyDocModel.pydoc) (q : query) : res (list env) :=
  n <- PyDocModel.view w x ;; doc_get_envs fnm n (q_id q) (q_name q) (q_desc q) (q_lang q) (q_flags q).
End Queries.
