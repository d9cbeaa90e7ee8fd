(** Model of the Python side of packages, group ids, groups, categories and
    environments (libcomps/src/python/src: pycomps_groups.c, pycomps_gids.c,
    pycomps_categories.c, pycomps_envs.c, pycomps_utils.c, pycomps_hash.c):
    [+] of the typed lists, hash(), comparison operators, attributes,
    constructors and packages_match.

    CPython is not modelled beyond the calls made here: a Python string is its
    UTF-8 encoding, [PyLong_AsLong] is taken for a 64-bit long, and the
    conversion of a long to an int keeps the low 32 bits. *)
From Coq Require Import NArith.
From Verif Require Import CStr HSListModel SetModel RTreeModel ObjModel DocModel Dec StrModel CrcModel.

(** * Union of typed lists *)
Section Union.
Context {A : Type} (cp : A -> A) (idc : A -> A -> bool) (un : A -> A -> res A).
(** Second loops: pycomps_groups.c:399-412, pycomps_categories.c:327-338,
    pycomps_envs.c:346-360.  The first loops (394-398, 322-326, 341-345) are
    [merge_first] of ObjModel.  As there, an element carries a number standing
    for its address.  An object of the second list whose id is new is appended
    itself, not a copy of it. *)
Fixpoint pyu_second (l2 : list A) (next : nat) (set : hsl (nat * A)) (out : list (nat * A)) : res (list (nat * A)) :=
  match l2 with
  | [] => Ok out
  | x :: r =>
      match set_data_at (tag_cmp idc) set (next, x) with
      | Some d =>
          u <- un (snd d) x ;;
          pyu_second r (S next) set
            (match tag_index out (fst d) 0 with
             | None => out
             | Some i => list_ins (list_del out i) i (next, u)
             end)
      | None => pyu_second r (S next) set (out ++ [(next, x)])
      end
  end.
(** comps_groups_union, pycomps_groups.c:381-415; comps_cats_union,
    pycomps_categories.c:309-341; comps_envs_union, pycomps_envs.c:329-363. *)
Definition py_union (l1 l2 : list A) : res (list A) :=
  m <- merge_first cp idc l1 0 hs_empty [] ;;
  out <- pyu_second l2 (snd m) (fst (fst m)) (snd (fst m)) ;;
  Ok (map snd out).
End Union.
Definition py_groups_union := py_union group_copy (idcmp_by g_base) group_union.
Definition py_cats_union := py_union category_copy (idcmp_by c_base) category_union.
Definition py_envs_union := py_union env_copy (idcmp_by e_base) env_union.

(** The second loop of comps_pkgs_union, pycomps_groups.c:593-600: the package
    found in the set is also the one in the result; its type is changed in place. *)
Fixpoint pkgs_second (l2 : list pkg) (next : nat) (set : hsl (nat * pkg)) (out : list (nat * pkg)) : list (nat * pkg) :=
  match l2 with
  | [] => out
  | x :: r =>
      match set_data_at (tag_cmp pkg_idcmp) set (next, x) with
      | Some d =>
          pkgs_second r (S next) set
            (map (fun p => if fst p =? fst d then (fst p, pkg_set_type (snd p) (p_type x)) else p) out)
      | None => pkgs_second r (S next) set (out ++ [(next, x)])
      end
  end.
(** comps_pkgs_union, pycomps_groups.c:575-603. *)
Definition py_pkgs_union (l1 l2 : list pkg) : res (list pkg) :=
  m <- merge_first pkg_copy pkg_idcmp l1 0 hs_empty [] ;;
  Ok (map snd (pkgs_second l2 (snd m) (fst (fst m)) (snd (fst m)))).

(** * hash(): PyCOMPS_hash, pycomps_hash.c:23-31 *)
Definition hash_of (t : res str) : res Z := s <- t ;; Ok (py_hash s).
Definition pkg_hash (p : pkg) : res Z := hash_of (pkg_tostr p).
Definition gid_hash (g : gid) : res Z := hash_of (gid_tostr g).
Definition group_hash (g : group) : res Z := hash_of (group_tostr g).
Definition category_hash (c : category) : res Z := hash_of (category_tostr c).
Definition env_hash (e : env) : res Z := hash_of (env_tostr e).

(** * Python values *)
(** [PyText s]: a str with UTF-8 encoding [s] (which may contain NUL);
    [PyBadText]: a str that cannot be encoded; [PyNull]: the NULL passed to a
    setter for [del]. *)
Inductive pyval :=
| PyNone | PyBool (b : bool) | PyInt (z : Z) | PyText (s : str) | PyBadText | PyBytes (s : str) | PyOther | PyNull.

(** * Comparison operators *)
Inductive cmp_op := OpLt | OpLe | OpEq | OpNe | OpGt | OpGe.
(** The right operand: an object of the same type, None, or something else. *)
Inductive operand (A : Type) := Same (a : A) | IsNone | Text (s : str) | BadText | Bytes (s : str) | Foreign.
Arguments Same {A}. Arguments IsNone {A}. Arguments Text {A}. Arguments BadText {A}. Arguments Bytes {A}. Arguments Foreign {A}.
Inductive cmp_result := Answer (b : bool) | NotImplementedError | TypeError.
(** PyCOMPSGroup_cmp pycomps_groups.c:126-149, PyCOMPSPack_cmp 814-833,
    PyCOMPSCat_cmp pycomps_categories.c:119-139, PyCOMPSEnv_cmp
    pycomps_envs.c:123-141, with CMP_OP_EQ_NE_CHECK and CMP_NONE_CHECK
    (pycomps_macros.h:28-41). *)
Definition py_cmp {A} (cmp : A -> A -> res bool) (self : A) (other : operand A) (op : cmp_op) : res cmp_result :=
  match op with
  | OpEq | OpNe =>
      let eq := match op with OpEq => true | _ => false end in
      match other with
      | Same a => r <- cmp self a ;; Ok (Answer (if eq then r else negb r))
      | IsNone => Ok (Answer (negb eq))
      | _ => Ok TypeError
      end
  | _ => Ok NotImplementedError
  end.
(** The text up to the first NUL: strlen and memcpy in
    __pycomps_PyUnicode_AsString, pycomps_utils.c:108-134. *)
Definition NUL : ascii := Ascii.zero.
Fixpoint cut (s : str) : str :=
  match s with [] => [] | c :: r => if Ascii.eqb c NUL then [] else c :: cut r end.
(** PyCOMPSGID_cmp, pycomps_gids.c:149-179, with comps_gid_from_str 135-147: a
    str is compared as a group id of that name without the default flag.  If the
    str has no UTF-8 encoding, or the operand is a bytes object (which
    PyUnicode_FromObject refuses), the id is NULL; the object's id (not NULL)
    compares different from it and the answer is returned while the exception is
    set: [GPending]. *)
Inductive gid_result := GAnswer (b : bool) | GNotImplemented | GTypeError | GPending (b : bool).
Definition py_gid_cmp (self : gid) (other : operand gid) (op : cmp_op) : gid_result :=
  match op with
  | OpEq | OpNe =>
      let eq := match op with OpEq => true | _ => false end in
      match other with
      | Same a => GAnswer (if eq then gid_cmp self a else negb (gid_cmp self a))
      | Text s => let r := gid_cmp self (mkGid (Some (Some (cut s))) false None) in GAnswer (if eq then r else negb r)
      | BadText | Bytes _ => GPending (negb eq)
      | IsNone => GAnswer (negb eq)
      | Foreign => GTypeError
      end
  | _ => GNotImplemented
  end.

(** * Attributes *)
(** What a setter call does besides changing the object: [Done]; [Raised]: an
    exception, the object unchanged; [Pending]: it returns success with an
    exception set. *)
Inductive outcome := Done | Raised | Pending.
(** Conversion of a long to an int. *)
Definition int_of_long (z : Z) : Z := ((z + 2 ^ 31) mod 2 ^ 32 - 2 ^ 31)%Z.
Definition long_ok (z : Z) : bool := ((- 2 ^ 63 <=? z) && (z <? 2 ^ 63))%Z.
(** The argument passed on by the string setter: __pycomps_stringable_to_char,
    pycomps_utils.c:136-148.  [inl o]: the C string ([None] for NULL). *)
Definition str_arg (v : pyval) : option str + outcome :=
  match v with
  | PyNone => inl None
  | PyText s => inl (Some (cut s))
  | _ => inr Raised
  end.
(** __PyCOMPS_set_strattr, pycomps_utils.c:288-303. *)
Definition set_strattr {A} (set_f : A -> option str -> res A) (a : A) (v : pyval) : res (A * outcome) :=
  match str_arg v with
  | inl s => a' <- set_f a s ;; Ok (a', Done)
  | inr o => Ok (a, o)
  end.
(** __PyCOMPS_get_strattr, pycomps_utils.c:305-323. *)
Definition get_strattr (v : option (res str)) : res pyval :=
  match v with Some t => s <- t ;; Ok (PyText s) | None => Ok PyNone end.
(** __PyCOMPS_set_numattr, pycomps_utils.c:325-342: PyLong_Check dereferences its
    argument, which is NULL for a deletion; [set_f]'s [None] is unset. *)
Definition set_numattr {A} (set_f : A -> option Z -> res A) (a : A) (v : pyval) : res (A * outcome) :=
  match v with
  | PyNull => UB
  | PyNone => a' <- set_f a None ;; Ok (a', Done)
  | PyInt z =>
      if long_ok z then a' <- set_f a (Some (int_of_long z)) ;; Ok (a', Done)
      else a' <- set_f a (Some (-1)%Z) ;; Ok (a', Pending)
  | PyBool b => a' <- set_f a (Some (if b then 1 else 0)%Z) ;; Ok (a', Done)
  | _ => Ok (a, Raised)
  end.
(** __PyCOMPS_set_boolattr, pycomps_utils.c:359-374; the same for
    PyCOMPSGID_set_default, pycomps_gids.c:96-107. *)
Definition set_boolattr {A} (set_f : A -> bool -> res A) (a : A) (v : pyval) : res (A * outcome) :=
  match v with
  | PyNull => UB
  | PyBool b => a' <- set_f a b ;; Ok (a', Done)
  | _ => Ok (a, Raised)
  end.
(** pycomps_group_boolattr_setter, pycomps_groups.c:151-167. *)
Definition set_group_bool {A} (set_f : A -> bool -> res A) (a : A) (v : pyval) : res (A * outcome) :=
  match v with
  | PyBool b => a' <- set_f a b ;; Ok (a', Done)
  | _ => Ok (a, Raised)
  end.

(** Attributes of groups, categories and environments; the getset tables
    pycomps_groups.c:267-306, pycomps_categories.c:205-230, pycomps_envs.c:222-250.
    The lists and dictionaries among them are not modelled here. *)
Inductive attr := AStr (k : str) | ANum (k : str) | ABool (k : str).
Definition attr_key (a : attr) : str := match a with AStr k | ANum k | ABool k => k end.
Definition group_attrs : list attr :=
  [AStr (S_ "id"); AStr (S_ "name"); AStr (S_ "desc"); AStr (S_ "langonly"); ANum (S_ "display_order");
   ABool (S_ "uservisible"); ABool (S_ "biarchonly"); ABool (S_ "def")].
Definition other_attrs : list attr := [AStr (S_ "id"); AStr (S_ "name"); AStr (S_ "desc"); ANum (S_ "display_order")].
Definition bool_num (b : bool) : Z := if b then 1%Z else 0%Z.
Definition py_setattr (b : base) (a : attr) (v : pyval) : res (base * outcome) :=
  match a with
  | AStr k => set_strattr (fun b s => base_set_str b k s) b v
  | ANum k => set_numattr (fun b z => base_set_num b k z) b v
  | ABool k => set_group_bool (fun b x => base_set_num b k (Some (bool_num x))) b v
  end.
(** __PyCOMPS_get_strattr; __PyCOMPS_get_numattr, pycomps_utils.c:343-357;
    pycomps_group_boolattr_getter, pycomps_groups.c:169-182: the object found is
    used as a number. *)
Definition py_getattr (b : base) (a : attr) : res pyval :=
  v <- base_get b (attr_key a) ;;
  match a, v with
  | AStr _, Some x => get_strattr (Some (pval_tostr (Some x)))
  | _, None => Ok PyNone
  | ANum _, Some (PNum z) => Ok (PyInt z)
  | ABool _, Some (PNum z) => Ok (PyBool (negb (z =? 0)%Z))
  | _, Some _ => UB
  end.

(** Packages: the table pycomps_groups.c:770-788.  The C setters of the numeric
    attributes ignore [unset] (comps_docpackage.c:75-97); for None the Python
    setter passes 1. *)
Inductive pattr := PName | PRequires | PType | PBao.
Definition py_pkg_setattr (p : pkg) (a : pattr) (v : pyval) : res (pkg * outcome) :=
  match a with
  | PName => set_strattr (fun p s => Ok (pkg_set_name p s)) p v
  | PRequires => set_strattr (fun p s => Ok (pkg_set_requires p s)) p v
  | PType => set_numattr (fun p z => Ok (pkg_set_type p (match z with Some z => z | None => 1%Z end))) p v
  | PBao => set_boolattr (fun p b => Ok (pkg_set_bao p (bool_num b) false)) p v
  end.
Definition py_pkg_getattr (p : pkg) (a : pattr) : res pyval :=
  match a with
  | PName => get_strattr (option_map (fun s => Ok (str_tostr s)) (p_name p))
  | PRequires => get_strattr (option_map (fun s => Ok (str_tostr s)) (p_requires p))
  | PType => Ok (PyInt (p_type p))
  | PBao => Ok (match p_bao p with Some z => PyBool (negb (z =? 0)%Z) | None => PyNone end)
  end.
(** Group ids: the table pycomps_gids.c:114-123. *)
Inductive gattr := GName | GDefault.
Definition py_gid_setattr (g : gid) (a : gattr) (v : pyval) : res (gid * outcome) :=
  match a with
  | GName => set_strattr (fun g s => Ok (gid_set_name g s)) g v
  | GDefault => set_boolattr (fun g b => Ok (gid_set_default g (bool_num b))) g v
  end.
(** PyCOMPSGID_get_default, pycomps_gids.c:89-94. *)
Definition py_gid_getattr (g : gid) (a : gattr) : res pyval :=
  match a with
  | GName => get_strattr (option_map (fun s => Ok (str_tostr s)) (gi_name g))
  | GDefault => Ok (PyBool (gi_def g))
  end.

(** * Constructors *)
(** The arguments as parsed by PyArg_ParseTupleAndKeywords ([None]: not given);
    its "s" refuses text with NUL, its "i" numbers outside int. *)
(** PyCOMPSGroup_init, pycomps_groups.c:67-101. *)
Definition py_group_init (id name desc : option str) (disp def uservis : option Z) (lang : option str) : res group :=
  b <- base_set_str base_create (S_ "id") id ;;
  b <- base_set_str b (S_ "name") name ;;
  b <- base_set_str b (S_ "desc") desc ;;
  b <- base_set_num b (S_ "def") (Some (match def with Some z => z | None => 0%Z end)) ;;
  b <- base_set_num b (S_ "uservisible") (Some (match uservis with Some z => z | None => 1%Z end)) ;;
  b <- (let d := match disp with Some z => z | None => (-1)%Z end in
        if (0 <? d)%Z then base_set_num b (S_ "display_order") (Some d) else Ok b) ;;
  b <- base_set_str b (S_ "langonly") lang ;;
  Ok (mkG b []).
(** PyCOMPSCat_init, pycomps_categories.c:68-95; PyCOMPSEnv_init,
    pycomps_envs.c:73-98. *)
Definition py_other_init (id name desc : option str) (disp : option Z) : res base :=
  b <- base_set_str base_create (S_ "id") id ;;
  b <- base_set_str b (S_ "name") name ;;
  b <- base_set_str b (S_ "desc") desc ;;
  let d := match disp with Some z => z | None => (-1)%Z end in
  if (d =? -1)%Z then Ok b else base_set_num b (S_ "display_order") (Some d).
(** PyCOMPSPack_init, pycomps_groups.c:714-734. *)
Definition py_pkg_init (name : option str) (type : option Z) (requires : option str) : pkg :=
  let p := pkg_set_name pkg_create name in
  let p := pkg_set_requires p requires in
  pkg_set_type p (match type with Some z => z | None => PK_UNKNOWN end).
(** PyCOMPSGID_init, pycomps_gids.c:64-87. *)
Definition py_gid_init (name : str) (def : option bool) : gid :=
  let g := gid_set_name gid_create (Some name) in
  gid_set_default g (match def with Some b => bool_num b | None => 0%Z end).

(** * packages_match *)
(** PyCOMPSGroup_packages_match, pycomps_groups.c:438-457, with
    __pycomps_pkg_type_check 416-436 ([None] for the exception): an omitted type
    is passed on as -1. *)
Definition pkg_type_check (z : Z) : option Z :=
  if (z =? PK_DEFAULT)%Z || (z =? PK_OPTIONAL)%Z || (z =? PK_CONDITIONAL)%Z || (z =? PK_MANDATORY)%Z || (z =? PK_UNKNOWN)%Z
  then Some z else None.
Definition py_packages_match (g : group) (name : option str) (type : option Z) : option (list pkg) :=
  match type with
  | None => Some (group_get_packages g name (-1))
  | Some z => match pkg_type_check z with
              | Some t => Some (group_get_packages g name t)
              | None => None
              end
  end.
