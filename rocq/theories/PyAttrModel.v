(** Model of the list and dictionary attributes of the Python objects Group,
    Category, Environment and Comps, with the counters of the Python objects and of
    the library's objects behind them: pycomps_utils.c:184-286, pycomps.c:382-466,
    and the creation and destruction of these objects.

    A program is a list of operations on variables.  A Python object is a cell of
    counted memory (CountMem.v), so is a list or dictionary of the library
    ([CVal]) and a COMPS_DocGroup, COMPS_DocCategory, COMPS_DocEnv or COMPS_Doc
    ([CObj]).

    Simplifications.  The content of a list or a dictionary is a value of any type
    [V]; changes made to it through a Python object are [PEdit].  What the elements
    of a list count is RefcModel's subject.  The dictionaries [properties] of an
    object and the other fields of a document belong to it alone and are left out.
    [del] of a variable, the end of a scope and overwriting a variable are
    [PDrop]. *)
From Verif Require Import CStr CountMem.

(** * Attributes *)
Inductive kind := KGroup | KCategory | KEnv | KComps.
(** The attributes whose values are lists or dictionaries: PyCOMPSGroup_getset,
    pycomps_groups.c:266-303, PyCOMPSCat_getset, pycomps_categories.c:207-231,
    PyCOMPSEnv_getset, pycomps_envs.c:221-253, PyCOMPS_getset,
    pycomps.c:680-700. *)
Inductive attr := APackages | AGroupIds | AOptionIds | ANameByLang | ADescByLang
| AGroups | ACategories | AEnvironments | ALangpacks | ABlacklist | AWhiteout.
Definition attr_eqb (a b : attr) : bool :=
  match a, b with
  | APackages, APackages | AGroupIds, AGroupIds | AOptionIds, AOptionIds | ANameByLang, ANameByLang
  | ADescByLang, ADescByLang | AGroups, AGroups | ACategories, ACategories | AEnvironments, AEnvironments
  | ALangpacks, ALangpacks | ABlacklist, ABlacklist | AWhiteout, AWhiteout => true
  | _, _ => false
  end.
(** Types of the values: PackageList, IdList, StrDict, GroupList, CategoryList,
    EnvList, MDict. *)
Inductive vtype := TPackages | TIds | TStrDict | TGroups | TCategories | TEnvs | TMDict.
Definition vtype_eqb (a b : vtype) : bool :=
  match a, b with
  | TPackages, TPackages | TIds, TIds | TStrDict, TStrDict | TGroups, TGroups
  | TCategories, TCategories | TEnvs, TEnvs | TMDict, TMDict => true
  | _, _ => false
  end.
(** [type] and [dict_type] of the closures: pycomps_groups.c:246-265,
    pycomps_categories.c:157-196, pycomps_envs.c:193-219, pycomps.c:651-678. *)
Definition atype (a : attr) : vtype :=
  match a with
  | APackages => TPackages | AGroupIds => TIds | AOptionIds => TIds | ANameByLang => TStrDict | ADescByLang => TStrDict
  | AGroups => TGroups | ACategories => TCategories | AEnvironments => TEnvs
  | ALangpacks => TStrDict | ABlacklist => TMDict | AWhiteout => TMDict
  end.
(** Which functions serve an attribute: __PyCOMPS_get_ids and __PyCOMPS_set_ids,
    __PyCOMPS_get_dict and __PyCOMPS_set_dict, or PyCOMPS_get_ and PyCOMPS_set_. *)
Inductive style := ByIds | ByDict | ByComps.
Definition styleof (k : kind) (a : attr) : option style :=
  match k, a with
  | KGroup, APackages => Some ByIds
  | KCategory, AGroupIds => Some ByIds
  | KEnv, AGroupIds => Some ByIds | KEnv, AOptionIds => Some ByIds
  | (KGroup | KCategory | KEnv), (ANameByLang | ADescByLang) => Some ByDict
  | KComps, (AGroups | ACategories | AEnvironments | ALangpacks | ABlacklist | AWhiteout) => Some ByComps
  | _, _ => None
  end.
Definition fields (k : kind) : list attr :=
  match k with
  | KGroup => [ANameByLang; ADescByLang; APackages]
  | KCategory => [ANameByLang; ADescByLang; AGroupIds]
  | KEnv => [ANameByLang; ADescByLang; AGroupIds; AOptionIds]
  | KComps => [AGroups; ACategories; AEnvironments; ALangpacks; ABlacklist; AWhiteout]
  end.
(** The cached Python objects a destructor releases: PyCOMPSGroup_dealloc,
    pycomps_groups.c:40-49, PyCOMPSCat_dealloc, pycomps_categories.c:41-50,
    PyCOMPSEnv_dealloc, pycomps_envs.c:43-53, PyCOMPS_dealloc, pycomps.c:809-816
    (only three of the six). *)
Definition freed (k : kind) : list attr :=
  match k with
  | KGroup => [APackages; ANameByLang; ADescByLang]
  | KCategory => [AGroupIds; ANameByLang; ADescByLang]
  | KEnv => [AGroupIds; AOptionIds; ANameByLang; ADescByLang]
  | KComps => [AGroups; ACategories; AEnvironments]
  end.

(** * State *)
Definition slots := attr -> option nat.
Definition empty_slots : slots := fun _ => None.
Definition upd (s : slots) (a : attr) (x : option nat) : slots := fun b => if attr_eqb a b then x else s b.
Definition opts (s : slots) (l : list attr) : list nat :=
  flat_map (fun a => match s a with Some x => [x] | None => [] end) l.

Section Model.
Context {V : Type}.
(** The content of a new list or dictionary. *)
Variable blank : vtype -> V.

Inductive pbody :=
| CVal (v : V)                                  (* COMPS_ObjList, COMPS_ObjDict, COMPS_ObjMDict *)
| CObj (k : kind) (f : slots)                   (* comps_docgroup.h, comps_doccategory.h, comps_docenv.h, comps_doc.h *)
| PyVal (t : vtype) (c : nat)                   (* pycomps_types.h:38-60 *)
| PyObj (k : kind) (c : nat) (cache : slots).   (* pycomps_groups.h, pycomps_categories.h, pycomps_envs.h, pycomps.h *)
(** What the destructors release: comps_docgroup_destroy, comps_docgroup.c:45-51,
    comps_doccategory.c:43-48, comps_docenv.c:47-53, comps_doc.c (objects);
    PyCOMPSSeq_dealloc, pycomps_sequence.c, PyCOMPSDict_dealloc,
    pycomps_dict.c:44-48. *)
Definition kids (b : pbody) : list nat :=
  match b with
  | CVal _ => []
  | CObj k f => opts f (fields k)
  | PyVal _ c => [c]
  | PyObj k c cache => opts cache (freed k) ++ [c]
  end.
Notation mem := (mem pbody).
(** Nesting: a Python object over a cached one or a library object, over a list. *)
Definition rel (m : mem) (a : nat) : res mem := release kids 3 m a.
Definition rel_opt (m : mem) (x : option nat) : res mem := match x with Some a => rel m a | None => Ok m end.
Record state := mkS { s_mem : mem; s_vars : list (option nat) }.
Definition start : state := mkS [] [].
Definition bind_var (m : mem) (vs : list (option nat)) (a : nat) : state := mkS m (vs ++ [Some a]).

Inductive exc := ENameError | EAttributeError | ETypeError.
Inductive out := ONone | OVar (n : nat) | OContent (v : V) | OErr (e : exc).

Inductive arg := ArgVar (x : nat) | ArgOther | ArgDel.
Inductive pop :=
| PNew (k : kind) (c : attr -> option V)        (* Group(...), a sum of groups, Comps(), Comps.arch_filter *)
| PMake (t : vtype) (v : V)                     (* PackageList(), StrDict(...), a slice, ... *)
| PAgain (x : nat)                              (* the same object read from a list it is in *)
| PDup (x : nat) | PDrop (x : nat)
| PGet (x : nat) (a : attr) | PSet (x : nat) (a : attr) (v : arg)
| PEdit (x : nat) (v : V) | PRead (x : nat)
| PClear (x : nat) | PLoad (x : nat) (c : attr -> option V).

(** The lists and dictionaries of a new object: comps_docgroup_create,
    comps_docgroup.c:23-29 and the like; a part of a new document is there only if it
    was filled. *)
Fixpoint new_fields (m : mem) (k : kind) (c : attr -> option V) (l : list attr) : mem * slots :=
  match l with
  | [] => (m, empty_slots)
  | a :: r =>
      let (m1, f) := new_fields m k c r in
      match c a, k with
      | None, KComps => (m1, f)
      | o, _ => let (m2, x) := alloc m1 (CVal (match o with Some v => v | None => blank (atype a) end)) in
                (m2, upd f a (Some x))
      end
  end.
Definition new_obj (m : mem) (k : kind) (c : attr -> option V) : mem * nat :=
  let (m1, f) := new_fields m k c (fields k) in alloc m1 (CObj k f).
(** PyCOMPSSeq_new, pycomps_sequence.c:538-551, PyCOMPSDict_new, pycomps_dict.c:50-62:
    with a list of its own. *)
Definition new_val (m : mem) (t : vtype) (v : V) : mem * nat :=
  let (m1, c) := alloc m (CVal v) in alloc m1 (PyVal t c).
(** A Python object for a list that is there already: its own is destroyed and
    replaced, pycomps_utils.c:191-198 and 237-243. *)
Definition wrap (m : mem) (t : vtype) (c : nat) : res (mem * nat) :=
  let (m0, own) := alloc m (CVal (blank t)) in
  let (m1, p) := alloc m0 (PyVal t own) in
  m2 <- rel m1 own ;;
  m3 <- incr m2 c ;;
  m4 <- put m3 p (PyVal t c) ;; Ok (m4, p).

(** The fields of the object behind a Python object. *)
Definition peek_obj (m : mem) (c : nat) : res (kind * slots) :=
  x <- peek m c ;; match body x with CObj k f => Ok (k, f) | _ => UB end.

(** Reading an attribute; the result is a reference for the caller. *)
Definition get_attr (m : mem) (x : nat) (k : kind) (c : nat) (cache : slots) (a : attr) (st : style) : res (mem * nat) :=
  match cache a with
  | Some p => m1 <- incr m p ;; Ok (m1, p)                              (* pycomps_utils.c:199-201, 244-246; pycomps.c:396-398 *)
  | None =>
      kf <- peek_obj m c ;;
      match st with
      | ByIds | ByDict =>                                               (* pycomps_utils.c:190-198, 236-243 *)
          match snd kf a with
          | None => UB                                                  (* a NULL list *)
          | Some l => wrap m (atype a) l
          end
      | ByComps =>                                                      (* pycomps.c:388-398 *)
          let (m0, own) := alloc m (CVal (blank (atype a))) in
          let (m1, p) := alloc m0 (PyVal (atype a) own) in
          ml <- match snd kf a with                                     (* comps_doc.h:44-54 *)
                | Some l => m2 <- incr m1 l ;; Ok (m2, l)
                | None => let (m2, l) := alloc m1 (CVal (blank (atype a))) in
                          m3 <- put m2 c (CObj (fst kf) (upd (snd kf) a (Some l))) ;;
                          m4 <- incr m3 l ;; Ok (m4, l)
                end ;;
          m5 <- rel (fst ml) own ;;
          m6 <- put m5 p (PyVal (atype a) (snd ml)) ;;
          m7 <- put m6 x (PyObj k c (upd cache a (Some p))) ;;
          m8 <- incr m7 p ;; Ok (m8, p)
      end
  end.
(** Assigning [y], a Python object for the list [l]. *)
Definition set_attr (m : mem) (x : nat) (k : kind) (c : nat) (cache : slots) (a : attr) (st : style) (y l : nat) : res mem :=
  kf <- peek_obj m c ;;
  let cobj := CObj (fst kf) (upd (snd kf) a (Some l)) in
  match st with
  | ByIds =>                                                            (* pycomps_utils.c:218-226, comps_utils.h:148-153 *)
      m1 <- rel_opt m (snd kf a) ;; m2 <- incr m1 l ;; m3 <- put m2 c cobj ;;
      m4 <- rel_opt m3 (cache a) ;; incr m4 y                           (* 225 stores the old pointer *)
  | ByDict =>                                                           (* pycomps_utils.c:274-284 *)
      m1 <- rel_opt m (snd kf a) ;; m2 <- incr m1 l ;; m3 <- put m2 c cobj ;;
      m4 <- rel_opt m3 (cache a) ;; m5 <- incr m4 y ;;
      put m5 x (PyObj k c (upd cache a (Some y)))
  | ByComps =>                                                          (* pycomps.c:455-462, comps_doc.h:61-65 *)
      m1 <- rel_opt m (cache a) ;;
      m2 <- incr m1 l ;; m3 <- rel_opt m2 (snd kf a) ;; m4 <- put m3 c cobj ;;
      m5 <- put m4 x (PyObj k c (upd cache a (Some y))) ;; incr m5 y
  end.

Fixpoint rel_all (m : mem) (l : list nat) : res mem := match l with [] => Ok m | a :: r => m1 <- rel m a ;; rel_all m1 r end.

Definition var (s : state) (x : nat) : option nat := match nth_error (s_vars s) x with Some (Some a) => Some a | _ => None end.
Definition fail (s : state) (e : exc) : res (state * out) := Ok (s, OErr e).
Definition step (s : state) (p : pop) : res (state * out) :=
  let m := s_mem s in let vs := s_vars s in let ret m1 a := Ok (bind_var m1 vs a, OVar (length vs)) in
  match p with
  | PNew k c => let (m1, o) := new_obj m k c in let (m2, x) := alloc m1 (PyObj k o empty_slots) in ret m2 x
  | PMake t v => let (m1, x) := new_val m t v in ret m1 x
  | PAgain v =>                                                         (* pycomps_sequence.c:32-48, pycomps_groups.c:354-361 *)
      match var s v with
      | None => fail s ENameError
      | Some a =>
          b <- peek m a ;;
          match body b with
          | PyObj KComps _ _ => fail s ETypeError
          | PyObj k c _ =>
              m1 <- incr m c ;;
              let (m2, o) := new_obj m1 k (fun _ => None) in
              let (m3, x) := alloc m2 (PyObj k o empty_slots) in
              m4 <- rel m3 o ;; m5 <- put m4 x (PyObj k c empty_slots) ;; ret m5 x
          | _ => fail s ETypeError
          end
      end
  | PDup v => match var s v with None => fail s ENameError | Some a => m1 <- incr m a ;; ret m1 a end
  | PDrop v =>
      match var s v with
      | None => fail s ENameError
      | Some a => m1 <- rel m a ;; Ok (mkS m1 (list_upd vs v None), ONone)
      end
  | PGet v a =>
      match var s v with
      | None => fail s ENameError
      | Some x =>
          b <- peek m x ;;
          match body b with
          | PyObj k c cache =>
              match styleof k a with
              | None => fail s EAttributeError
              | Some st => r <- get_attr m x k c cache a st ;; ret (fst r) (snd r)
              end
          | _ => fail s EAttributeError
          end
      end
  | PSet v a w =>
      match var s v with
      | None => fail s ENameError
      | Some x =>
          b <- peek m x ;;
          match body b with
          | PyObj k c cache =>
              match styleof k a with
              | None => fail s EAttributeError
              | Some st =>
                  match w with
                  | ArgDel => match st with ByComps => UB | _ => fail s ETypeError end  (* pycomps.c:450; pycomps_utils.c:210-213, 257-260 *)
                  | ArgOther => fail s ETypeError
                  | ArgVar v' =>
                      match var s v' with
                      | None => fail s ENameError
                      | Some y =>
                          b' <- peek m y ;;
                          match body b' with
                          | PyVal t l =>
                              if vtype_eqb t (atype a)
                              then m1 <- set_attr m x k c cache a st y l ;; Ok (mkS m1 vs, ONone)
                              else fail s ETypeError
                          | _ => fail s ETypeError
                          end
                      end
                  end
              end
          | _ => fail s EAttributeError
          end
      end
  | PEdit v w =>
      match var s v with
      | None => fail s ENameError
      | Some x =>
          b <- peek m x ;;
          match body b with
          | PyVal _ l => d <- peek m l ;;
                         match body d with CVal _ => m1 <- put m l (CVal w) ;; Ok (mkS m1 vs, ONone) | _ => UB end
          | _ => fail s ETypeError
          end
      end
  | PRead v =>
      match var s v with
      | None => fail s ENameError
      | Some x =>
          b <- peek m x ;;
          match body b with
          | PyVal _ l => d <- peek m l ;; match body d with CVal c => Ok (s, OContent c) | _ => UB end
          | _ => fail s ETypeError
          end
      end
  | PClear v =>                                                         (* pycomps.c:201-211 *)
      match var s v with
      | None => fail s ENameError
      | Some x =>
          b <- peek m x ;;
          match body b with
          | PyObj KComps c cache =>
              m1 <- rel m c ;; let (m2, o) := new_obj m1 KComps (fun _ => None) in
              m3 <- put m2 x (PyObj KComps o cache) ;; Ok (mkS m3 vs, ONone)
          | _ => fail s EAttributeError
          end
      end
  | PLoad v f =>                                                        (* pycomps.c:244-263, 354-373 *)
      match var s v with
      | None => fail s ENameError
      | Some x =>
          b <- peek m x ;;
          match body b with
          | PyObj KComps c cache =>
              let (m0, o) := new_obj m KComps f in
              m1 <- put m0 x (PyObj KComps c empty_slots) ;;
              m2 <- rel_all m1 (opts cache (fields KComps)) ;;
              m3 <- rel m2 c ;;
              m4 <- put m3 x (PyObj KComps o empty_slots) ;; Ok (mkS m4 vs, ONone)
          | _ => fail s EAttributeError
          end
      end
  end.
Fixpoint run (s : state) (l : list pop) : res (state * list out) :=
  match l with
  | [] => Ok (s, [])
  | p :: r => so <- step s p ;; ro <- run (fst so) r ;; Ok (fst ro, snd so :: snd ro)
  end.
(** The end of the program: every variable goes. *)
Definition finish (s : state) : res mem :=
  rel_all (s_mem s) (flat_map (fun x => match x with Some a => [a] | None => [] end) (s_vars s)).
End Model.
Arguments pbody V : clear implicits.
Arguments pop V : clear implicits.
Arguments out V : clear implicits.
Arguments state V : clear implicits.
