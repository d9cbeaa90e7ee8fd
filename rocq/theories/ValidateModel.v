(** Model of comps_validate.c and of the validation rules of groups, categories,
    environments (their ValidateRules arrays) and documents (comps_doc.c).

    Simplifications.  Only the result of a validation is modelled, not its
    reference counts.  Where the rules walk the member list of an object, the
    model gives every position its own address; PropertiesE proves the duplicate
    check independent of the addresses (objects stored twice included). *)
From Coq Require Import NArith Nnat.
From Verif Require Import CStr HSListModel SetModel RTreeModel MRTreeModel ObjModel DocModel Dec StrModel.

(** err_object of an error. *)
Inductive vobj := VGroup (g : group) | VCategory (c : category) | VEnv (e : env) | VPkg (p : pkg) | VGid (i : gid).
(** COMPS_ValOkResult, COMPS_ValErrResult (comps_validate.h): the list of
    (err_object, err_msg). *)
Inductive vres := VOk | VErr (l : list (vobj * str)).

(** comps_valgenres_prefix, comps_validate.c:47-64: for every message, realloc,
    memmove, memcpy. *)
Fixpoint prefix_msgs (p : str) (l : list (vobj * str)) : res (list (vobj * str)) :=
  match l with
  | [] => Ok []
  | (o, m) :: r =>
      m' <- put (length m + length p + 1) (p ++ m) ;;
      t <- prefix_msgs p r ;;
      Ok ((o, m') :: t)
  end.
Definition valgenres_prefix (v : vres) (p : str) : res vres :=
  match v with VOk => Ok VOk | VErr l => l' <- prefix_msgs p l ;; Ok (VErr l') end.
(** comps_valgenres_concat, comps_validate.c:25-45, on two error results; an Ok
    result would be read as an error result. *)
Definition valgenres_concat (a b : vres) : res vres :=
  match a, b with VErr l1, VErr l2 => Ok (VErr (l1 ++ l2)) | _, _ => UB end.

(** A rule: its verbose_msg and its rule_check applied to the object. *)
Definition rule A := (str * (A -> res vres))%type.
(** comps_validate_execute, comps_validate.c:115-136; [acc] is valres. *)
Fixpoint execute_loop {A} (o : A) (rules : list (rule A)) (acc : option (list (vobj * str))) : res vres :=
  match rules with
  | [] => Ok (match acc with None => VOk | Some l => VErr l end)
  | (msg, check) :: r =>
      t <- check o ;;
      match t with
      | VOk => execute_loop o r acc
      | VErr _ =>
          t' <- valgenres_prefix t msg ;;
          v <- valgenres_concat (VErr (match acc with None => [] | Some l => l end)) t' ;;
          match v with VErr l => execute_loop o r (Some l) | VOk => UB end
      end
  end.
Definition execute {A} (o : A) (rules : list (rule A)) : res vres := execute_loop o rules None.

(** comps_empty_check, comps_validate.c:138-163; __comps_strcmp (comps_utils.c:33)
    tells a NULL text from an empty one. *)
Definition empty_check (o : vobj) (v : option pval) : res vres :=
  match v with
  | None => Ok (VErr [(o, S_ "attr not set")])
  | Some (PStr (Some [])) => Ok (VErr [(o, S_ "attr empty")])
  | Some (PStr _) => Ok VOk
  | Some _ => UB
  end.

(** A size_t printed with %d: its low 32 bits as an int. *)
Definition as_int (x : N) : Z :=
  let y := (x mod 2 ^ 32)%N in if (y <? 2 ^ 31)%N then Z.of_N y else (Z.of_N y - 2 ^ 32)%Z.
(** The message of comps_objlist_unique_check, comps_validate.c:192-195;
    [index] is an int, [x] a size_t. *)
Definition dup_msg (index x : nat) : res str :=
  let fmt := S_ "Duplicate items at %d and %d" in
  put (length fmt - 3 + N.to_nat (digits_count (N.of_nat x)) + N.to_nat (digits_count (N.of_nat index)))
      (S_ "Duplicate items at " ++ decZ (as_int (N.of_nat index)) ++ S_ " and "
       ++ decZ (as_int (N.of_nat x))).
Section Unique.
Context {A : Type} (cmp : A -> A -> bool) (o : vobj).
(** comps_objlist_unique_check, comps_validate.c:164-208.  [whole] is the list
    (address, value), [l] what is left of it, [x] the position. *)
Fixpoint unique_loop (whole l : list (@tagged A)) (x : nat) (set : hsl (@tagged A))
  (acc : option (list (vobj * str))) : res vres :=
  match l with
  | [] => Ok (match acc with None => VOk | Some e => VErr e end)
  | d :: r =>
      match set_data_at (tag_cmp cmp) set d with
      | None => s <- set_add (tag_cmp cmp) set d ;; unique_loop whole r (S x) (fst s) acc
      | Some data =>
          match tag_index whole (fst data) 0 with
          | None => UB  (* comps_objlist_index returns -1 *)
          | Some i =>
              m <- dup_msg i x ;;
              unique_loop whole r (S x) set
                (Some (match acc with None => [] | Some e => e end ++ [(o, m)]))
          end
      end
  end.
Definition unique_check (l : list (@tagged A)) : res vres := unique_loop l l 0 hs_empty None.
End Unique.
(** Every position its own address. *)
Definition own_tags {A} (l : list A) : list (@tagged A) := combine (seq 0 (length l)) l.

(** COMPS_DocGroupPackage_ValidateRules, comps_docpackage.c:242-248, and
    COMPS_DocGroupId_ValidateRules, comps_docgroupid.c:153-159; no other rule runs
    them. *)
Definition pkg_rules : list (rule pkg) :=
  [ (S_ "Package name check: ", fun p => empty_check (VPkg p) (option_map PStr (p_name p))) ].
Definition gid_rules : list (rule gid) :=
  [ (S_ "GroupId name check: ", fun i => empty_check (VGid i) (option_map PStr (gi_name i))) ].
(** COMPS_DocGroup_ValidateRules, comps_docgroup.c:460-470. *)
Definition group_rules : list (rule group) :=
  [ (S_ "Group id check: ",
     fun g => v <- base_get (g_base g) (S_ "id") ;; empty_check (VGroup g) v);
    (S_ "Group unique package list check: ",
     fun g => unique_check pkg_cmp (VGroup g) (own_tags (g_pkgs g))) ].
(** COMPS_DocCategory_ValidateRules, comps_doccategory.c:378-388. *)
Definition category_rules : list (rule category) :=
  [ (S_ "Category id check: ",
     fun c => v <- base_get (c_base c) (S_ "id") ;; empty_check (VCategory c) v);
    (S_ "Category unique package list check: ",
     fun c => unique_check gid_cmp (VCategory c) (own_tags (c_gids c))) ].
(** COMPS_DocEnv_ValidateRules, comps_docenv.c:489-503. *)
Definition env_rules : list (rule env) :=
  [ (S_ "Environment id check: ",
     fun e => v <- base_get (e_base e) (S_ "id") ;; empty_check (VEnv e) v);
    (S_ "Environment unique group list check: ",
     fun e => unique_check gid_cmp (VEnv e) (own_tags (e_groups e)));
    (S_ "Environment unique option list check: ",
     fun e => unique_check gid_cmp (VEnv e) (own_tags (e_options e))) ].

(** comps_doc_listobjs_validate, comps_doc.c:886-915. *)
Fixpoint listobjs_loop {A} (rules : list (rule A)) (l : list A) (x : N) (acc : option (list (vobj * str)))
  : res vres :=
  match l with
  | [] => Ok (match acc with None => VOk | Some e => VErr e end)
  | o :: r =>
      t <- execute o rules ;;
      match t with
      | VOk => listobjs_loop rules r (N.succ x) acc
      | VErr _ =>
          p <- put (N.to_nat (digits_count x) * 3) (dec x ++ S_ ".") ;;
          t' <- valgenres_prefix t p ;;
          v <- valgenres_concat (VErr (match acc with None => [] | Some e => e end)) t' ;;
          match v with VErr e => listobjs_loop rules r (N.succ x) (Some e) | VOk => UB end
      end
  end.
Definition listobjs_validate {A} (rules : list (rule A)) (l : list A) : res vres :=
  listobjs_loop rules l 0 None.
(** COMPS_Doc_ValidateRules, comps_doc.c:933-948.  The getters may add empty
    lists to the document, which changes none of the lists read later
    (SpecD: C23_getters), so each rule reads the document given. *)
Definition doc_rules : list (rule doc) :=
  [ (S_ "Groups check:", fun d => p <- doc_groups d ;; listobjs_validate group_rules (snd p));
    (S_ "Categories check:", fun d => p <- doc_cats d ;; listobjs_validate category_rules (snd p));
    (S_ "Environments check:", fun d => p <- doc_envs d ;; listobjs_validate env_rules (snd p)) ].
(** comps_validate_execute(doc, COMPS_Doc_ValidateRules), the call made by the
    users of the library (python/src/pycomps.c). *)
Definition doc_validate (d : doc) : res vres := execute d doc_rules.
