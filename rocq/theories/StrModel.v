(** Model of the code that renders objects as text into malloc'ed buffers:
    comps_obj.c (numbers, strings), comps_objlist.c (lists), comps_docpackage.c,
    comps_docgroupid.c, comps_docgroup.c, comps_doccategory.c, comps_docenv.c
    (to_str callbacks), comps_utils.c (architecture attribute), and of the
    inverse of the latter, the splitting of an architecture attribute in
    comps_elem.c.

    A buffer is its size in bytes and the text stored in it so far; writing text
    that does not fit together with its NUL is [UB].  malloc is assumed to
    succeed; sizes are natural numbers (the C code keeps some of them in an int,
    so this covers objects rendered in less than 2^31 bytes). *)
From Coq Require Import NArith Nnat.
From Verif Require Import CStr HSListModel SetModel RTreeModel ObjModel Dec.

(** strcpy / sprintf of the whole text into a fresh buffer of [size] bytes. *)
Definition put (size : nat) (s : str) : res str := if length s <? size then Ok s else UB.
(** strcat onto the text [b] in a buffer of [size] bytes. *)
Definition cat (size : nat) (b s : str) : res str := put size (b ++ s).
(** A sequence of strcat calls. *)
Fixpoint cats (size : nat) (b : str) (l : list str) : res str :=
  match l with [] => Ok b | s :: r => b' <- cat size b s ;; cats size b' r end.

(** (int)log10(n) for n > 0.  The floating-point log10 of an int is taken to be
    exact enough for its integral part to be that of the real logarithm. *)
Fixpoint ilog10_f (fuel : nat) (n : N) : nat :=
  match fuel with
  | O => O
  | S f => if (n <? 10)%N then O else S (ilog10_f f (n / 10))
  end.
Definition ilog10 (n : N) : nat := ilog10_f (S (N.size_nat n)) n.
(** comps_num_tostr, comps_obj.c:95-107.  log10 of a negative number is a NaN,
    whose conversion to int is undefined. *)
Definition num_tostr (z : Z) : res str :=
  x <- (if (z =? 0)%Z then Ok 1
        else if (z <? 0)%Z then UB
        else Ok (ilog10 (Z.to_N z) + 1)) ;;
  put (x + 1) (decZ z).
(** comps_str_tostr, comps_obj.c:135-145. *)
Definition str_tostr (s : ostr) : str := match s with Some x => x | None => [] end.
(** comps_object_tostr of a pointer that may be NULL, comps_obj.c:63-72. *)
Definition ostr_tostr (s : option ostr) : str := match s with Some x => str_tostr x | None => [] end.

(** comps_objlist_tostr_u, comps_objlist.c:448-488, given the texts of the
    elements.  total_strlen, 451-466. *)
Fixpoint list_total (items : list str) : nat :=
  match items with
  | [] => 0
  | [s] => length s
  | s :: r => 2 + length s + list_total r
  end.
(** The loop 472-482: every element but the last is followed by ", ". *)
Fixpoint list_body (items : list str) : list str :=
  match items with
  | [] => []
  | [s] => [s]
  | s :: r => s :: S_ ", " :: list_body r
  end.
(** The array of 449 has no elements for an empty list, which C forbids
    (6.7.6.2p5); compilers accept it and nothing is stored in it, so it is not
    counted as [UB] here. *)
Definition list_tostr (items : list str) : res str :=
  cats (10 + list_total items) [] ([S_ "["] ++ list_body items ++ [S_ "]"]).

(** Text of every element of a list. *)
Fixpoint map_r {A B} (f : A -> res B) (l : list A) : res (list B) :=
  match l with [] => Ok [] | x :: r => y <- f x ;; t <- map_r f r ;; Ok (y :: t) end.

(** comps_docpackage_str_u, comps_docpackage.c:207-231. *)
Definition pkg_tostr (p : pkg) : res str :=
  let name := ostr_tostr (p_name p) in
  let type := pkg_type_str (p_type p) in
  let requires := ostr_tostr (p_requires p) in
  let bao := match p_bao p with
             | Some z => if (z =? 0)%Z then S_ "False" else S_ "True"
             | None => S_ "False"
             end in
  let total := length (S_ "<COMPS_DocGroupPackage name='' type='' requires='' basearchonly=''>")
               + length name + length type + length requires + length bao + 1 in
  put total (S_ "<COMPS_DocGroupPackage name='" ++ name ++ S_ "' type='" ++ type
             ++ S_ "' requires='" ++ requires ++ S_ "' basearchonly='" ++ bao ++ S_ "'>").
(** comps_docgroupid_str_u, comps_docgroupid.c:92-100. *)
Definition gid_tostr (g : gid) : res str :=
  let name := ostr_tostr (gi_name g) in
  let def := if gi_def g then S_ "True" else S_ "False" in
  put (length (S_ "<COMPS_DocGroupId name='' default=''>") + length name + length def + 1)
      (S_ "<COMPS_DocGroupId name='" ++ name ++ S_ "' default='" ++ def ++ S_ "'>").

(** comps_object_tostr of a property value. *)
Definition pval_tostr (v : option pval) : res str :=
  match v with
  | None => Ok []
  | Some (PStr s) => Ok (str_tostr s)
  | Some (PNum z) => num_tostr z
  | Some (PList l) => list_tostr (map str_tostr l)
  end.
(** The loops over the getters, comps_docgroup.c:390-395,
    comps_doccategory.c:308-313, comps_docenv.c:404-409. *)
Fixpoint props_tostr (b : base) (keys : list str) : res (list str) :=
  match keys with
  | [] => Ok []
  | k :: r => v <- base_get b k ;; s <- pval_tostr v ;; t <- props_tostr b r ;; Ok (s :: t)
  end.
Definition sum_len (l : list str) : nat := fold_right (fun s n => length s + n) 0 l.
(** The concatenation loops 409-424, 327-342, 426-444: every text but the last
    is followed by ", ".  The dictionaries of translations have no to_str
    callback and render as the empty string. *)
Definition obj_render (head : str) (seps : nat) (props members : list str) : res str :=
  let texts := props ++ [[]; []] ++ members in
  cats (sum_len texts + 2 + seps * 2 + length head) []
       (head :: list_body texts ++ [S_ ">"]).
(** comps_docgroup_tostr_u, comps_docgroup.c:377-427. *)
Definition group_tostr (g : group) : res str :=
  props <- props_tostr (g_base g) [S_ "id"; S_ "name"; S_ "desc"; S_ "display_order"; S_ "def"; S_ "langonly"] ;;
  l <- map_r pkg_tostr (g_pkgs g) ;;
  m <- list_tostr l ;;
  obj_render (S_ "<COMPS_Group ") 8 props [m].
(** comps_doccategory_tostr_u, comps_doccategory.c:297-345. *)
Definition category_tostr (c : category) : res str :=
  props <- props_tostr (c_base c) [S_ "id"; S_ "name"; S_ "desc"; S_ "display_order"] ;;
  l <- map_r gid_tostr (c_gids c) ;;
  m <- list_tostr l ;;
  obj_render (S_ "<COMPS_Category ") 6 props [m].
(** comps_docenv_tostr_u, comps_docenv.c:392-447. *)
Definition env_tostr (e : env) : res str :=
  props <- props_tostr (e_base e) [S_ "id"; S_ "name"; S_ "desc"; S_ "display_order"] ;;
  l <- map_r gid_tostr (e_groups e) ;;
  m <- list_tostr l ;;
  l2 <- map_r gid_tostr (e_options e) ;;
  m2 <- list_tostr l2 ;;
  obj_render (S_ "<COMPS_Env ") 8 props [m; m2].

(** digits_count, comps_utils.c:62-73; the argument is an unsigned int. *)
Definition digits_count (x : N) : N :=
  let x := (x mod 2 ^ 32)%N in
  (if 100000000 <=? x then 9 else if 10000000 <=? x then 8 else if 1000000 <=? x then 7
   else if 100000 <=? x then 6 else if 10000 <=? x then 5 else if 1000 <=? x then 4
   else if 100 <=? x then 3 else if 10 <=? x then 2 else 1)%N.

(** __comps_xml_arch_str, comps_utils.c:86-114. *)
Fixpoint arch_body (l : list str) : list str :=
  match l with
  | [] => []
  | [s] => [s]
  | s :: r => s :: S_ " " :: arch_body r
  end.
Definition arch_str (l : option (list ostr)) : res str :=
  match l with
  | None | Some [] => put 1 []
  | Some l =>
      let texts := map str_tostr l in
      cats (fold_right (fun s n => length s + 1 + n) 0 texts) [] (arch_body texts)
  end.

(** strtok(s, " ,") called until it returns NULL: [cur] is the token being
    read, reversed. *)
Definition arch_sep (c : ascii) : bool := Ascii.eqb c " " || Ascii.eqb c ",".
Fixpoint strtok_loop (s cur : str) : list str :=
  match s with
  | [] => match cur with [] => [] | _ => [rev cur] end
  | c :: r =>
      if arch_sep c then
        match cur with [] => strtok_loop r [] | _ => rev cur :: strtok_loop r [] end
      else strtok_loop r (c :: cur)
  end.
(** __comps_split_arches, comps_elem.c:437-448. *)
Definition split_arches (s : str) : list ostr := map Some (strtok_loop s []).
