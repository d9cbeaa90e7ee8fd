(** Property theorems for the Python side of the document objects (C53-C59). *)
From Coq Require Import NArith.
From Verif Require Import CStr CStrFacts HSListModel SetModel RTreeModel RTreeFacts RTreeFacts2 RTreeFacts3 RTreeFacts4
  SpecA ObjModel ObjFacts ObjFacts2 SpecC PropertiesC DocModel DocFacts DocFacts2 SpecD SpecD2 Dec StrModel StrFacts SpecE
  CrcModel CrcFacts PyObjModel PyUnionFacts SpecJ SpecJ2.

(** * C53: the sum of two lists of groups, categories or environments *)
(** For any lists.  The first part of the result corresponds to the first list,
    position by position: the first object of an id is combined with the second
    list's first object of that id, if any; later ones of the same id are plain
    copies.  Then follow, unchanged and in order, all objects of the second list
    whose ids the first list lacks. *)
Theorem C53_groups_sum_partial : forall l1 l2, Forall gok l1 -> Forall gok l2 ->
  exists out, py_groups_union l1 l2 = Ok out /\ Forall gok out /\
  exists head, out = head ++ fresh oid_dec group_id l1 l2 /\ length head = length l1 /\
    forall i x, nth_error l1 i = Some x -> exists u, nth_error head i = Some u /\ group_id u = group_id x /\
      match partner oid_dec group_id l1 l2 i x with Some y => group_united x y u | None => group_equal u x end.
Proof. exact groups_sum. Qed.
Print Assumptions C53_groups_sum_partial.
Theorem C53_categories_sum_partial : forall l1 l2, Forall cok l1 -> Forall cok l2 ->
  exists out, py_cats_union l1 l2 = Ok out /\ Forall cok out /\
  exists head, out = head ++ fresh oid_dec category_id l1 l2 /\ length head = length l1 /\
    forall i x, nth_error l1 i = Some x -> exists u, nth_error head i = Some u /\ category_id u = category_id x /\
      match partner oid_dec category_id l1 l2 i x with Some y => category_united x y u | None => category_equal u x end.
Proof. exact cats_sum. Qed.
Print Assumptions C53_categories_sum_partial.
Theorem C53_environments_sum_partial : forall l1 l2, Forall eok l1 -> Forall eok l2 ->
  exists out, py_envs_union l1 l2 = Ok out /\ Forall eok out /\
  exists head, out = head ++ fresh oid_dec env_id l1 l2 /\ length head = length l1 /\
    forall i x, nth_error l1 i = Some x -> exists u, nth_error head i = Some u /\ env_id u = env_id x /\
      match partner oid_dec env_id l1 l2 i x with Some y => env_united x y u | None => env_equal u x end.
Proof. exact envs_sum. Qed.
Print Assumptions C53_environments_sum_partial.
(** If no id repeats within a list, the sum is what it should be: every id of
    either list once, objects of both lists combined, others kept. *)
Theorem C53_distinct :
  (forall l1 l2, Forall gok l1 -> Forall gok l2 -> NoDup (map group_id l1) -> NoDup (map group_id l2) ->
     exists out, py_groups_union l1 l2 = Ok out /\ list_sum group_id group_equal group_united l1 l2 out) /\
  (forall l1 l2, Forall cok l1 -> Forall cok l2 -> NoDup (map category_id l1) -> NoDup (map category_id l2) ->
     exists out, py_cats_union l1 l2 = Ok out /\ list_sum category_id category_equal category_united l1 l2 out) /\
  (forall l1 l2, Forall eok l1 -> Forall eok l2 -> NoDup (map env_id l1) -> NoDup (map env_id l2) ->
     exists out, py_envs_union l1 l2 = Ok out /\ list_sum env_id env_equal env_united l1 l2 out).
Proof.
  split; [|split]; intros l1 l2 H1 H2 N1 N2.
  - destruct (groups_sum l1 l2 H1 H2) as (out & E & _ & H). exists out. split; [exact E|]. now apply groups_sum_distinct.
  - destruct (cats_sum l1 l2 H1 H2) as (out & E & _ & H). exists out. split; [exact E|]. now apply cats_sum_distinct.
  - destruct (envs_sum l1 l2 H1 H2) as (out & E & _ & H). exists out. split; [exact E|]. now apply envs_sum_distinct.
Qed.
Print Assumptions C53_distinct.
Definition id_base (i n : string) : base :=
  match props_of [(S_ "id", PStr (Some (S_ i))); (S_ "name", PStr (Some (S_ n)))] with Ok b => b | _ => base_create end.
Lemma id_base_ok : breach (id_base "g" "A") /\ breach (id_base "g" "B") /\ breach (id_base "g" "C") /\ breach (id_base "h" "A") /\ breach (id_base "k" "A").
Proof.
  repeat split; match goal with |- reach _ (_ (id_base ?i ?n)) => pose proof (props_of_breach
    [(S_ "id", PStr (Some (S_ i))); (S_ "name", PStr (Some (S_ n)))] (id_base i n) ltac:(vm_compute; reflexivity)) as (H1 & H2 & H3); assumption end.
Qed.
Definition id_name (g : group) := (rt_get (b_props (g_base g)) (S_ "id"), rt_get (b_props (g_base g)) (S_ "name"), map p_name (g_pkgs g)).
Example C53_case :
  let l1 := [mkG (id_base "g" "A") [mkp "a" 0]; mkG (id_base "h" "A") []] in
  let l2 := [mkG (id_base "k" "A") []; mkG (id_base "g" "B") [mkp "b" 0]] in
  Forall gok l1 /\ Forall gok l2 /\ NoDup (map group_id l1) /\ NoDup (map group_id l2) /\
  rmap (map id_name) (py_groups_union l1 l2) = Ok
    [(Ok (Some (PStr (Some (S_ "g")))), Ok (Some (PStr (Some (S_ "B")))), [Some (Some (S_ "a")); Some (Some (S_ "b"))]);
     (Ok (Some (PStr (Some (S_ "h")))), Ok (Some (PStr (Some (S_ "A")))), []);
     (Ok (Some (PStr (Some (S_ "k")))), Ok (Some (PStr (Some (S_ "A")))), [])].
Proof.
  destruct id_base_ok as (H1 & H2 & _ & H4 & H5).
  split; [repeat (apply Forall_cons; [assumption|]); apply Forall_nil|]. split; [repeat (apply Forall_cons; [assumption|]); apply Forall_nil|].
  split; [vm_compute; repeat constructor; cbn; intuition discriminate|].
  split; [vm_compute; repeat constructor; cbn; intuition discriminate|]. vm_compute. reflexivity.
Qed.
(** Repeated ids in the second list: a second object for an id of the first list
    is ignored, and of a new id all objects are added, so ids repeat in the sum. *)
Theorem C53_repeated_refuted :
  exists l1 l2, Forall gok l1 /\ Forall gok l2 /\ NoDup (map group_id l1) /\
    (exists out, py_groups_union l1 l2 = Ok out /\ ~ NoDup (map group_id out)) /\
    rmap (map id_name) (py_groups_union l1 l2) = Ok
    [(Ok (Some (PStr (Some (S_ "g")))), Ok (Some (PStr (Some (S_ "B")))), [Some (Some (S_ "b"))]);
     (Ok (Some (PStr (Some (S_ "k")))), Ok (Some (PStr (Some (S_ "A")))), []);
     (Ok (Some (PStr (Some (S_ "k")))), Ok (Some (PStr (Some (S_ "A")))), [])].
Proof.
  destruct id_base_ok as (H1 & H2 & H3 & _ & H5).
  exists [mkG (id_base "g" "A") []],
    [mkG (id_base "g" "B") [mkp "b" 0]; mkG (id_base "g" "C") [mkp "c" 0]; mkG (id_base "k" "A") []; mkG (id_base "k" "A") []].
  split; [repeat (apply Forall_cons; [assumption|]); apply Forall_nil|]. split; [repeat (apply Forall_cons; [assumption|]); apply Forall_nil|].
  split; [vm_compute; repeat constructor; cbn; intuition discriminate|]. split; [|vm_compute; reflexivity].
  eexists. split; [vm_compute; reflexivity|]. vm_compute. intros H. inversion H as [|? ? _ H']. inversion H' as [|? ? Hn _]. apply Hn. now left.
Qed.
Print Assumptions C53_repeated_refuted.
(** Lists of packages: the type of the last package of that name in the second
    list is taken over, nothing else. *)
Theorem C53_packages_sum : forall l1 l2,
  exists out, py_pkgs_union l1 l2 = Ok out /\
  exists head, out = head ++ fresh name_dec p_name l1 l2 /\ length head = length l1 /\
    forall i x, nth_error l1 i = Some x ->
      nth_error head i = Some
        match partner name_dec p_name l1 (rev l2) i x with
        | Some y => mkPkg (p_name x) (p_requires x) (p_bao x) (p_type y) (p_arches x)
        | None => x
        end.
Proof. exact py_pkgs_union_spec. Qed.
Print Assumptions C53_packages_sum.
Example C53_packages_case :
  py_pkgs_union [mkp "a" 0; mkp "b" 1; mkp "a" 2] [mkp "c" 1; mkp "a" 3; mkp "a" 1; mkp "c" 2]
  = Ok [mkp "a" 1; mkp "b" 1; mkp "a" 2; mkp "c" 1; mkp "c" 2].
Proof. vm_compute. reflexivity. Qed.

(** * C54: crc32 *)
(** The table-driven loop divides by the CRC-32 generator polynomial
    x^32+x^26+x^23+x^22+x^16+x^12+x^11+x^10+x^8+x^7+x^5+x^4+x^2+x+1: its result
    (complemented, bits reversed) is the remainder of the message with 32 zero
    bits appended, its first 32 bits having been combined with the complemented
    previous value. *)
Theorem C54_remainder : forall c l, is_bytes l -> (c < 2 ^ 32)%N ->
  remainder (dividend (N.lxor c ones32) (message l)) crc_poly (poly (bits 32 (N.lxor (crc32 c l) ones32))).
Proof. exact crc_remainder. Qed.
Print Assumptions C54_remainder.
Theorem C54_remainder_unique : forall m g r s, g <> 0%N -> remainder m g r -> remainder m g s -> r = s.
Proof. exact remainder_unique. Qed.
Print Assumptions C54_remainder_unique.
Theorem C54_range : forall c l, is_bytes l -> (c < 2 ^ 32)%N -> (crc32 c l < 2 ^ 32)%N.
Proof. exact crc32_small. Qed.
Print Assumptions C54_range.
Theorem C54_incremental : forall c a b, crc32 (crc32 c a) b = crc32 c (a ++ b).
Proof. exact crc_incremental. Qed.
Print Assumptions C54_incremental.
Theorem C54_burst : forall c pre a b post, (c < 2 ^ 32)%N ->
  is_bytes pre -> is_bytes a -> is_bytes b -> is_bytes post -> length a = length b -> length a <= 4 ->
  crc32 c (pre ++ a ++ post) = crc32 c (pre ++ b ++ post) -> a = b.
Proof. exact crc_burst. Qed.
Print Assumptions C54_burst.
(** The check value of CRC-32/ISO-HDLC. *)
Example C54_case : crc32 0 (bytes (S_ "123456789")) = 3421780262%N /\ is_bytes (bytes (S_ "123456789")) /\ crc_poly = 4374732215%N.
Proof. split; [vm_compute; reflexivity|]. split; [apply bytes_ok|vm_compute; reflexivity]. Qed.

(** * C55: hash() *)
(** Equal objects have equal hashes: group ids, categories, environments. *)
Theorem C55_equal_hash :
  (forall a b, py_gid_cmp a (Same b) OpEq = GAnswer true -> gid_hash a = gid_hash b) /\
  (forall a b, cok a -> cok b -> py_category_cmp a (Same b) OpEq = Ok (Answer true) -> category_hash a = category_hash b) /\
  (forall a b, eok a -> eok b -> py_env_cmp a (Same b) OpEq = Ok (Answer true) -> env_hash a = env_hash b).
Proof.
  assert (E : forall x y : cmp_result, Ok x = Ok y -> x = y) by (intros x y H; now inversion H).
  split; [|split].
  - intros a b H. cbn in H. inversion H as [H']. apply gid_cmp_iff in H'. unfold gid_hash. now rewrite (gid_same_tostr _ _ H').
  - intros a b Ha Hb H. destruct rich_comparison as (_ & _ & (Hc & _) & _).
    destruct (Hc a b Ha Hb) as (e & E1 & _ & Hs). rewrite E1 in H. apply E in H. inversion H; subst. now apply category_hash_same, Hs.
  - intros a b Ha Hb H. destruct rich_comparison as (_ & _ & _ & (Hc & _)).
    destruct (Hc a b Ha Hb) as (e & E1 & _ & Hs). rewrite E1 in H. apply E in H. inversion H; subst. now apply env_hash_same, Hs.
Qed.
Print Assumptions C55_equal_hash.
(** Packages and groups: if basearchonly, which is shown but not compared, agrees. *)
Theorem C55_equal_hash_partial :
  (forall a b, py_pkg_cmp a (Same b) OpEq = Ok (Answer true) -> bao_shown a = bao_shown b -> pkg_hash a = pkg_hash b) /\
  (forall a b, gok a -> gok b -> py_group_cmp a (Same b) OpEq = Ok (Answer true) ->
     map bao_shown (g_pkgs a) = map bao_shown (g_pkgs b) -> group_hash a = group_hash b).
Proof.
  assert (E : forall x y : cmp_result, Ok x = Ok y -> x = y) by (intros x y H; now inversion H).
  destruct rich_comparison as ((Hp & _) & (Hg & _) & _). split.
  - intros a b H Hb. destruct (Hp a b I I) as (e & E1 & _ & Hs). rewrite E1 in H. apply E in H. inversion H; subst.
    unfold pkg_hash. rewrite (pkg_same_tostr a b); [reflexivity| |exact Hb]. now apply Hs.
  - intros a b Ha Hb H Hbs. destruct (Hg a b Ha Hb) as (e & E1 & _ & Hs). rewrite E1 in H. apply E in H. inversion H; subst.
    apply group_hash_same; [now apply Hs|exact Hbs].
Qed.
Print Assumptions C55_equal_hash_partial.
Theorem C55_equal_hash_refuted :
  (exists a b, py_pkg_cmp a (Same b) OpEq = Ok (Answer true) /\ pkg_hash a <> pkg_hash b) /\
  (exists a b, gok a /\ gok b /\ py_group_cmp a (Same b) OpEq = Ok (Answer true) /\ group_hash a <> group_hash b).
Proof.
  set (q := mkPkg (Some (Some (S_ "a"))) None (Some 1%Z) 0%Z None). split.
  - exists (mkp "a" 0), q. split; [vm_compute; reflexivity|vm_compute; discriminate].
  - exists (mkG ex_base1 [mkp "a" 0]), (mkG ex_base1 [q]). split; [exact ex_base1_ok|]. split; [exact ex_base1_ok|].
    split; [vm_compute; reflexivity|vm_compute; discriminate].
Qed.
Print Assumptions C55_equal_hash_refuted.
(** A hash is never -1, CPython's error value, and fits 32 bits. *)
Theorem C55_range : forall h,
  ((exists p, pkg_hash p = Ok h) \/ (exists g, gid_hash g = Ok h) \/ (exists g, group_hash g = Ok h) \/
   (exists c, category_hash c = Ok h) \/ (exists e, env_hash e = Ok h)) -> (0 <= h < 2 ^ 32)%Z.
Proof. intros h [(x & H)|[(x & H)|[(x & H)|[(x & H)|(x & H)]]]]; exact (hash_in_range _ h H). Qed.
Print Assumptions C55_range.
(** Group ids whose names differ within four neighbouring bytes hash differently. *)
Theorem C55_close_names : forall d pre a b post al bl, length a = length b -> length a <= 4 -> a <> b ->
  gid_hash (mkGid (Some (Some (pre ++ a ++ post))) d al) <> gid_hash (mkGid (Some (Some (pre ++ b ++ post))) d bl).
Proof. intros d pre a b post al bl Hl H4 Hne H. apply Hne. exact (gid_hash_burst d pre a b post al bl Hl H4 H). Qed.
Print Assumptions C55_close_names.
Example C55_case :
  py_gid_cmp (mki "a" true) (Same (mkGid (Some (Some (S_ "a"))) true (Some []))) OpEq = GAnswer true /\
  gid_hash (mki "a" true) = Ok 2353743939%Z /\ gid_hash (mki "a" true) <> gid_hash (mki "b" true) /\
  group_hash (mkG ex_base1 [mkp "a" 0]) <> group_hash (mkG ex_base2 [mkp "a" 0]).
Proof. split; [vm_compute; reflexivity|]. split; [vm_compute; reflexivity|]. split; vm_compute; discriminate. Qed.

(** * C56: comparison operators *)
(** [==] and [!=] of two objects of the type are complementary and decided by
    their contents; None is unequal to everything; any other operand raises
    TypeError and any other operator NotImplementedError. *)
Theorem C56_comparison :
  cmp_contract (fun _ => True) pkg_same py_pkg_cmp /\
  cmp_contract gok group_same py_group_cmp /\
  cmp_contract cok category_same py_category_cmp /\
  cmp_contract eok env_same py_env_cmp.
Proof. exact rich_comparison. Qed.
Print Assumptions C56_comparison.
Example C56_case :
  gok (mkG ex_base1 [mkp "a" 0]) /\
  py_group_cmp (mkG ex_base1 [mkp "a" 0]) (Same (mkG ex_base1 [mkp "a" 0])) OpEq = Ok (Answer true) /\
  py_group_cmp (mkG ex_base1 [mkp "a" 0]) (Same (mkG ex_base1 [mkp "a" 1])) OpNe = Ok (Answer true) /\
  py_group_cmp (mkG ex_base1 []) IsNone OpEq = Ok (Answer false) /\
  py_group_cmp (mkG ex_base1 []) Foreign OpEq = Ok TypeError /\
  py_group_cmp (mkG ex_base1 []) Foreign OpLt = Ok NotImplementedError.
Proof. split; [exact ex_base1_ok|]. repeat split; vm_compute; reflexivity. Qed.
(** Group ids can also be compared with text: [==] tells whether the id has
    that name (up to a NUL in the text) and no default flag. *)
Theorem C56_gid_text_partial : forall g s t, before_nul s t ->
  exists e, py_gid_cmp g (Text s) OpEq = GAnswer e /\ py_gid_cmp g (Text s) OpNe = GAnswer (negb e) /\
    (e = true <-> gi_name g = Some (Some t) /\ gi_def g = false).
Proof.
  intros g s t H. rewrite (before_nul_unique s t (cut s) H (cut_spec s)).
  exists (if name_dec (gi_name g) (Some (Some (cut s))) then negb (gi_def g) else false).
  pose proof (gid_cmp_text g s true) as H1. pose proof (gid_cmp_text g s false) as H2. cbn [op_of] in H1, H2.
  rewrite H1, H2. destruct (name_dec (gi_name g) (Some (Some (cut s)))) as [E|E]; destruct (gi_def g); cbn;
  (split; [reflexivity|]); (split; [reflexivity|]); split; intros; try discriminate; intuition (discriminate || congruence).
Qed.
Print Assumptions C56_gid_text_partial.
Theorem C56_gid_comparison_partial : forall g,
  (forall h, exists e, py_gid_cmp g (Same h) OpEq = GAnswer e /\ py_gid_cmp g (Same h) OpNe = GAnswer (negb e) /\ (e = true <-> gid_same g h)) /\
  py_gid_cmp g IsNone OpEq = GAnswer false /\ py_gid_cmp g IsNone OpNe = GAnswer true /\
  (forall op, op = OpEq \/ op = OpNe -> py_gid_cmp g Foreign op = GTypeError) /\
  (forall x op, op <> OpEq -> op <> OpNe -> py_gid_cmp g x op = GNotImplemented).
Proof.
  intros g. split; [|split; [|split; [|split]]].
  - intros h. exists (gid_cmp g h). split; [reflexivity|]. split; [reflexivity|]. apply gid_cmp_iff.
  - reflexivity.
  - reflexivity.
  - intros op [-> | ->]; reflexivity.
  - intros x op H1 H2. destruct op; try reflexivity; contradiction.
Qed.
Print Assumptions C56_gid_comparison_partial.
(** An id that is the default compares unequal to its own name, and comparison
    with bytes answers while an exception is set. *)
Theorem C56_gid_text_refuted :
  (exists g s, gi_name g = Some (Some s) /\ ~ In NUL s /\ py_gid_cmp g (Text s) OpEq = GAnswer false) /\
  (exists g s, py_gid_cmp g (Bytes s) OpEq = GPending false).
Proof.
  split.
  - exists (mki "a" true), (S_ "a"). split; [reflexivity|]. split; [vm_compute; intuition discriminate|]. vm_compute. reflexivity.
  - exists (mki "a" false), (S_ "a"). reflexivity.
Qed.
Print Assumptions C56_gid_text_refuted.
Example C56_gid_case :
  before_nul (S_ "core") (S_ "core") /\ py_gid_cmp (mki "core" false) (Text (S_ "core")) OpEq = GAnswer true /\
  py_gid_cmp (mki "core" false) (Text (S_ "base")) OpNe = GAnswer true.
Proof. split; [split; [vm_compute; intuition discriminate|now left]|]. split; vm_compute; reflexivity. Qed.

(** * C57: attributes *)
(** Any sequence of assignments to attributes of a group (without deleting
    display_order), each with any Python value: none runs into undefined
    behaviour, each reports what [told] says, and every attribute reads back
    what the last assignment that stored something gave it. *)
Theorem C57_group_attributes_partial : forall l b, built SpecC.group_keys b -> well_typed group_attrs b ->
  (forall a v, In (a, v) l -> In a group_attrs /\ deletes_number a v = false) ->
  exists b', py_setattrs b l = Ok (b', map (fun p => told (fst p) (snd p)) l) /\ built SpecC.group_keys b' /\ well_typed group_attrs b' /\
    (forall a, In a group_attrs -> py_getattr b' a = match last_read a l with Some x => Ok x | None => py_getattr b a end) /\
    b_names b' = b_names b /\ b_descs b' = b_descs b.
Proof. exact (setattrs_history SpecC.group_keys group_attrs group_keys_pf group_attrs_keys group_attrs_distinct). Qed.
Print Assumptions C57_group_attributes_partial.
Theorem C57_other_attributes_partial : forall l b, built category_keys b -> well_typed other_attrs b ->
  (forall a v, In (a, v) l -> In a other_attrs /\ deletes_number a v = false) ->
  exists b', py_setattrs b l = Ok (b', map (fun p => told (fst p) (snd p)) l) /\ built category_keys b' /\ well_typed other_attrs b' /\
    (forall a, In a other_attrs -> py_getattr b' a = match last_read a l with Some x => Ok x | None => py_getattr b a end) /\
    b_names b' = b_names b /\ b_descs b' = b_descs b.
Proof.
  exact (setattrs_history category_keys other_attrs category_keys_pf other_attrs_keys
           (fun a b Ha Hb => group_attrs_distinct a b (other_attrs_group a Ha) (other_attrs_group b Hb))).
Qed.
Print Assumptions C57_other_attributes_partial.
(** A refused assignment changes nothing. *)
Theorem C57_refused : forall b a v, built SpecC.group_keys b -> well_typed group_attrs b -> In a group_attrs ->
  deletes_number a v = false -> told a v = Raised -> py_setattr b a v = Ok (b, Raised).
Proof.
  intros b a v Hb Hw Ha Hd Ht.
  destruct (setattr_spec SpecC.group_keys group_attrs group_keys_pf group_attrs_keys group_attrs_distinct b a v Hb Hw Ha Hd)
    as (b' & E & _ & _ & Hr & _). rewrite (Hr Ht) in E. now rewrite E, Ht.
Qed.
Print Assumptions C57_refused.
(** The number stored for a Python integer: itself if it fits an int, otherwise
    congruent modulo 2^32, or -1 if it does not even fit a long. *)
Theorem C57_integers : forall z,
  stored_int z (int_stored z) /\ ((- 2 ^ 31 <= z < 2 ^ 31)%Z -> int_stored z = z).
Proof. intros z. split; [apply int_stored_spec|apply int_stored_small]. Qed.
Print Assumptions C57_integers.
Theorem C57_text : forall s, before_nul s (cut s) /\ (~ In NUL s -> cut s = s).
Proof.
  intros s. split; [apply cut_spec|]. intros H. apply (before_nul_unique s); [apply cut_spec|]. split; [exact H|now left].
Qed.
Print Assumptions C57_text.
Example C57_case :
  exists g b', py_group_init (Some (S_ "g")) None None None None None None = Ok g /\
  built SpecC.group_keys (g_base g) /\ well_typed group_attrs (g_base g) /\
  py_setattrs (g_base g) [(AStr (S_ "name"), PyText (S_ "N")); (ANum (S_ "display_order"), PyInt 7);
                          (ABool (S_ "def"), PyBool true); (AStr (S_ "id"), PyInt 1); (ANum (S_ "display_order"), PyText [])]
  = Ok (b', [Done; Done; Done; Raised; Raised]) /\
  map (py_getattr b') group_attrs
  = [Ok (PyText (S_ "g")); Ok (PyText (S_ "N")); Ok PyNone; Ok PyNone; Ok (PyInt 7); Ok (PyBool true); Ok PyNone; Ok (PyBool true)].
Proof.
  destruct (group_init_spec (Some (S_ "g")) None None None None None None) as (g & E & H1 & H2 & _).
  exists g. revert E. vm_compute (py_group_init _ _ _ _ _ _ _). intros E.
  assert (Eg : forall x y : group, Ok x = Ok y -> x = y) by (intros x y Hxy; now inversion Hxy).
  eexists. split; [exact E|]. split; [exact H1|]. split; [exact H2|]. apply Eg in E. rewrite <- E.
  split; vm_compute; reflexivity.
Qed.
(** Assigning None to a string attribute does not reset it; deleting a number
    passes NULL to PyLong_Check; integers are cut to 32 bits silently or stored
    as -1 with an exception left set. *)
Theorem C57_attributes_refuted :
  (exists b b', built SpecC.group_keys b /\ py_setattr b (AStr (S_ "name")) PyNone = Ok (b', Done) /\
      py_getattr b' (AStr (S_ "name")) = Ok (PyText (S_ "N"))) /\
  (forall b, py_setattr b (ANum (S_ "display_order")) PyNull = UB) /\
  (exists b b', built SpecC.group_keys b /\ py_setattr b (ANum (S_ "display_order")) (PyInt (2 ^ 32)) = Ok (b', Done) /\
      py_getattr b' (ANum (S_ "display_order")) = Ok (PyInt 0)) /\
  (exists b b', built SpecC.group_keys b /\ py_setattr b (ANum (S_ "display_order")) (PyInt (2 ^ 64)) = Ok (b', Pending) /\
      py_getattr b' (ANum (S_ "display_order")) = Ok (PyInt (-1))).
Proof.
  split; [|split; [|split]].
  - destruct (group_init_spec None (Some (S_ "N")) None None None None None) as (g & E & H1 & H2 & _).
    revert E. vm_compute (py_group_init _ _ _ _ _ _ _). intros E.
    assert (Eg : forall x y : group, Ok x = Ok y -> x = y) by (intros x y Hxy; now inversion Hxy). apply Eg in E. subst g.
    eexists. eexists. split; [exact H1|]. split; vm_compute; reflexivity.
  - reflexivity.
  - exists base_create. eexists. split; [constructor|]. split; vm_compute; reflexivity.
  - exists base_create. eexists. split; [constructor|]. split; vm_compute; reflexivity.
Qed.
Print Assumptions C57_attributes_refuted.
Theorem C57_package_attributes_partial : forall p a v, pkg_deref a v = false ->
  exists p', py_pkg_setattr p a v = Ok (p', pkg_told a v) /\
    py_pkg_getattr p' a = match pkg_read_back a v with Some x => Ok x | None => py_pkg_getattr p a end /\
    (forall a', a' <> a -> py_pkg_getattr p' a' = py_pkg_getattr p a') /\
    p_arches p' = p_arches p /\ (pkg_told a v = Raised -> p' = p).
Proof. exact pkg_setattr_spec. Qed.
Print Assumptions C57_package_attributes_partial.
Theorem C57_gid_attributes_partial : forall g a v, (a, v) <> (GDefault, PyNull) ->
  exists g', py_gid_setattr g a v = Ok (g', gid_told a v) /\
    py_gid_getattr g' a = match gid_read_back a v with Some x => Ok x | None => py_gid_getattr g a end /\
    (forall a', a' <> a -> py_gid_getattr g' a' = py_gid_getattr g a') /\
    gi_arches g' = gi_arches g /\ (gid_told a v = Raised -> g' = g).
Proof. exact gid_setattr_spec. Qed.
Print Assumptions C57_gid_attributes_partial.
Example C57_package_case :
  exists p', py_pkg_setattr (mkp "a" 0) PRequires (PyText (S_ "b")) = Ok (p', Done) /\
    py_pkg_getattr p' PRequires = Ok (PyText (S_ "b")) /\ py_pkg_getattr p' PName = Ok (PyText (S_ "a")).
Proof. eexists. split; [reflexivity|]. split; vm_compute; reflexivity. Qed.
(** Deleting type, basearchonly or a group id's default dereferences NULL; None
    as a type makes the package optional; None as a name reads back as the
    empty text. *)
Theorem C57_package_attributes_refuted :
  (forall p a v, pkg_deref a v = true -> py_pkg_setattr p a v = UB) /\
  (forall g, py_gid_setattr g GDefault PyNull = UB) /\
  (forall p, exists p', py_pkg_setattr p PType PyNone = Ok (p', Done) /\ p_type p' = PK_OPTIONAL) /\
  (forall p, exists p', py_pkg_setattr p PName PyNone = Ok (p', Done) /\ py_pkg_getattr p' PName = Ok (PyText [])).
Proof.
  split; [exact pkg_deref_ub|]. split; [reflexivity|]. split; intros p; eexists; (split; [reflexivity|reflexivity]).
Qed.
Print Assumptions C57_package_attributes_refuted.

(** * C58: constructors *)
Theorem C58_group_partial : forall id name desc disp def uservis lang,
  exists g, py_group_init id name desc disp def uservis lang = Ok g /\
    built SpecC.group_keys (g_base g) /\ well_typed group_attrs (g_base g) /\ g_pkgs g = [] /\
    py_getattr (g_base g) (AStr (S_ "id")) = Ok (given id) /\
    py_getattr (g_base g) (AStr (S_ "name")) = Ok (given name) /\
    py_getattr (g_base g) (AStr (S_ "desc")) = Ok (given desc) /\
    py_getattr (g_base g) (ANum (S_ "display_order")) = Ok (number_val (number (fun z => 0 <? z)%Z disp)) /\
    py_getattr (g_base g) (ABool (S_ "def")) = Ok (PyBool (truth false def)) /\
    py_getattr (g_base g) (ABool (S_ "uservisible")) = Ok (PyBool (truth true uservis)) /\
    py_getattr (g_base g) (ABool (S_ "biarchonly")) = Ok PyNone /\
    py_getattr (g_base g) (AStr (S_ "langonly")) = Ok (given lang).
Proof. exact group_init_spec. Qed.
Print Assumptions C58_group_partial.
Theorem C58_other_partial : forall id name desc disp,
  exists b, py_other_init id name desc disp = Ok b /\ built category_keys b /\ well_typed other_attrs b /\
    py_getattr b (AStr (S_ "id")) = Ok (given id) /\
    py_getattr b (AStr (S_ "name")) = Ok (given name) /\
    py_getattr b (AStr (S_ "desc")) = Ok (given desc) /\
    py_getattr b (ANum (S_ "display_order")) = Ok (number_val (number (fun z => negb (z =? -1))%Z disp)).
Proof. exact other_init_spec. Qed.
Print Assumptions C58_other_partial.
Theorem C58_package_partial : forall name type requires,
  let p := py_pkg_init name type requires in
  py_pkg_getattr p PName = Ok (text_or_empty name) /\
  py_pkg_getattr p PRequires = Ok (text_or_empty requires) /\
  py_pkg_getattr p PType = Ok (PyInt (match type with Some z => z | None => PK_UNKNOWN end)) /\
  py_pkg_getattr p PBao = Ok PyNone.
Proof. exact pkg_init_spec. Qed.
Print Assumptions C58_package_partial.
Theorem C58_gid : forall name def,
  let g := py_gid_init name def in
  py_gid_getattr g GName = Ok (PyText name) /\ py_gid_getattr g GDefault = Ok (PyBool (match def with Some b => b | None => false end)).
Proof. exact gid_init_spec. Qed.
Print Assumptions C58_gid.
Example C58_case :
  py_getattr base_create (ANum (S_ "display_order")) = Ok PyNone /\
  (exists g, py_group_init (Some (S_ "g")) None None (Some 5%Z) (Some 1%Z) None None = Ok g /\
     map (py_getattr (g_base g)) group_attrs
     = [Ok (PyText (S_ "g")); Ok PyNone; Ok PyNone; Ok PyNone; Ok (PyInt 5); Ok (PyBool true); Ok PyNone; Ok (PyBool true)]).
Proof. split; [vm_compute; reflexivity|]. eexists. split; vm_compute; reflexivity. Qed.
(** Given numbers that are not stored: a group's display_order of 0 or below, a
    category's or environment's of -1; and a package made in Python without
    [requires] never equals one read from a file without the attribute. *)
Theorem C58_constructors_refuted :
  (forall id name desc z def uservis lang, (z <= 0)%Z ->
     exists g, py_group_init id name desc (Some z) def uservis lang = Ok g /\
       py_getattr (g_base g) (ANum (S_ "display_order")) = Ok PyNone) /\
  (forall id name desc, exists b, py_other_init id name desc (Some (-1)%Z) = Ok b /\ py_getattr b (ANum (S_ "display_order")) = Ok PyNone) /\
  (forall name type, py_pkg_cmp (py_pkg_init name type None) (Same (mkPkg (Some name) None None (match type with Some z => z | None => PK_UNKNOWN end) None)) OpEq
     = Ok (Answer false)).
Proof.
  split; [|split].
  - intros id name desc z def uservis lang Hz.
    destruct (group_init_spec id name desc (Some z) def uservis lang) as (g & E & _ & _ & _ & _ & _ & _ & H & _).
    exists g. split; [exact E|]. rewrite H. cbn [number]. destruct (Z.ltb_spec 0 z); [lia|reflexivity].
  - intros id name desc. destruct (other_init_spec id name desc (Some (-1)%Z)) as (b & E & _ & _ & _ & _ & _ & H). exists b. auto.
  - intros name type. unfold py_pkg_cmp, py_cmp. rewrite pkg_init_unequal by reflexivity. reflexivity.
Qed.
Print Assumptions C58_constructors_refuted.

(** * C59: packages_match *)
Theorem C59_match_partial : forall g name t,
  (pkg_type t -> exists want, (forall p, want p = true <-> wanted name (Some t) p) /\
     py_packages_match g name (Some t) = Some (filter want (g_pkgs g))) /\
  (~ pkg_type t -> py_packages_match g name (Some t) = None).
Proof. intros g name t. split; [apply match_with_type|apply match_bad_type]. Qed.
Print Assumptions C59_match_partial.
(** Without a type the method finds nothing, whatever the name. *)
Theorem C59_match_refuted : forall g name, Forall (fun p => pkg_type (p_type p)) (g_pkgs g) -> py_packages_match g name None = Some [].
Proof. exact match_without_type. Qed.
Print Assumptions C59_match_refuted.
Example C59_case :
  let g := mkG base_create [mkp "a" 0; mkp "b" 3; mkp "a" 3] in
  Forall (fun p => pkg_type (p_type p)) (g_pkgs g) /\
  py_packages_match g (Some (S_ "a")) (Some PK_UNKNOWN) = Some [mkp "a" 0; mkp "a" 3] /\
  py_packages_match g (Some (S_ "a")) (Some 3%Z) = Some [mkp "a" 3] /\
  py_packages_match g (Some (S_ "a")) None = Some [] /\ py_packages_match g None (Some 5%Z) = None.
Proof. split; [repeat constructor; cbn; lia|]. repeat split; vm_compute; reflexivity. Qed.
