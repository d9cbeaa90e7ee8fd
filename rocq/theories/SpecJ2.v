(** More specifications for the Python side: constructors, attributes of packages
    and group ids, packages_match. *)
From Coq Require Import NArith.
From Verif Require Import CStr CStrFacts HSListModel SetModel RTreeModel RTreeFacts SpecB ObjModel ObjFacts ObjFacts2 SpecC
  DocModel SpecD Dec StrModel StrFacts CrcModel PyObjModel PyUnionFacts SpecJ.

(** ** Constructors *)
Lemma apply_setters_built ks os : prefix_free_b ks = true -> forall b b', built ks b ->
  (forall o, In o os -> In (setter_key o) ks) -> apply_setters b os = Ok b' -> built ks b'.
Proof.
  intros Hpf. induction os as [|o os IH]; intros b b' Hb Ho E; cbn in E; [inversion E; now subst|].
  apply bind_ok in E. destruct E as (b1 & E1 & E). apply (IH b1 b'); auto.
  - exact (B_set _ _ _ _ Hb (Ho o (or_introl eq_refl)) E1).
  - intros; apply Ho; now right.
Qed.
Lemma base_eta b : mkB (b_props b) (b_names b) (b_descs b) = b.
Proof. now destruct b. Qed.
Definition given (o : option str) : pyval := match o with Some s => PyText s | None => PyNone end.
(** A number given at least [low]; others are not stored. *)
Definition number (keep : Z -> bool) (o : option Z) : option Z :=
  match o with Some z => if keep z then Some z else None | None => None end.
Definition number_val (o : option Z) : pyval := match o with Some z => PyInt z | None => PyNone end.
Definition truth (default : bool) (o : option Z) : bool := match o with Some z => negb (z =? 0)%Z | None => default end.

Lemma keys_all (l : list str) (ks : list str) : forallb (fun k => existsb (streq k) ks) l = true -> forall k, In k l -> In k ks.
Proof.
  intros H k Hk. rewrite forallb_forall in H. specialize (H k Hk). cbv beta in H. apply existsb_exists in H.
  destruct H as (k' & Hk' & E). destruct (streq_spec k k') as [->|]; [exact Hk'|discriminate].
Qed.
Definition opt_num (k : str) (o : option Z) : list setter := match o with Some z => [SetNum k (Some z)] | None => [] end.
Definition group_setters id name desc disp def uservis lang : list setter :=
  [SetStr (S_ "id") id; SetStr (S_ "name") name; SetStr (S_ "desc") desc;
   SetNum (S_ "def") (Some (match def with Some z => z | None => 0%Z end));
   SetNum (S_ "uservisible") (Some (match uservis with Some z => z | None => 1%Z end))]
  ++ opt_num (S_ "display_order") (number (fun z => 0 <? z)%Z disp) ++ [SetStr (S_ "langonly") lang].
Lemma group_init_setters id name desc disp def uservis lang :
  py_group_init id name desc disp def uservis lang =
  b <- apply_setters base_create (group_setters id name desc disp def uservis lang) ;; Ok (mkG b []).
Proof.
  unfold py_group_init, group_setters. cbn [apply_setters app apply_setter].
  repeat (match goal with |- context [bind (base_set_str ?b ?k ?s) _] => destruct (base_set_str b k s); cbn [bind]; try reflexivity
          | |- context [bind (base_set_num ?b ?k ?s) _] => destruct (base_set_num b k s); cbn [bind]; try reflexivity end).
  destruct disp as [z|]; cbn [number opt_num app apply_setters apply_setter]; [|cbn; destruct (base_set_str _ _ _); reflexivity].
  destruct (0 <? z)%Z; cbn [opt_num app apply_setters apply_setter bind].
  - destruct (base_set_num _ _ _); cbn [bind]; [|reflexivity..]. destruct (base_set_str _ _ _); reflexivity.
  - destruct (base_set_str _ _ _); reflexivity.
Qed.
Lemma group_setters_keys id name desc disp def uservis lang o :
  In o (group_setters id name desc disp def uservis lang) -> In (setter_key o) SpecC.group_keys.
Proof.
  intros H. apply (keys_all (map setter_key (group_setters id name desc disp def uservis lang))); [|now apply in_map].
  unfold group_setters. destruct (number _ disp); vm_compute; reflexivity.
Qed.
Lemma group_init_spec id name desc disp def uservis lang :
  exists g, py_group_init id name desc disp def uservis lang = Ok g /\
    built SpecC.group_keys (g_base g) /\ well_typed group_attrs (g_base g) /\ g_pkgs g = [] /\
    py_getattr (g_base g) (AStr (S_ "id")) = Ok (given id) /\
    py_getattr (g_base g) (AStr (S_ "name")) = Ok (given name) /\
    py_getattr (g_base g) (AStr (S_ "desc")) = Ok (given desc) /\
    py_getattr (g_base g) (ANum (S_ "display_order")) = Ok (number_val (number (fun z => 0 <? z)%Z disp)) /\
    py_getattr (g_base g) (ABool (S_ "def")) = Ok (PyBool (truth false def)) /\
    py_getattr (g_base g) (ABool (S_ "uservisible")) = Ok (PyBool (truth true uservis)) /\
    py_getattr (g_base g) (ABool (S_ "biarchonly")) = Ok PyNone /\
    py_getattr (g_base g) (AStr (S_ "langonly")) = Ok (given lang).
Proof.
  rewrite group_init_setters.
  destruct (setters_history SpecC.group_keys (group_setters id name desc disp def uservis lang) group_keys_pf
             (group_setters_keys id name desc disp def uservis lang)) as (b & E & Hg).
  assert (Hb : built SpecC.group_keys b).
  { apply (apply_setters_built _ _ group_keys_pf base_create b (B_create _) (group_setters_keys id name desc disp def uservis lang) E). }
  rewrite E. cbn [bind]. exists (mkG b []). cbn [g_base g_pkgs]. split; [reflexivity|]. split; [exact Hb|].
  set (os := group_setters id name desc disp def uservis lang) in *.
  assert (H1 : last_value os (S_ "id") = option_map PStr (option_map Some id)) by (subst os; unfold group_setters; destruct id, name, desc, lang, (number _ disp); vm_compute; reflexivity).
  assert (H2 : last_value os (S_ "name") = option_map PStr (option_map Some name)) by (subst os; unfold group_setters; destruct id, name, desc, lang, (number _ disp); vm_compute; reflexivity).
  assert (H3 : last_value os (S_ "desc") = option_map PStr (option_map Some desc)) by (subst os; unfold group_setters; destruct id, name, desc, lang, (number _ disp); vm_compute; reflexivity).
  assert (H4 : last_value os (S_ "display_order") = option_map PNum (number (fun z => 0 <? z)%Z disp)) by (subst os; unfold group_setters; destruct id, name, desc, lang, (number _ disp); vm_compute; reflexivity).
  assert (H5 : last_value os (S_ "def") = Some (PNum (match def with Some z => z | None => 0%Z end))) by (subst os; unfold group_setters; destruct id, name, desc, lang, (number _ disp); vm_compute; reflexivity).
  assert (H6 : last_value os (S_ "uservisible") = Some (PNum (match uservis with Some z => z | None => 1%Z end))) by (subst os; unfold group_setters; destruct id, name, desc, lang, (number _ disp); vm_compute; reflexivity).
  assert (H7 : last_value os (S_ "biarchonly") = None) by (subst os; unfold group_setters; destruct id, name, desc, lang, (number _ disp); vm_compute; reflexivity).
  assert (H8 : last_value os (S_ "langonly") = option_map PStr (option_map Some lang)) by (subst os; unfold group_setters; destruct id, name, desc, lang, (number _ disp); vm_compute; reflexivity).
  split.
  { intros a Ha. unfold group_attrs in Ha. cbn [In] in Ha.
    destruct Ha as [<-|[<-|[<-|[<-|[<-|[<-|[<-|[<-|[]]]]]]]]]; rewrite Hg;
    rewrite ?H1, ?H2, ?H3, ?H4, ?H5, ?H6, ?H7, ?H8;
    first [now exists (option_map Some id) | now exists (option_map Some name) | now exists (option_map Some desc)
          | now exists (option_map Some lang) | eexists (Some _); reflexivity | now exists None | eexists; reflexivity]. }
  split; [reflexivity|].
  unfold py_getattr. cbn [attr_key]. rewrite !Hg. cbn [bind]. rewrite H1, H2, H3, H4, H5, H6, H7, H8.
  repeat split.
  - now destruct id. - now destruct name. - now destruct desc. - now destruct (number _ disp).
  - now destruct def. - now destruct uservis. - now destruct lang.
Qed.
Definition other_setters id name desc disp : list setter :=
  [SetStr (S_ "id") id; SetStr (S_ "name") name; SetStr (S_ "desc") desc]
  ++ opt_num (S_ "display_order") (number (fun z => negb (z =? -1))%Z disp).
Lemma other_init_setters id name desc disp :
  py_other_init id name desc disp = apply_setters base_create (other_setters id name desc disp).
Proof.
  unfold py_other_init, other_setters. cbn [apply_setters app apply_setter].
  repeat (match goal with |- context [bind (base_set_str ?b ?k ?s) _] => destruct (base_set_str b k s); cbn [bind]; try reflexivity end).
  destruct disp as [z|]; cbn [number]; [|reflexivity].
  destruct (z =? -1)%Z; cbn [negb opt_num app apply_setters apply_setter]; [reflexivity|].
  destruct (base_set_num _ _ _); reflexivity.
Qed.
Lemma other_setters_keys id name desc disp o :
  In o (other_setters id name desc disp) -> In (setter_key o) category_keys.
Proof.
  intros H. apply (keys_all (map setter_key (other_setters id name desc disp))); [|now apply in_map].
  unfold other_setters. destruct (number _ disp); vm_compute; reflexivity.
Qed.
Lemma other_init_spec id name desc disp :
  exists b, py_other_init id name desc disp = Ok b /\ built category_keys b /\ well_typed other_attrs b /\
    py_getattr b (AStr (S_ "id")) = Ok (given id) /\
    py_getattr b (AStr (S_ "name")) = Ok (given name) /\
    py_getattr b (AStr (S_ "desc")) = Ok (given desc) /\
    py_getattr b (ANum (S_ "display_order")) = Ok (number_val (number (fun z => negb (z =? -1))%Z disp)).
Proof.
  rewrite other_init_setters.
  destruct (setters_history category_keys (other_setters id name desc disp) category_keys_pf
             (other_setters_keys id name desc disp)) as (b & E & Hg).
  exists b. split; [exact E|]. split.
  { apply (apply_setters_built _ _ category_keys_pf base_create b (B_create _) (other_setters_keys id name desc disp) E). }
  set (os := other_setters id name desc disp) in *.
  assert (H1 : last_value os (S_ "id") = option_map PStr (option_map Some id)) by (subst os; unfold other_setters; destruct id, name, desc, (number _ disp); vm_compute; reflexivity).
  assert (H2 : last_value os (S_ "name") = option_map PStr (option_map Some name)) by (subst os; unfold other_setters; destruct id, name, desc, (number _ disp); vm_compute; reflexivity).
  assert (H3 : last_value os (S_ "desc") = option_map PStr (option_map Some desc)) by (subst os; unfold other_setters; destruct id, name, desc, (number _ disp); vm_compute; reflexivity).
  assert (H4 : last_value os (S_ "display_order") = option_map PNum (number (fun z => negb (z =? -1))%Z disp)) by (subst os; unfold other_setters; destruct id, name, desc, (number _ disp); vm_compute; reflexivity).
  split.
  { intros a Ha. unfold other_attrs in Ha. cbn [In] in Ha.
    destruct Ha as [<-|[<-|[<-|[<-|[]]]]]; rewrite Hg; rewrite ?H1, ?H2, ?H3, ?H4;
    first [now exists (option_map Some id) | now exists (option_map Some name) | now exists (option_map Some desc) | eexists; reflexivity]. }
  unfold py_getattr. cbn [attr_key]. rewrite !Hg. cbn [bind]. rewrite H1, H2, H3, H4.
  repeat split.
  - now destruct id. - now destruct name. - now destruct desc. - now destruct (number _ disp).
Qed.

(** ** Packages *)
Definition text_or_empty (o : option str) : pyval := PyText (match o with Some s => s | None => [] end).
Lemma pkg_init_spec name type requires :
  let p := py_pkg_init name type requires in
  py_pkg_getattr p PName = Ok (text_or_empty name) /\
  py_pkg_getattr p PRequires = Ok (text_or_empty requires) /\
  py_pkg_getattr p PType = Ok (PyInt (match type with Some z => z | None => PK_UNKNOWN end)) /\
  py_pkg_getattr p PBao = Ok PyNone.
Proof. repeat split; destruct name, requires; reflexivity. Qed.
Lemma pkg_init_unequal name type requires q : p_requires q = None -> pkg_cmp (py_pkg_init name type requires) q = false.
Proof.
  intros H. destruct (pkg_cmp _ q) eqn:E; [|reflexivity]. apply pkg_cmp_iff in E. destruct E as (_ & E & _). cbn in E. congruence.
Qed.
Definition pkg_read_back (a : pattr) (v : pyval) : option pyval :=
  match a, v with
  | (PName | PRequires), PyNone => Some (PyText [])
  | (PName | PRequires), PyText s => Some (PyText (cut s))
  | PType, PyNone => Some (PyInt 1)
  | PType, PyInt z => Some (PyInt (int_stored z))
  | PType, PyBool b => Some (PyInt (if b then 1 else 0))
  | PBao, PyBool b => Some (PyBool b)
  | _, _ => None
  end.
Definition pkg_told (a : pattr) (v : pyval) : outcome :=
  match pkg_read_back a v with
  | None => Raised
  | Some _ => match a, v with PType, PyInt z => if long_ok z then Done else Pending | _, _ => Done end
  end.
Definition pkg_deref (a : pattr) (v : pyval) : bool :=
  match a, v with (PType | PBao), PyNull => true | _, _ => false end.
Lemma pkg_setattr_spec p a v : pkg_deref a v = false ->
  exists p', py_pkg_setattr p a v = Ok (p', pkg_told a v) /\
    py_pkg_getattr p' a = match pkg_read_back a v with Some x => Ok x | None => py_pkg_getattr p a end /\
    (forall a', a' <> a -> py_pkg_getattr p' a' = py_pkg_getattr p a') /\
    p_arches p' = p_arches p /\ (pkg_told a v = Raised -> p' = p).
Proof.
  intros H. destruct a, v; try discriminate; cbn;
  try (eexists; split; [reflexivity|]; split; [try destruct b; reflexivity|]; split; [intros []; try reflexivity; now intros []|]; split; [reflexivity|]; intros E; first [discriminate | reflexivity]).
  unfold int_stored, pkg_told, pkg_read_back. destruct (long_ok z); cbn;
  (eexists; split; [reflexivity|]; split; [reflexivity|]; split; [intros []; try reflexivity; now intros []|]; split; [reflexivity|]; intros E; discriminate).
Qed.
Lemma pkg_deref_ub p a v : pkg_deref a v = true -> py_pkg_setattr p a v = UB.
Proof. destruct a, v; cbn; intros E; try discriminate; reflexivity. Qed.

(** ** Group ids *)
Lemma gid_init_spec name def :
  let g := py_gid_init name def in
  py_gid_getattr g GName = Ok (PyText name) /\ py_gid_getattr g GDefault = Ok (PyBool (match def with Some b => b | None => false end)).
Proof. split; [reflexivity|]. destruct def as [[]|]; reflexivity. Qed.
Definition gid_read_back (a : gattr) (v : pyval) : option pyval :=
  match a, v with
  | GName, PyNone => Some (PyText [])
  | GName, PyText s => Some (PyText (cut s))
  | GDefault, PyBool b => Some (PyBool b)
  | _, _ => None
  end.
Definition gid_told (a : gattr) (v : pyval) : outcome := match gid_read_back a v with Some _ => Done | None => Raised end.
Lemma gid_setattr_spec g a v : (a, v) <> (GDefault, PyNull) ->
  exists g', py_gid_setattr g a v = Ok (g', gid_told a v) /\
    py_gid_getattr g' a = match gid_read_back a v with Some x => Ok x | None => py_gid_getattr g a end /\
    (forall a', a' <> a -> py_gid_getattr g' a' = py_gid_getattr g a') /\
    gi_arches g' = gi_arches g /\ (gid_told a v = Raised -> g' = g).
Proof.
  intros H. destruct a, v; try (now destruct H); cbn;
  (eexists; split; [reflexivity|]; split; [try destruct b; reflexivity|]; split; [intros []; try reflexivity; now intros []|]; split; [reflexivity|]; intros E; first [discriminate | reflexivity]).
Qed.

(** ** packages_match *)
(** What the method is documented to return: the packages with the given name
    and type, where these are given. *)
Definition wanted (name : option str) (type : option Z) (p : pkg) : Prop :=
  (forall n, name = Some n -> p_name p = Some (Some n)) /\ (forall t, type = Some t -> t <> PK_UNKNOWN -> p_type p = t).
Definition pkg_type (z : Z) : Prop := (0 <= z <= 4)%Z.
Lemma type_check_spec z : pkg_type z /\ pkg_type_check z = Some z \/ ~ pkg_type z /\ pkg_type_check z = None.
Proof.
  unfold pkg_type, pkg_type_check, PK_DEFAULT, PK_OPTIONAL, PK_CONDITIONAL, PK_MANDATORY, PK_UNKNOWN.
  destruct (z =? 0)%Z eqn:E0, (z =? 1)%Z eqn:E1, (z =? 2)%Z eqn:E2, (z =? 3)%Z eqn:E3, (z =? 4)%Z eqn:E4; cbn [orb]; first [left; split; [lia|reflexivity] | right; split; [lia|reflexivity]].
Qed.
Lemma match_with_type g name t : pkg_type t ->
  exists want, (forall p, want p = true <-> wanted name (Some t) p) /\
    py_packages_match g name (Some t) = Some (filter want (g_pkgs g)).
Proof.
  intros Ht. destruct (get_packages_spec g name t) as (want & Hw & E). exists want. split.
  - intros p. rewrite Hw. unfold pkg_wanted, wanted. split.
    + intros [H1 H2]. split; [exact H1|]. intros t' Et. injection Et as <-. exact H2.
    + intros [H1 H2]. split; [exact H1|]. exact (H2 t eq_refl).
  - cbn [py_packages_match]. destruct (type_check_spec t) as [[_ ->]|[H _]]; [now rewrite E|contradiction].
Qed.
Lemma match_bad_type g name t : ~ pkg_type t -> py_packages_match g name (Some t) = None.
Proof. intros H. cbn [py_packages_match]. now destruct (type_check_spec t) as [[H' _]|[_ ->]]. Qed.
Lemma match_without_type g name : Forall (fun p => pkg_type (p_type p)) (g_pkgs g) -> py_packages_match g name None = Some [].
Proof.
  intros H. cbn [py_packages_match]. f_equal. destruct (get_packages_spec g name (-1)) as (want & Hw & ->).
  rewrite Forall_forall in H. induction (g_pkgs g) as [|p l IH]; cbn; [reflexivity|].
  destruct (want p) eqn:E; [|apply IH; intros; apply H; now right].
  apply Hw in E. destruct E as [_ E]. specialize (H p (or_introl eq_refl)). unfold pkg_type in H.
  unfold PK_UNKNOWN in E. specialize (E ltac:(lia)). lia.
Qed.
