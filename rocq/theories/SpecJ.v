(** Specifications for the Python side of the document objects and the lemmas
    connecting them to the model. *)
From Coq Require Import NArith.
From Verif Require Import CStr CStrFacts HSListModel HSListFacts SetModel SetFacts
  RTreeModel RTreeFacts RTreeFacts2 RTreeFacts3 RTreeFacts4 SpecA SpecB ObjModel ObjFacts ObjFacts2 SpecC
  DocModel DocFacts DocFacts2 SpecD SpecD2 Dec StrModel StrFacts SpecE CrcModel CrcFacts PyObjModel PyUnionFacts.

(** ** Sums of lists *)
Definition groups_summed := py_united oid_dec group_id group_equal group_united.
Definition cats_summed := py_united oid_dec category_id category_equal category_united.
Definition envs_summed := py_united oid_dec env_id env_equal env_united.
Lemma groups_sum l1 l2 : Forall gok l1 -> Forall gok l2 ->
  exists out, py_groups_union l1 l2 = Ok out /\ Forall gok out /\ groups_summed l1 l2 out.
Proof.
  intros H1 H2. apply (py_union_spec _ _ _ oid_dec group_id gok group_equal group_united); auto.
  - intros. apply idcmp_by_iff. - exact group_cp. - exact group_un. - exact group_united_same.
Qed.
Lemma cats_sum l1 l2 : Forall cok l1 -> Forall cok l2 ->
  exists out, py_cats_union l1 l2 = Ok out /\ Forall cok out /\ cats_summed l1 l2 out.
Proof.
  intros H1 H2. apply (py_union_spec _ _ _ oid_dec category_id cok category_equal category_united); auto.
  - intros. apply idcmp_by_iff. - exact category_cp. - exact category_un. - exact category_united_same.
Qed.
Lemma envs_sum l1 l2 : Forall eok l1 -> Forall eok l2 ->
  exists out, py_envs_union l1 l2 = Ok out /\ Forall eok out /\ envs_summed l1 l2 out.
Proof.
  intros H1 H2. apply (py_union_spec _ _ _ oid_dec env_id eok env_equal env_united); auto.
  - intros. apply idcmp_by_iff. - exact env_cp. - exact env_un. - exact env_united_same.
Qed.
(** What the sum of two lists should be when ids do not repeat within either. *)
Definition list_sum {A I} (ident : A -> I) (same : A -> A -> Prop) (united : A -> A -> A -> Prop) (l1 l2 out : list A) : Prop :=
  NoDup (map ident out) /\
  (forall i, In i (map ident out) <-> In i (map ident l1) \/ In i (map ident l2)) /\
  (forall g x1 x2, In g out -> In x1 l1 -> In x2 l2 -> ident x1 = ident g -> ident x2 = ident g -> united x1 x2 g) /\
  (forall g x1, In g out -> In x1 l1 -> ident x1 = ident g -> ~ In (ident g) (map ident l2) -> same g x1) /\
  (forall g x2, In g out -> In x2 l2 -> ident x2 = ident g -> ~ In (ident g) (map ident l1) -> g = x2).
Lemma groups_sum_distinct l1 l2 out : groups_summed l1 l2 out -> NoDup (map group_id l1) -> NoDup (map group_id l2) ->
  list_sum group_id group_equal group_united l1 l2 out.
Proof. intros H N1 N2. exact (py_united_distinct oid_dec group_id group_equal group_united l1 l2 out N1 N2 H). Qed.
Lemma cats_sum_distinct l1 l2 out : cats_summed l1 l2 out -> NoDup (map category_id l1) -> NoDup (map category_id l2) ->
  list_sum category_id category_equal category_united l1 l2 out.
Proof. intros H N1 N2. exact (py_united_distinct oid_dec category_id category_equal category_united l1 l2 out N1 N2 H). Qed.
Lemma envs_sum_distinct l1 l2 out : envs_summed l1 l2 out -> NoDup (map env_id l1) -> NoDup (map env_id l2) ->
  list_sum env_id env_equal env_united l1 l2 out.
Proof. intros H N1 N2. exact (py_united_distinct oid_dec env_id env_equal env_united l1 l2 out N1 N2 H). Qed.

(** ** Hashes *)
Definition in_hash_range (z : Z) : Prop := (0 <= z < 2 ^ 32)%Z.
Lemma py_hash_range s : in_hash_range (py_hash s).
Proof.
  unfold in_hash_range, py_hash. pose proof (crc32_small 0 (bytes s) (bytes_ok s) ltac:(reflexivity)) as H.
  split; [apply N2Z.is_nonneg|]. change (2 ^ 32)%Z with (Z.of_N (2 ^ 32)). now apply N2Z.inj_lt.
Qed.
Lemma bytes_app a b : bytes (a ++ b) = bytes a ++ bytes b.
Proof. apply map_app. Qed.
Lemma bytes_inj a b : bytes a = bytes b -> a = b.
Proof.
  revert b. induction a as [|x a IH]; intros [|y b] H; cbn in H; try discriminate; [reflexivity|].
  injection H as H1 H2. f_equal; [|now apply IH].
  rewrite <- (ascii_N_embedding x), <- (ascii_N_embedding y). now rewrite H1.
Qed.
Lemma py_hash_burst pre a b post : length a = length b -> length a <= 4 ->
  py_hash (pre ++ a ++ post) = py_hash (pre ++ b ++ post) -> a = b.
Proof.
  intros Hl H4 H. unfold py_hash in H. apply N2Z.inj in H. rewrite !bytes_app in H. apply bytes_inj.
  apply (crc_burst 0 (bytes pre) (bytes a) (bytes b) (bytes post)); auto using bytes_ok.
  - reflexivity. - unfold bytes. now rewrite !map_length. - unfold bytes. now rewrite map_length.
Qed.

Lemma props_tostr_same a b : same_base a b -> forall keys, props_tostr a keys = props_tostr b keys.
Proof.
  intros (H & _) keys. induction keys as [|k r IH]; cbn; [reflexivity|]. unfold base_get. rewrite H.
  destruct (rt_get (b_props b) k); cbn; [|reflexivity..]. now rewrite IH.
Qed.
(** Python's truth value of a package's basearchonly. *)
Definition bao_shown (p : pkg) : bool := match p_bao p with Some z => negb (z =? 0)%Z | None => false end.
Lemma gid_same_tostr a b : gid_same a b -> gid_tostr a = gid_tostr b.
Proof. intros [H1 H2]. unfold gid_tostr. now rewrite H1, H2. Qed.
Lemma pkg_same_tostr a b : pkg_same a b -> bao_shown a = bao_shown b -> pkg_tostr a = pkg_tostr b.
Proof.
  intros (H1 & H2 & H3) H4. unfold pkg_tostr. rewrite H1, H2, H3. unfold bao_shown in H4.
  destruct (p_bao a) as [x|], (p_bao b) as [y|]; cbn in *; try (now rewrite H4);
  repeat match goal with |- context [(?z =? 0)%Z] => destruct (z =? 0)%Z; cbn in * end; try discriminate; reflexivity.
Qed.
Lemma map_r_same {A B} (f : A -> res B) l1 l2 : Forall2 (fun a b => f a = f b) l1 l2 -> map_r f l1 = map_r f l2.
Proof. induction 1 as [|a b l1 l2 H _ IH]; cbn; [reflexivity|]. rewrite H. destruct (f b); cbn; [|reflexivity..]. now rewrite IH. Qed.
Lemma gids_same_tostr l1 l2 : Forall2 gid_same l1 l2 -> map_r gid_tostr l1 = map_r gid_tostr l2.
Proof. intros H. apply map_r_same. induction H; constructor; auto using gid_same_tostr. Qed.
Lemma category_hash_same a b : category_same a b -> category_hash a = category_hash b.
Proof.
  intros [H1 H2]. unfold category_hash, category_tostr. now rewrite (props_tostr_same _ _ H1), (gids_same_tostr _ _ H2).
Qed.
Lemma env_hash_same a b : env_same a b -> env_hash a = env_hash b.
Proof.
  intros (H1 & H2 & H3). unfold env_hash, env_tostr.
  now rewrite (props_tostr_same _ _ H1), (gids_same_tostr _ _ H2), (gids_same_tostr _ _ H3).
Qed.
Lemma group_hash_same a b : group_same a b -> map bao_shown (g_pkgs a) = map bao_shown (g_pkgs b) -> group_hash a = group_hash b.
Proof.
  intros [H1 H2] Hb. unfold group_hash, group_tostr. rewrite (props_tostr_same _ _ H1).
  assert (map_r pkg_tostr (g_pkgs a) = map_r pkg_tostr (g_pkgs b)) as ->; [|reflexivity].
  apply map_r_same. induction H2 as [|x y l1 l2 H _ IH]; cbn in Hb; constructor.
  - apply pkg_same_tostr; [exact H|]. now inversion Hb.
  - apply IH. now inversion Hb.
Qed.
Lemma hash_in_range t h : hash_of t = Ok h -> in_hash_range h.
Proof. unfold hash_of. destruct t; cbn; intros H; inversion H; subst. apply py_hash_range. Qed.

(** Hashes of group ids whose names differ only in a short stretch. *)
Lemma gid_hash_burst d pre a b post al bl : length a = length b -> length a <= 4 ->
  gid_hash (mkGid (Some (Some (pre ++ a ++ post))) d al) = gid_hash (mkGid (Some (Some (pre ++ b ++ post))) d bl) -> a = b.
Proof.
  intros Hl H4. unfold gid_hash. rewrite !gid_rendered. unfold hash_of. cbn [bind]. intros H.
  assert (E : forall x y : Z, Ok x = Ok y -> x = y) by (intros x y Hxy; now inversion Hxy).
  apply E in H. clear E. unfold gid_shown in H. cbn [gi_name gi_def ostr_tostr str_tostr] in H.
  set (h := S_ "<COMPS_DocGroupId name='") in *. set (t := S_ "' default='" ++ (if d then S_ "True" else S_ "False") ++ S_ "'>") in *.
  rewrite <- !app_assoc in H. rewrite !(app_assoc h pre) in H.
  exact (py_hash_burst (h ++ pre) a b (post ++ t) Hl H4 H).
Qed.

(** ** Comparison operators *)
Definition op_of (eq : bool) : cmp_op := if eq then OpEq else OpNe.
Definition cmp_contract {A} (wf : A -> Prop) (same : A -> A -> Prop) (cmp : A -> operand A -> cmp_op -> res cmp_result) : Prop :=
  (forall a b, wf a -> wf b -> exists e, cmp a (Same b) OpEq = Ok (Answer e) /\ cmp a (Same b) OpNe = Ok (Answer (negb e)) /\
      (e = true <-> same a b)) /\
  (forall a, cmp a IsNone OpEq = Ok (Answer false) /\ cmp a IsNone OpNe = Ok (Answer true)) /\
  (forall a x op, op = OpEq \/ op = OpNe -> (forall b, x <> Same b) -> x <> IsNone -> cmp a x op = Ok TypeError) /\
  (forall a x op, op <> OpEq -> op <> OpNe -> cmp a x op = Ok NotImplementedError).
Lemma cmp_contract_of {A} (wf : A -> Prop) (same : A -> A -> Prop) cmp :
  (forall a b, wf a -> wf b -> exists e, cmp a b = Ok e /\ (e = true <-> same a b)) ->
  cmp_contract wf same (py_cmp cmp).
Proof.
  intros H. split; [|split; [|split]].
  - intros a b Ha Hb. destruct (H a b Ha Hb) as (e & E & Hs). exists e. unfold py_cmp. rewrite E. cbn. auto.
  - intros a. split; reflexivity.
  - intros a x op [-> | ->] Hx Hn; destruct x as [b| | | | |]; try reflexivity; first [now destruct (Hx b) | now destruct Hn].
  - intros a x op H1 H2. destruct op; try reflexivity; contradiction.
Qed.
Definition py_pkg_cmp := py_cmp (fun a b => Ok (pkg_cmp a b)).
Definition py_group_cmp := py_cmp group_cmp.
Definition py_category_cmp := py_cmp category_cmp.
Definition py_env_cmp := py_cmp env_cmp.
Lemma rich_comparison :
  cmp_contract (fun _ => True) pkg_same py_pkg_cmp /\
  cmp_contract gok group_same py_group_cmp /\
  cmp_contract cok category_same py_category_cmp /\
  cmp_contract eok env_same py_env_cmp.
Proof.
  split; [|split; [|split]]; apply cmp_contract_of.
  - intros a b _ _. exists (pkg_cmp a b). split; [reflexivity|]. apply pkg_cmp_iff.
  - intros a b Ha Hb. now apply group_cmp_spec.
  - intros a b Ha Hb. now apply category_cmp_spec.
  - intros a b Ha Hb. now apply env_cmp_spec.
Qed.
(** Text of a Python str before its first NUL. *)
Definition before_nul (s t : str) : Prop := ~ In NUL t /\ (s = t \/ exists r, s = t ++ NUL :: r).
Lemma cut_spec s : before_nul s (cut s).
Proof.
  induction s as [|c s [H1 H2]]; cbn; [split; [intros []|now left]|].
  destruct (Ascii.eqb_spec c NUL) as [->|Hne].
  - split; [intros []|]. right. now exists s.
  - split; [intros [H|H]; [now apply Hne|contradiction]|]. destruct H2 as [<-|(r & E)]; [now left|].
    right. exists r. cbn. now rewrite <- E.
Qed.
Lemma before_nul_unique s t u : before_nul s t -> before_nul s u -> t = u.
Proof.
  revert s u. induction t as [|x t IH]; intros s u [T1 T2] [U1 U2].
  - destruct u as [|y u]; [reflexivity|]. exfalso. destruct T2 as [->|(r & ->)].
    + destruct U2 as [E|(r & E)]; discriminate.
    + apply U1. destruct U2 as [E|(q & E)]; cbn in E; injection E as E _; left; congruence.
  - destruct u as [|y u].
    + exfalso. destruct U2 as [->|(r & ->)].
      * destruct T2 as [E|(r & E)]; discriminate.
      * apply T1. destruct T2 as [E|(q & E)]; cbn in E; injection E as E _; left; congruence.
    + destruct s as [|z s]; [destruct T2 as [E|(r & E)]; discriminate|].
      assert (x = z /\ y = z) as [-> ->].
      { split; [destruct T2 as [E|(r & E)]|destruct U2 as [E|(r & E)]]; cbn in E; congruence. }
      f_equal. apply (IH s).
      * split; [intros H; apply T1; now right|]. destruct T2 as [E|(r & E)]; cbn in E; injection E as E; [left|right; exists r]; exact E.
      * split; [intros H; apply U1; now right|]. destruct U2 as [E|(r & E)]; cbn in E; injection E as E; [left|right; exists r]; exact E.
Qed.
Lemma gid_cmp_text g s eq : py_gid_cmp g (Text s) (op_of eq) = GAnswer (Bool.eqb eq
    (if name_dec (gi_name g) (Some (Some (cut s))) then negb (gi_def g) else false)).
Proof.
  unfold py_gid_cmp, op_of. set (r := gid_cmp g _).
  assert (r = if name_dec (gi_name g) (Some (Some (cut s))) then negb (gi_def g) else false) as <-.
  { subst r. pose proof (gid_cmp_iff g (mkGid (Some (Some (cut s))) false None)) as H. unfold gid_same in H. cbn [gi_name gi_def] in H.
    destruct (gid_cmp g _); destruct (name_dec (gi_name g) (Some (Some (cut s)))) as [E|E].
    - destruct (proj1 H eq_refl) as [_ ->]. reflexivity.
    - exfalso. apply E, H. reflexivity.
    - destruct (gi_def g) eqn:Ed; [reflexivity|]. exfalso. assert (false = true) by (apply H; auto). discriminate.
    - reflexivity. }
  destruct eq; cbn; destruct r; reflexivity.
Qed.

(** ** Attributes *)
(** The int that a Python integer is stored as. *)
Definition stored_int (z w : Z) : Prop :=
  (- 2 ^ 31 <= w < 2 ^ 31)%Z /\
  if ((- 2 ^ 63 <=? z) && (z <? 2 ^ 63))%Z then (exists k, z = w + k * 2 ^ 32)%Z else w = (-1)%Z.
Definition int_stored (z : Z) : Z := if long_ok z then int_of_long z else (-1)%Z.
Lemma int_stored_spec z : stored_int z (int_stored z).
Proof.
  unfold stored_int, int_stored, long_ok. destruct ((- 2 ^ 63 <=? z) && (z <? 2 ^ 63))%Z eqn:E; [|split; lia].
  unfold int_of_long. pose proof (Z.mod_pos_bound (z + 2 ^ 31) (2 ^ 32) ltac:(lia)) as H. split; [lia|].
  exists ((z + 2 ^ 31) / 2 ^ 32)%Z. pose proof (Z.div_mod (z + 2 ^ 31) (2 ^ 32) ltac:(lia)) as D. lia.
Qed.
Lemma int_stored_small z : (- 2 ^ 31 <= z < 2 ^ 31)%Z -> int_stored z = z.
Proof.
  intros H. unfold int_stored, long_ok. rewrite (proj2 (Z.leb_le _ _)), (proj2 (Z.ltb_lt _ _)) by lia. cbn [andb].
  unfold int_of_long. rewrite Z.mod_small by lia. lia.
Qed.
(** The value read back after an assignment ([None]: the assignment leaves the
    attribute as it was). *)
Definition read_back (a : attr) (v : pyval) : option pyval :=
  match a, v with
  | AStr _, PyText s => Some (PyText (cut s))
  | ANum _, PyNone => Some PyNone
  | ANum _, PyInt z => Some (PyInt (int_stored z))
  | ANum _, PyBool b => Some (PyInt (if b then 1 else 0))
  | ABool _, PyBool b => Some (PyBool b)
  | _, _ => None
  end.
(** The assignments that do not pass NULL where it is dereferenced. *)
Definition deletes_number (a : attr) (v : pyval) : bool :=
  match a, v with ANum _, PyNull => true | _, _ => false end.
(** What Python is told. *)
Definition told (a : attr) (v : pyval) : outcome :=
  match a, v with
  | AStr _, (PyNone | PyText _) => Done
  | ANum _, (PyNone | PyBool _) => Done
  | ANum _, PyInt z => if long_ok z then Done else Pending
  | ABool _, PyBool _ => Done
  | _, _ => Raised
  end.
(** Objects whose attributes hold values of their kinds. *)
Definition well_typed (as_ : list attr) (b : base) : Prop :=
  forall a, In a as_ ->
    match a with
    | AStr k => exists o, base_get b k = Ok (option_map PStr o)
    | ANum k | ABool k => exists o, base_get b k = Ok (option_map PNum o)
    end.
Fixpoint py_setattrs (b : base) (l : list (attr * pyval)) : res (base * list outcome) :=
  match l with
  | [] => Ok (b, [])
  | (a, v) :: r => p <- py_setattr b a v ;; q <- py_setattrs (fst p) r ;; Ok (fst q, snd p :: snd q)
  end.
Definition attr_eqb (a b : attr) : bool := streq (attr_key a) (attr_key b).
(** The value an attribute has after assignments [l], if they changed it. *)
Fixpoint last_read (a : attr) (l : list (attr * pyval)) : option pyval :=
  match l with
  | [] => None
  | (a', v) :: r => match last_read a r with
                    | Some x => Some x
                    | None => if attr_eqb a a' then read_back a' v else None
                    end
  end.

Section Attributes.
Context (ks : list str) (as_ : list attr).
Hypothesis Hpf : prefix_free_b ks = true.
Hypothesis Hin : forall a, In a as_ -> In (attr_key a) ks.
Hypothesis Hdis : forall a b, In a as_ -> In b as_ -> attr_key a = attr_key b -> a = b.

Definition setter_of (a : attr) (v : pyval) : option setter :=
  match a, v with
  | AStr k, PyNone => Some (SetStr k None)
  | AStr k, PyText s => Some (SetStr k (Some (cut s)))
  | ANum k, PyNone => Some (SetNum k None)
  | ANum k, PyInt z => Some (SetNum k (Some (int_stored z)))
  | ANum k, PyBool b => Some (SetNum k (Some (if b then 1 else 0)%Z))
  | ABool k, PyBool b => Some (SetNum k (Some (bool_num b)))
  | _, _ => None
  end.
Lemma setattr_setter b a v : deletes_number a v = false ->
  py_setattr b a v = match setter_of a v with
                     | Some o => b' <- apply_setter b o ;; Ok (b', told a v)
                     | None => Ok (b, told a v)
                     end.
Proof.
  intros H. destruct a, v; try discriminate; try reflexivity.
  cbn [py_setattr set_numattr setter_of apply_setter told]. unfold int_stored. destruct (long_ok z); reflexivity.
Qed.
Lemma setter_of_key a v o : setter_of a v = Some o -> setter_key o = attr_key a.
Proof. destruct a, v; cbn; intros E; inversion E; reflexivity. Qed.
Lemma read_after a v o b : setter_of a v = Some o -> forall w, setter_effect o = Some w -> base_get b (attr_key a) = Ok w ->
  py_getattr b a = match read_back a v with Some x => Ok x | None => py_getattr b a end.
Proof.
  intros E w Ew Hg. unfold py_getattr at 1. rewrite Hg. cbn [bind].
  destruct a as [k|k|k], v; cbn in E; inversion E; subst o; cbn in Ew; inversion Ew; subst w; try reflexivity;
  destruct b0; reflexivity.
Qed.

Lemma setattr_spec b a v : built ks b -> well_typed as_ b -> In a as_ -> deletes_number a v = false ->
  exists b', py_setattr b a v = Ok (b', told a v) /\ built ks b' /\ well_typed as_ b' /\
    (told a v = Raised -> b' = b) /\
    py_getattr b' a = match read_back a v with Some x => Ok x | None => py_getattr b a end /\
    (forall a', In a' as_ -> a' <> a -> py_getattr b' a' = py_getattr b a') /\
    (forall k, k <> attr_key a -> base_get b' k = base_get b k) /\
    b_names b' = b_names b /\ b_descs b' = b_descs b.
Proof.
  intros Hb Hw Ha Hd. rewrite setattr_setter by exact Hd. destruct (setter_of a v) as [o|] eqn:Eo.
  - pose proof (setter_of_key a v o Eo) as Ek.
    destruct (setters_independent ks Hpf b o Hb ltac:(rewrite Ek; now apply Hin)) as (b' & E & Hb' & H1 & H2 & H3 & H4 & H5).
    rewrite E. cbn [bind]. exists b'. rewrite Ek in *. split; [reflexivity|]. split; [exact Hb'|].
    assert (Hget : py_getattr b' a = match read_back a v with Some x => Ok x | None => py_getattr b a end).
    { destruct (setter_effect o) as [w|] eqn:Ew.
      - rewrite (read_after a v o b' Eo w Ew (H1 w eq_refl)). destruct (read_back a v) eqn:Er; [reflexivity|].
        exfalso. destruct a, v; cbn in Eo; inversion Eo; subst o; cbn in *; discriminate.
      - assert (read_back a v = None) as ->.
        { destruct a, v; cbn in Eo; inversion Eo; subst o; cbn in *; try discriminate; reflexivity. }
        unfold py_getattr. now rewrite (H2 eq_refl). }
    assert (Hoth : forall a', In a' as_ -> a' <> a -> base_get b' (attr_key a') = base_get b (attr_key a')).
    { intros a' Ha' Hne. apply H3. intros E'. apply Hne. now apply Hdis. }
    split; [|split; [|split; [exact Hget|split; [|split; [exact H3|split; assumption]]]]].
    + intros a' Ha'. destruct (str_eq_dec (attr_key a') (attr_key a)) as [Ek'|Ek'].
      * assert (a' = a) as -> by now apply Hdis.
        destruct (setter_effect o) as [w|] eqn:Ew.
        -- pose proof (H1 w eq_refl) as Hg. destruct a, v; cbn in Eo; inversion Eo; subst o; cbn in Ew; cbn [attr_key] in Hg; inversion Ew; subst w; rewrite Hg;
           first [exists None; reflexivity | eexists (Some _); reflexivity].
        -- specialize (Hw a Ha). pose proof (H2 eq_refl) as Hg. destruct a; cbn [attr_key] in Hg; rewrite Hg; exact Hw.
      * specialize (Hw a' Ha'). pose proof (H3 _ Ek') as Hg. destruct a'; cbn [attr_key] in Hg; rewrite Hg; exact Hw.
    + intros Ht. exfalso. destruct a, v; cbn in Eo, Ht; try discriminate. destruct (long_ok z); discriminate.
    + intros a' Ha' Hne. unfold py_getattr. now rewrite Hoth.
  - exists b. split; [reflexivity|]. split; [exact Hb|]. split; [exact Hw|]. split; [auto|].
    assert (read_back a v = None) as -> by (destruct a, v; cbn in Eo; try discriminate; reflexivity).
    repeat split; auto.
Qed.
Lemma getattr_defined b a : well_typed as_ b -> In a as_ ->
  (forall k, a = AStr k -> base_get b k = Ok None \/ exists s, base_get b k = Ok (Some (PStr s))) ->
  exists x, py_getattr b a = Ok x.
Proof.
  intros Hw Ha Hs. specialize (Hw a Ha). unfold py_getattr. destruct a; destruct Hw as ([x|] & E); cbn [attr_key]; rewrite E; cbn; eauto.
Qed.
Lemma setattrs_history l : forall b, built ks b -> well_typed as_ b ->
  (forall a v, In (a, v) l -> In a as_ /\ deletes_number a v = false) ->
  exists b', py_setattrs b l = Ok (b', map (fun p => told (fst p) (snd p)) l) /\ built ks b' /\ well_typed as_ b' /\
    (forall a, In a as_ -> py_getattr b' a = match last_read a l with Some x => Ok x | None => py_getattr b a end) /\
    b_names b' = b_names b /\ b_descs b' = b_descs b.
Proof.
  induction l as [|[a v] l IH]; intros b Hb Hw Hl; cbn [py_setattrs map fst snd].
  - exists b. repeat split; auto.
  - destruct (Hl a v (or_introl eq_refl)) as [Ha Hd].
    destruct (setattr_spec b a v Hb Hw Ha Hd) as (b1 & -> & Hb1 & Hw1 & _ & Hg & Ho & _ & Hn & Hds). cbn [bind fst snd].
    destruct (IH b1 Hb1 Hw1 (fun a' v' H => Hl a' v' (or_intror H))) as (b2 & -> & Hb2 & Hw2 & Hg2 & Hn2 & Hd2). cbn [bind fst snd].
    exists b2. split; [reflexivity|]. split; [exact Hb2|]. split; [exact Hw2|]. split; [|split; congruence].
    intros a' Ha'. cbn [last_read]. rewrite (Hg2 a' Ha'). destruct (last_read a' l); [reflexivity|].
    unfold attr_eqb. destruct (streq_spec (attr_key a') (attr_key a)) as [E|E].
    + assert (a' = a) as -> by now apply Hdis. exact Hg.
    + apply Ho; [exact Ha'|]. intros ->. now apply E.
Qed.
End Attributes.
Lemma keys_in (l : list attr) (ks : list str) : forallb (fun a => existsb (streq (attr_key a)) ks) l = true ->
  forall a, In a l -> In (attr_key a) ks.
Proof.
  intros H a Ha. rewrite forallb_forall in H. specialize (H a Ha). cbv beta in H. apply existsb_exists in H.
  destruct H as (k & Hk & E). destruct (streq_spec (attr_key a) k) as [->|]; [exact Hk|discriminate].
Qed.
Lemma group_attrs_keys : forall a, In a group_attrs -> In (attr_key a) SpecC.group_keys.
Proof. apply keys_in. vm_compute. reflexivity. Qed.
Lemma group_attrs_distinct : forall a b, In a group_attrs -> In b group_attrs -> attr_key a = attr_key b -> a = b.
Proof.
  assert (H : forallb (fun a => forallb (fun b => negb (streq (attr_key a) (attr_key b)) ||
     match a, b with AStr _, AStr _ | ANum _, ANum _ | ABool _, ABool _ => true | _, _ => false end) group_attrs) group_attrs = true)
    by (vm_compute; reflexivity).
  intros a b Ha Hb E. rewrite forallb_forall in H. specialize (H a Ha). cbv beta in H. rewrite forallb_forall in H. specialize (H b Hb).
  cbv beta in H. rewrite E, streq_refl in H. cbn in H. destruct a, b; try discriminate; cbn in E; congruence.
Qed.
Lemma other_attrs_group : forall a, In a other_attrs -> In a group_attrs.
Proof. intros a H. unfold other_attrs in H. unfold group_attrs. cbn [In] in *. tauto. Qed.
Lemma other_attrs_keys : forall a, In a other_attrs -> In (attr_key a) category_keys.
Proof. apply keys_in. vm_compute. reflexivity. Qed.
Lemma group_keys_pf : prefix_free_b SpecC.group_keys = true.
Proof. vm_compute. reflexivity. Qed.
Lemma category_keys_pf : prefix_free_b category_keys = true.
Proof. vm_compute. reflexivity. Qed.
