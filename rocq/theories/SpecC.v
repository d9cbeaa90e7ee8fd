(** Specifications for the document objects, independent of the models'
    helpers, and the lemmas connecting them to the facts files. *)
From Verif Require Import CStr CStrFacts HSListModel SetModel RTreeModel RTreeFacts RTreeFacts2 RTreeFacts3 RTreeFacts4
  SpecA ObjModel ObjFacts ObjFacts2.

(** ** Unions *)
(** [r] is the right-biased union of the maps [a] and [b]. *)
Definition map_union {V} (a b r : rtree V) : Prop :=
  forall k, rt_get r k = match rt_get b k with Ok (Some v) => Ok (Some v) | _ => rt_get a k end.
Definition bases_united (a b r : base) : Prop :=
  map_union (b_props a) (b_props b) (b_props r) /\
  map_union (b_names a) (b_names b) (b_names r) /\
  map_union (b_descs a) (b_descs b) (b_descs r).
(** [out] is [l1] with the first member of each name replaced by the first
    member of [l2] of that name, followed by the members of [l2] whose names do
    not occur in [l1]. *)
Definition members_merged {A} (name : A -> option ostr) (l1 l2 out : list A) : Prop :=
  (forall i x, nth_error l1 i = Some x ->
     (In (name x) (map name (firstn i l1)) \/ ~ In (name x) (map name l2) -> nth_error out i = Some x) /\
     (~ In (name x) (map name (firstn i l1)) ->
        forall l2a y l2b, l2 = l2a ++ y :: l2b -> name y = name x -> ~ In (name x) (map name l2a) ->
          nth_error out i = Some y)) /\
  skipn (length l1) out = filter (fun y => if in_dec name_dec (name y) (map name l1) then false else true) l2.

Lemma existsb_same_name {A} (name : A -> option ostr) x l :
  existsb (same_name name x) l = if in_dec name_dec (name x) (map name l) then true else false.
Proof.
  destruct (in_dec name_dec (name x) (map name l)) as [H|H].
  - apply in_map_iff in H. destruct H as (y & E & Hy). apply existsb_exists. exists y. split; [exact Hy|].
    apply same_name_iff. congruence.
  - destruct (existsb (same_name name x) l) eqn:E; [exfalso|reflexivity].
    apply existsb_exists in E. destruct E as (y & Hy & E). apply same_name_iff in E. apply H.
    rewrite E. now apply in_map.
Qed.
Lemma find_same_name {A} (name : A -> option ostr) x l2a y l2b :
  name y = name x -> ~ In (name x) (map name l2a) -> find (same_name name x) (l2a ++ y :: l2b) = Some y.
Proof.
  intros E H. rewrite find_app. destruct (find (same_name name x) l2a) as [z|] eqn:Ez.
  - apply find_some in Ez. destruct Ez as [Hz Ez]. apply same_name_iff in Ez. exfalso. apply H. rewrite Ez. now apply in_map.
  - cbn. destruct (same_name name x y) eqn:Ey; [reflexivity|].
    assert (same_name name x y = true) by (apply same_name_iff; congruence). congruence.
Qed.
Lemma find_same_name_none {A} (name : A -> option ostr) x l2 :
  ~ In (name x) (map name l2) -> find (same_name name x) l2 = None.
Proof.
  intros H. destruct (find (same_name name x) l2) as [z|] eqn:Ez; [|reflexivity].
  apply find_some in Ez. destruct Ez as [Hz Ez]. apply same_name_iff in Ez. exfalso. apply H. rewrite Ez. now apply in_map.
Qed.
Lemma merge_members_merged {A} (cp : A -> A) idcmp (name : A -> option ostr) :
  (forall x y, idcmp x y = true <-> name x = name y) -> (forall x, cp x = x) ->
  forall l1 l2, exists out, merge_members cp idcmp l1 l2 = Ok out /\ members_merged name l1 l2 out.
Proof.
  intros Hid Hcp l1 l2.
  destruct (merge_members_spec cp idcmp name Hid Hcp l1 l2) as (out & rest & -> & Hl & Hn & ->).
  eexists; split; [reflexivity|]. split.
  - intros i x Hx. specialize (Hn i x Hx).
    assert (Hi : i < length out) by (apply nth_error_Some; congruence).
    rewrite nth_error_app1 by exact Hi. rewrite Hn. unfold expect, first_of. rewrite existsb_same_name. split.
    + intros H. destruct (in_dec name_dec (name x) (map name (firstn i l1))) as [|Hni]; [reflexivity|].
      cbn [negb]. destruct H as [H|H]; [contradiction|]. now rewrite find_same_name_none.
    + intros Hni l2a y l2b -> Ey Hl2a.
      destruct (in_dec name_dec (name x) (map name (firstn i l1))) as [|_]; [contradiction|].
      cbn [negb]. now rewrite find_same_name.
  - rewrite <- Hl, skipn_app_exact. apply filter_ext. intros y. rewrite existsb_same_name.
    now destruct (in_dec name_dec (name y) (map name l1)).
Qed.

Lemma group_union_ok g1 g2 : breach (g_base g1) -> breach (g_base g2) ->
  exists g, group_union g1 g2 = Ok g /\ breach (g_base g) /\
    bases_united (g_base g1) (g_base g2) (g_base g) /\
    members_merged p_name (g_pkgs g1) (g_pkgs g2) (g_pkgs g).
Proof.
  intros H1 H2. unfold group_union. destruct (base_union_spec _ _ H1 H2) as (bs & -> & Hr & Hp & Hn & Hd). cbn [bind].
  destruct (merge_members_merged pkg_copy pkg_idcmp p_name pkg_idcmp_iff pkg_copy_id (g_pkgs g1) (g_pkgs g2)) as (l & -> & Hm).
  cbn [bind]. eexists; split; [reflexivity|]. cbn [g_base g_pkgs]. split; [exact Hr|].
  split; [|exact Hm]. split; [exact Hp|split; [exact Hn|exact Hd]].
Qed.
Lemma category_union_ok c1 c2 : breach (c_base c1) -> breach (c_base c2) ->
  exists c, category_union c1 c2 = Ok c /\ breach (c_base c) /\
    bases_united (c_base c1) (c_base c2) (c_base c) /\
    members_merged gi_name (c_gids c1) (c_gids c2) (c_gids c).
Proof.
  intros H1 H2. unfold category_union. destruct (base_union_spec _ _ H1 H2) as (bs & -> & Hr & Hp & Hn & Hd). cbn [bind].
  destruct (merge_members_merged gid_copy gid_idcmp gi_name gid_idcmp_iff gid_copy_id (c_gids c1) (c_gids c2)) as (l & -> & Hm).
  cbn [bind]. eexists; split; [reflexivity|]. cbn [c_base c_gids]. split; [exact Hr|].
  split; [|exact Hm]. split; [exact Hp|split; [exact Hn|exact Hd]].
Qed.
Lemma env_union_ok e1 e2 : breach (e_base e1) -> breach (e_base e2) ->
  exists e, env_union e1 e2 = Ok e /\ breach (e_base e) /\
    bases_united (e_base e1) (e_base e2) (e_base e) /\
    members_merged gi_name (e_groups e1) (e_groups e2) (e_groups e) /\
    members_merged gi_name (e_options e1) (e_options e2) (e_options e).
Proof.
  intros H1 H2. unfold env_union. destruct (base_union_spec _ _ H1 H2) as (bs & -> & Hr & Hp & Hn & Hd). cbn [bind].
  destruct (merge_members_merged gid_copy gid_idcmp gi_name gid_idcmp_iff gid_copy_id (e_groups e1) (e_groups e2)) as (l & -> & Hm).
  destruct (merge_members_merged gid_copy gid_idcmp gi_name gid_idcmp_iff gid_copy_id (e_options e1) (e_options e2)) as (o & -> & Ho).
  cbn [bind]. eexists; split; [reflexivity|]. cbn [e_base e_groups e_options]. split; [exact Hr|].
  split; [|split; [exact Hm|exact Ho]]. split; [exact Hp|split; [exact Hn|exact Hd]].
Qed.

(** ** Intersections *)
Definition props_common (a b r : base) : Prop :=
  forall k v, rt_get (b_props r) k = Ok (Some v) <->
              rt_get (b_props a) k = Ok (Some v) /\ rt_get (b_props b) k = Ok (Some v).
(** The members of [l2] whose name occurs in [l1], in order. *)
Definition named_in {A} (name : A -> option ostr) (l1 l2 : list A) : list A :=
  filter (fun y => if in_dec name_dec (name y) (map name l1) then true else false) l2.
Lemma named_in_eq {A} (name : A -> option ostr) l1 l2 :
  filter (fun y => existsb (same_name name y) l1) l2 = named_in name l1 l2.
Proof. apply filter_ext. intros y. apply existsb_same_name. Qed.
(** [out] is [l] without the members whose name occurred before: it keeps the
    order, has no two members of one name, and contains exactly the first
    member of each name. *)
Definition first_of_each {A} (name : A -> option ostr) (l out : list A) : Prop :=
  NoDup (map name out) /\
  (forall x, In x out <-> exists a b, l = a ++ x :: b /\ ~ In (name x) (map name a)) /\
  (exists f, out = map snd (filter f (combine (seq 0 (length l)) l))).

Lemma dedup_nodup {A} (name : A -> option ostr) l : forall seen,
  NoDup (map name (dedup name seen l)) /\ (forall x, In x (dedup name seen l) -> ~ In (name x) (map name seen)).
Proof.
  induction l as [|y l IH]; intros seen; cbn [dedup].
  - split; [constructor|intros x []].
  - rewrite existsb_same_name. destruct (in_dec name_dec (name y) (map name seen)) as [H|H]; [apply IH|].
    destruct (IH (seen ++ [y])) as [H1 H2]. split.
    + cbn. constructor; [|exact H1]. intros Hin. apply in_map_iff in Hin. destruct Hin as (z & Ez & Hz).
      apply (H2 z Hz). rewrite map_app. apply in_or_app. right. left. now symmetry.
    + intros x [<-|Hx]; [exact H|]. intros Hs. apply (H2 x Hx). rewrite map_app. apply in_or_app. now left.
Qed.
Lemma dedup_filter {A} (name : A -> option ostr) l : forall seen n,
  exists f, (forall p, f p = true -> n <= fst p) /\ dedup name seen l = map snd (filter f (combine (seq n (length l)) l)).
Proof.
  induction l as [|y l IH]; intros seen n; cbn [dedup].
  - exists (fun _ => false). split; [discriminate|reflexivity].
  - cbn [length seq combine filter].
    assert (Hext : forall (f g : nat * A -> bool) m (r : list A), (forall p, m <= fst p -> f p = g p) ->
       filter f (combine (seq m (length r)) r) = filter g (combine (seq m (length r)) r)).
    { intros f g m r Hfg. apply filter_ext_in. intros [i z] Hz. apply in_combine_l in Hz. apply in_seq in Hz.
      apply Hfg. cbn. lia. }
    destruct (existsb (same_name name y) seen).
    + destruct (IH seen (S n)) as (f & Hf & ->). exists f. split; [intros p Hp; specialize (Hf p Hp); lia|].
      destruct (f (n, y)) eqn:E; [specialize (Hf _ E); cbn in Hf; lia|reflexivity].
    + destruct (IH (seen ++ [y]) (S n)) as (f & Hf & ->).
      exists (fun p => (fst p =? n) || f p). split.
      * intros p Hp. apply orb_true_iff in Hp. destruct Hp as [Hp|Hp]; [apply Nat.eqb_eq in Hp; lia|specialize (Hf p Hp); lia].
      * cbn [fst]. rewrite Nat.eqb_refl. cbn [orb map snd]. f_equal. f_equal. apply Hext. intros p Hp.
        destruct (Nat.eqb_spec (fst p) n); [lia|reflexivity].
Qed.
Lemma dedup_first_of_each {A} (name : A -> option ostr) l : first_of_each name l (dedup name [] l).
Proof.
  split; [apply dedup_nodup|]. split.
  - intros x. rewrite dedup_in. cbn [app]. split; intros (a & b & E & H); exists a, b; split; auto;
      rewrite existsb_same_name in *; destruct (in_dec name_dec (name x) (map name a)); auto; try discriminate; contradiction.
  - destruct (dedup_filter name l [] 0) as (f & _ & E). eauto.
Qed.

Lemma group_intersect_ok g1 g2 : breach (g_base g1) -> breach (g_base g2) ->
  exists g, group_intersect g1 g2 = Ok g /\ breach (g_base g) /\
    props_common (g_base g1) (g_base g2) (g_base g) /\
    g_pkgs g = named_in p_name (g_pkgs g1) (g_pkgs g2).
Proof.
  intros H1 H2. unfold group_intersect. destruct (base_intersect_spec _ _ H1 H2) as (bs & -> & Hr & Hp & _). cbn [bind].
  rewrite (intersect_members_spec pkg_copy pkg_idcmp p_name pkg_idcmp_iff pkg_copy_id), named_in_eq. cbn [bind].
  eexists; split; [reflexivity|]. split; [exact Hr|]. split; [exact Hp|reflexivity].
Qed.
Lemma category_intersect_ok c1 c2 : breach (c_base c1) -> breach (c_base c2) ->
  exists c, category_intersect c1 c2 = Ok c /\ breach (c_base c) /\
    props_common (c_base c1) (c_base c2) (c_base c) /\
    c_gids c = named_in gi_name (c_gids c1) (c_gids c2).
Proof.
  intros H1 H2. unfold category_intersect. destruct (base_intersect_spec _ _ H1 H2) as (bs & -> & Hr & Hp & _). cbn [bind].
  rewrite (intersect_members_spec gid_copy gid_idcmp gi_name gid_idcmp_iff gid_copy_id), named_in_eq. cbn [bind].
  eexists; split; [reflexivity|]. split; [exact Hr|]. split; [exact Hp|reflexivity].
Qed.
Lemma env_intersect_ok e1 e2 : breach (e_base e1) -> breach (e_base e2) ->
  exists e, env_intersect e1 e2 = Ok e /\ breach (e_base e) /\
    props_common (e_base e1) (e_base e2) (e_base e) /\
    first_of_each gi_name (named_in gi_name (e_groups e1) (e_groups e2)) (e_groups e) /\
    first_of_each gi_name (named_in gi_name (e_options e1) (e_options e2)) (e_options e).
Proof.
  intros H1 H2. unfold env_intersect. destruct (base_intersect_spec _ _ H1 H2) as (bs & -> & Hr & Hp & _). cbn [bind].
  rewrite !(intersect_members_env_spec gid_copy gid_idcmp gi_name gid_idcmp_iff gid_copy_id), !named_in_eq. cbn [bind].
  eexists; split; [reflexivity|]. split; [exact Hr|]. split; [exact Hp|]. cbn [e_groups e_options].
  split; apply dedup_first_of_each.
Qed.
(** Translations do not survive an intersection. *)
Lemma intersect_translations g1 g2 g : breach (g_base g1) -> breach (g_base g2) -> group_intersect g1 g2 = Ok g ->
  (forall k, rt_get (b_names (g_base g)) k = Ok None) /\ (forall k, rt_get (b_descs (g_base g)) k = Ok None).
Proof.
  intros H1 H2 E. unfold group_intersect in E. destruct (base_intersect_spec _ _ H1 H2) as (bs & Eb & Hr & Hp & Hn & Hd).
  rewrite Eb in E. cbn [bind] in E. apply bind_ok in E. destruct E as (l & _ & E). inversion E; subst. auto.
Qed.

(** ** Architecture filters *)
(** An object with architecture list [own] is wanted for [arches]. *)
Definition arch_wanted (arches : list ostr) (own : option (list ostr)) : Prop :=
  match own with None => True | Some l => exists a, In a l /\ In a arches end.
Lemma arch_ok_iff arches own : arch_ok arches own = true <-> arch_wanted arches own.
Proof.
  destruct own as [l|]; cbn; [|tauto]. unfold arches_intersected. rewrite existsb_exists. split.
  - intros (a & Ha & H). apply existsb_exists in H. destruct H as (b & Hb & E). apply ostr_cmp_iff in E. subst. eauto.
  - intros (a & Ha & Hb). exists a. split; [exact Hb|]. apply existsb_exists. exists a. split; [exact Ha|]. now apply ostr_cmp_iff.
Qed.
(** [out] is the wanted part of [l], in order. *)
Definition arch_filtered {A} (arches_of : A -> option (list ostr)) (arches : list ostr) (l out : list A) : Prop :=
  exists keep, (forall x, keep x = true <-> arch_wanted arches (arches_of x)) /\ out = filter keep l.
Lemma filtered {A} (cp : A -> A) (arches_of : A -> option (list ostr)) arches l :
  (forall x, cp x = x) -> arch_filtered arches_of arches l (map cp (filter (fun p => arch_ok arches (arches_of p)) l)).
Proof.
  intros Hcp. exists (fun p => arch_ok arches (arches_of p)). split; [intros; apply arch_ok_iff|].
  now apply map_id_ext.
Qed.
Lemma filter_filter {A} (f g : A -> bool) l : filter f (filter g l) = filter (fun x => g x && f x) l.
Proof. induction l as [|x l IH]; cbn; [reflexivity|]. destruct (g x); cbn; [destruct (f x); congruence|exact IH]. Qed.
Lemma filter_idem {A} (cp : A -> A) (f : A -> bool) l : (forall x, cp x = x) ->
  map cp (filter f (map cp (filter f l))) = map cp (filter f l).
Proof.
  intros H. rewrite !(map_id_ext cp _ H), filter_filter. apply filter_ext. intros x. apply andb_diag.
Qed.
Lemma arch_ok_mono a1 a2 own : incl a1 a2 -> arch_ok a1 own = true -> arch_ok a2 own = true.
Proof.
  intros Hi H. apply arch_ok_iff. apply arch_ok_iff in H. destruct own; [|exact I]. destruct H as (a & H1 & H2).
  exists a. auto.
Qed.
Lemma filter_mono {A} (cp : A -> A) (ar : A -> option (list ostr)) a1 a2 l x : (forall x, cp x = x) -> incl a1 a2 ->
  In x (map cp (filter (fun p => arch_ok a1 (ar p)) l)) -> In x (map cp (filter (fun p => arch_ok a2 (ar p)) l)).
Proof.
  intros Hc Hi. rewrite !(map_id_ext cp _ Hc), !filter_In. intros [H1 H2]. split; [exact H1|]. eapply arch_ok_mono; eauto.
Qed.

Lemma members_filter : forall arches,
  (forall g, breach (g_base g) -> same_base (g_base (group_arch_filter g arches)) (g_base g) /\
     arch_filtered p_arches arches (g_pkgs g) (g_pkgs (group_arch_filter g arches))) /\
  (forall c, breach (c_base c) -> same_base (c_base (category_arch_filter c arches)) (c_base c) /\
     arch_filtered gi_arches arches (c_gids c) (c_gids (category_arch_filter c arches))) /\
  (forall e, breach (e_base e) -> same_base (e_base (env_arch_filter e arches)) (e_base e) /\
     arch_filtered gi_arches arches (e_groups e) (e_groups (env_arch_filter e arches)) /\
     arch_filtered gi_arches arches (e_options e) (e_options (env_arch_filter e arches))).
Proof.
  intros arches. split; [|split]; intros o Ho; (split; [now apply base_copy_spec|]).
  - apply filtered, pkg_copy_id.
  - apply filtered, gid_copy_id.
  - split; apply filtered, gid_copy_id.
Qed.
Lemma members_filter_idem : forall arches,
  (forall g, breach (g_base g) -> let f := group_arch_filter g arches in
     same_base (g_base (group_arch_filter f arches)) (g_base f) /\ g_pkgs (group_arch_filter f arches) = g_pkgs f) /\
  (forall c, breach (c_base c) -> let f := category_arch_filter c arches in
     same_base (c_base (category_arch_filter f arches)) (c_base f) /\ c_gids (category_arch_filter f arches) = c_gids f) /\
  (forall e, breach (e_base e) -> let f := env_arch_filter e arches in
     same_base (e_base (env_arch_filter f arches)) (e_base f) /\
     e_groups (env_arch_filter f arches) = e_groups f /\ e_options (env_arch_filter f arches) = e_options f).
Proof.
  intros arches. split; [|split]; intros o Ho f; (split; [apply base_copy_spec; now apply base_copy_spec|]).
  - apply filter_idem, pkg_copy_id.
  - apply filter_idem, gid_copy_id.
  - split; apply filter_idem, gid_copy_id.
Qed.
Lemma members_filter_mono : forall a1 a2, incl a1 a2 ->
  (forall g p, In p (g_pkgs (group_arch_filter g a1)) -> In p (g_pkgs (group_arch_filter g a2))) /\
  (forall c i, In i (c_gids (category_arch_filter c a1)) -> In i (c_gids (category_arch_filter c a2))) /\
  (forall e i, In i (e_groups (env_arch_filter e a1)) -> In i (e_groups (env_arch_filter e a2))) /\
  (forall e i, In i (e_options (env_arch_filter e a1)) -> In i (e_options (env_arch_filter e a2))).
Proof.
  intros a1 a2 Hi. split; [|split; [|split]]; intros o i; apply filter_mono; auto using pkg_copy_id, gid_copy_id.
Qed.

(** ** Package query *)
Definition pkg_wanted (name : option str) (type : Z) (p : pkg) : Prop :=
  (forall n, name = Some n -> p_name p = Some (Some n)) /\ (type <> PK_UNKNOWN -> p_type p = type).
Lemma get_packages_spec g name type :
  exists want, (forall p, want p = true <-> pkg_wanted name type p) /\
    group_get_packages g name type = filter want (g_pkgs g).
Proof.
  unfold group_get_packages.
  match goal with |- context [filter ?f _] => exists f end. split; [|reflexivity].
  intros p. unfold pkg_wanted. rewrite Nat.eqb_eq.
  assert (Ht : (type =? PK_UNKNOWN)%Z = true <-> type = PK_UNKNOWN) by apply Z.eqb_eq.
  pose proof (Z.eqb_eq (p_type p) type) as Hp.
  destruct name as [n|].
  - pose proof (obj_cmp_iff _ ostr_cmp_iff (p_name p) (Some (Some n))) as Hn. split.
    + intros E. split.
      * intros n' En. assert (n' = n) as -> by congruence. apply Hn.
        destruct (obj_cmp ostr_cmp (p_name p) (Some (Some n))); [reflexivity|].
        destruct (type =? PK_UNKNOWN)%Z, (p_type p =? type)%Z; discriminate.
      * intros Hne. apply Hp. destruct (type =? PK_UNKNOWN)%Z; [exfalso; now apply Hne, Ht|].
        destruct (p_type p =? type)%Z; [reflexivity|].
        destruct (obj_cmp ostr_cmp (p_name p) (Some (Some n))); discriminate.
    + intros [H1 H2]. rewrite (proj2 Hn (H1 n eq_refl)). destruct (type =? PK_UNKNOWN)%Z; [reflexivity|].
      rewrite (proj2 Hp); [reflexivity|]. apply H2. intros E. apply Ht in E. discriminate.
  - split.
    + intros E. split; [discriminate|]. intros Hne. apply Hp. destruct (type =? PK_UNKNOWN)%Z; [exfalso; now apply Hne, Ht|].
      destruct (p_type p =? type)%Z; [reflexivity|discriminate].
    + intros [H1 H2]. destruct (type =? PK_UNKNOWN)%Z; [reflexivity|].
      rewrite (proj2 Hp); [reflexivity|]. apply H2. intros E. apply Ht in E. discriminate.
Qed.

(** ** Comparison *)
(** [cmp] is an equivalence on the objects satisfying [ok] and copies compare
    equal. *)
Definition cmp_equivalence {A} (ok : A -> Prop) (cmp : A -> A -> res bool) (cp : A -> A) : Prop :=
  (forall a, ok a -> ok (cp a)) /\
  (forall a b, ok a -> ok b -> exists c, cmp a b = Ok c) /\
  (forall a, ok a -> cmp a a = Ok true) /\
  (forall a b, ok a -> ok b -> cmp a b = cmp b a) /\
  (forall a b c, ok a -> ok b -> ok c -> cmp a b = Ok true -> cmp b c = Ok true -> cmp a c = Ok true) /\
  (forall a, ok a -> cmp (cp a) a = Ok true /\ cmp a (cp a) = Ok true).
Lemma cmp_equivalence_of {A} (ok : A -> Prop) cmp cp (R : A -> A -> Prop) :
  (forall a b, ok a -> ok b -> exists c, cmp a b = Ok c /\ (c = true <-> R a b)) ->
  (forall a, R a a) -> (forall a b, R a b -> R b a) -> (forall a b c, R a b -> R b c -> R a c) ->
  (forall a, ok a -> ok (cp a) /\ R (cp a) a) ->
  cmp_equivalence ok cmp cp.
Proof.
  intros H Hr Hs Ht Hc.
  assert (Htrue : forall a b, ok a -> ok b -> (cmp a b = Ok true <-> R a b)).
  { intros a b Ha Hb. destruct (H a b Ha Hb) as (c & -> & Hi). rewrite <- Hi. split; congruence. }
  split; [intros a Ha; now apply Hc|]. split; [intros a b Ha Hb; destruct (H a b Ha Hb) as (c & E & _); eauto|].
  split; [intros a Ha; now apply Htrue|]. split.
  - intros a b Ha Hb. destruct (H a b Ha Hb) as (c & -> & Hi). destruct (H b a Hb Ha) as (d & -> & Hj).
    f_equal. destruct c, d; try reflexivity.
    + assert (R a b) as Hab by now apply Hi. apply Hs, Hj in Hab. congruence.
    + assert (R b a) as Hab by now apply Hj. apply Hs, Hi in Hab. congruence.
  - split.
    + intros a b c Ha Hb Hcc E1 E2. apply Htrue; auto. apply Htrue in E1, E2; auto. eauto.
    + intros a Ha. destruct (Hc a Ha) as [Hok HR]. split; apply Htrue; auto.
Qed.

Definition pkg_same (a b : pkg) : Prop := p_name a = p_name b /\ p_requires a = p_requires b /\ p_type a = p_type b.
Definition gid_same (a b : gid) : Prop := gi_name a = gi_name b /\ gi_def a = gi_def b.
Lemma pkg_same_equiv : (forall a, pkg_same a a) /\ (forall a b, pkg_same a b -> pkg_same b a) /\
  (forall a b c, pkg_same a b -> pkg_same b c -> pkg_same a c).
Proof. unfold pkg_same. repeat split; intuition congruence. Qed.
Lemma gid_same_equiv : (forall a, gid_same a a) /\ (forall a b, gid_same a b -> gid_same b a) /\
  (forall a b c, gid_same a b -> gid_same b c -> gid_same a c).
Proof. unfold gid_same. repeat split; intuition congruence. Qed.
Lemma Forall2_equiv {A} (R : A -> A -> Prop) :
  (forall a, R a a) /\ (forall a b, R a b -> R b a) /\ (forall a b c, R a b -> R b c -> R a c) ->
  (forall l, Forall2 R l l) /\ (forall a b, Forall2 R a b -> Forall2 R b a) /\
  (forall a b c, Forall2 R a b -> Forall2 R b c -> Forall2 R a c).
Proof.
  intros (Hr & Hs & Ht). split; [|split].
  - induction l; constructor; auto.
  - induction 1; constructor; auto.
  - intros a b c H. revert c. induction H as [|x y l1 l2 Hx H IH]; intros c Hc; inversion Hc; subst; constructor; eauto.
Qed.
Lemma list_cmp_pkg l1 l2 : list_cmp pkg_cmp l1 l2 = true <-> Forall2 pkg_same l1 l2.
Proof. rewrite list_cmp_Forall2. apply Forall2_iff, pkg_cmp_iff. Qed.
Lemma list_cmp_gid l1 l2 : list_cmp gid_cmp l1 l2 = true <-> Forall2 gid_same l1 l2.
Proof. rewrite list_cmp_Forall2. apply Forall2_iff, gid_cmp_iff. Qed.

Definition group_same (a b : group) : Prop := same_base (g_base a) (g_base b) /\ Forall2 pkg_same (g_pkgs a) (g_pkgs b).
Definition category_same (a b : category) : Prop := same_base (c_base a) (c_base b) /\ Forall2 gid_same (c_gids a) (c_gids b).
Definition env_same (a b : env) : Prop := same_base (e_base a) (e_base b) /\
  Forall2 gid_same (e_groups a) (e_groups b) /\ Forall2 gid_same (e_options a) (e_options b).
Lemma group_cmp_spec a b : breach (g_base a) -> breach (g_base b) ->
  exists c, group_cmp a b = Ok c /\ (c = true <-> group_same a b).
Proof.
  intros Ha Hb. unfold group_cmp, group_same. destruct (base_cmp_spec _ _ Ha Hb) as (c & -> & Hc). cbn [bind].
  eexists; split; [reflexivity|]. rewrite <- Hc, <- list_cmp_pkg. destruct c; intuition discriminate.
Qed.
Lemma category_cmp_spec a b : breach (c_base a) -> breach (c_base b) ->
  exists c, category_cmp a b = Ok c /\ (c = true <-> category_same a b).
Proof.
  intros Ha Hb. unfold category_cmp, category_same. destruct (base_cmp_spec _ _ Ha Hb) as (c & -> & Hc). cbn [bind].
  eexists; split; [reflexivity|]. rewrite <- Hc, <- list_cmp_gid. destruct c; intuition discriminate.
Qed.
Lemma env_cmp_spec a b : breach (e_base a) -> breach (e_base b) ->
  exists c, env_cmp a b = Ok c /\ (c = true <-> env_same a b).
Proof.
  intros Ha Hb. unfold env_cmp, env_same. destruct (base_cmp_spec _ _ Ha Hb) as (c & -> & Hc). cbn [bind].
  eexists; split; [reflexivity|]. rewrite <- Hc, <- !list_cmp_gid.
  destruct c, (list_cmp gid_cmp (e_groups a) (e_groups b)); intuition discriminate.
Qed.
Lemma map_pkg_copy l : map pkg_copy l = l.
Proof. apply map_id_ext, pkg_copy_id. Qed.
Lemma map_gid_copy l : map gid_copy l = l.
Proof. apply map_id_ext, gid_copy_id. Qed.
Lemma group_equivalence : cmp_equivalence (fun g => breach (g_base g)) group_cmp group_copy.
Proof.
  destruct (Forall2_equiv _ pkg_same_equiv) as (R & S & T).
  apply cmp_equivalence_of with (R := group_same); unfold group_same.
  - intros; now apply group_cmp_spec.
  - intros a. split; [apply same_base_refl|auto].
  - intros a b [H1 H2]. split; [now apply same_base_sym|auto].
  - intros a b c [H1 H2] [H3 H4]. split; [eapply same_base_trans; eauto|eauto].
  - intros a Ha. destruct (base_copy_spec _ Ha) as [H1 H2]. split; [exact H1|]. split; [exact H2|].
    cbn [group_copy g_pkgs]. rewrite map_pkg_copy. auto.
Qed.
Lemma category_equivalence : cmp_equivalence (fun c => breach (c_base c)) category_cmp category_copy.
Proof.
  destruct (Forall2_equiv _ gid_same_equiv) as (R & S & T).
  apply cmp_equivalence_of with (R := category_same); unfold category_same.
  - intros; now apply category_cmp_spec.
  - intros a. split; [apply same_base_refl|auto].
  - intros a b [H1 H2]. split; [now apply same_base_sym|auto].
  - intros a b c [H1 H2] [H3 H4]. split; [eapply same_base_trans; eauto|eauto].
  - intros a Ha. destruct (base_copy_spec _ Ha) as [H1 H2]. split; [exact H1|]. split; [exact H2|].
    cbn [category_copy c_gids]. rewrite map_gid_copy. auto.
Qed.
Lemma env_equivalence : cmp_equivalence (fun e => breach (e_base e)) env_cmp env_copy.
Proof.
  destruct (Forall2_equiv _ gid_same_equiv) as (R & S & T).
  apply cmp_equivalence_of with (R := env_same); unfold env_same.
  - intros; now apply env_cmp_spec.
  - intros a. split; [apply same_base_refl|auto].
  - intros a b (H1 & H2 & H3). split; [now apply same_base_sym|auto].
  - intros a b c (H1 & H2 & H3) (H4 & H5 & H6). split; [eapply same_base_trans; eauto|eauto].
  - intros a Ha. destruct (base_copy_spec _ Ha) as [H1 H2]. split; [exact H1|]. split; [exact H2|].
    cbn [env_copy e_groups e_options]. rewrite !map_gid_copy. auto.
Qed.
Lemma pkg_equivalence : cmp_equivalence (fun _ => True) (fun a b => Ok (pkg_cmp a b)) pkg_copy.
Proof.
  destruct pkg_same_equiv as (R & S & T).
  apply (cmp_equivalence_of (fun _ => True) (fun a b => Ok (pkg_cmp a b)) pkg_copy pkg_same); auto.
  - intros a b _ _. exists (pkg_cmp a b). split; [reflexivity|apply pkg_cmp_iff].
  - intros a _. rewrite pkg_copy_id. auto.
Qed.
Lemma gid_equivalence : cmp_equivalence (fun _ => True) (fun a b => Ok (gid_cmp a b)) gid_copy.
Proof.
  destruct gid_same_equiv as (R & S & T).
  apply (cmp_equivalence_of (fun _ => True) (fun a b => Ok (gid_cmp a b)) gid_copy gid_same); auto.
  - intros a b _ _. exists (gid_cmp a b). split; [reflexivity|apply gid_cmp_iff].
  - intros a _. rewrite gid_copy_id. auto.
Qed.

(** ** Property setters *)
(** The keys of the generated setters and getters: comps_docgroup.c:54-71,76-77,
    comps_doccategory.c:53-64, comps_docenv.c:57-75. *)
Definition group_keys : list str := [S_ "id"; S_ "name"; S_ "desc"; S_ "def"; S_ "uservisible"; S_ "biarchonly";
  S_ "display_order"; S_ "langonly"; S_ "arches"].
Definition category_keys : list str := [S_ "id"; S_ "name"; S_ "desc"; S_ "display_order"; S_ "arches"].
Definition env_keys : list str := [S_ "id"; S_ "name"; S_ "desc"; S_ "display_order"; S_ "arches"].

(** A setter call, and what it stores: nothing ([None]) when a string setter is
    given NULL. *)
Inductive setter := SetStr (k : str) (s : option str) | SetNum (k : str) (z : option Z) | SetArches (l : option (list ostr)).
Definition setter_key (o : setter) : str :=
  match o with SetStr k _ => k | SetNum k _ => k | SetArches _ => S_ "arches" end.
Definition setter_effect (o : setter) : option (option pval) :=
  match o with
  | SetStr _ None => None
  | SetStr _ (Some s) => Some (Some (PStr (Some s)))
  | SetNum _ z => Some (option_map PNum z)
  | SetArches l => Some (option_map PList l)
  end.
Definition apply_setter (b : base) (o : setter) : res base :=
  match o with
  | SetStr k s => base_set_str b k s
  | SetNum k z => base_set_num b k z
  | SetArches l => base_set_arches b l
  end.
(** Objects whose properties are only ever written through setters for [K]. *)
Inductive built (K : list str) : base -> Prop :=
| B_create : built K base_create
| B_set b o b' : built K b -> In (setter_key o) K -> apply_setter b o = Ok b' -> built K b'
| B_name b l s b' : built K b -> base_set_name b l s = Ok b' -> built K b'
| B_desc b l s b' : built K b -> base_set_desc b l s = Ok b' -> built K b'
| B_copy b : built K b -> built K (base_copy b)
| B_union a b r : built K a -> built K b -> base_union a b = Ok r -> built K r
| B_intersect a b r : built K a -> built K b -> base_intersect a b = Ok r -> built K r.

Fixpoint prefix_free_b (ks : list str) : bool :=
  match ks with
  | [] => true
  | k :: r => match k with [] => false | _ => true end &&
              forallb (fun s => negb (pprefixb k s) && negb (pprefixb s k)) r && prefix_free_b r
  end.
Lemma prefix_free_b_spec ks : prefix_free_b ks = true ->
  ~ In [] ks /\ forall a b, In a ks -> In b ks -> ~ proper_prefix a b.
Proof.
  induction ks as [|k r IH]; intros H; [split; [intros []|intros a b []]|].
  cbn in H. apply andb_true_iff in H. destruct H as [H Hr]. apply andb_true_iff in H. destruct H as [Hk Hf].
  destruct (IH Hr) as [H1 H2]. rewrite forallb_forall in Hf. split.
  - intros [->|H]; [discriminate|auto].
  - intros a b [<-|Ha] [<-|Hb] Hp.
    + apply proper_prefix_length in Hp. lia.
    + specialize (Hf b Hb). apply andb_true_iff in Hf. destruct Hf as [Hf _]. apply pprefixb_iff in Hp. rewrite Hp in Hf. discriminate.
    + specialize (Hf a Ha). apply andb_true_iff in Hf. destruct Hf as [_ Hf]. apply pprefixb_iff in Hp. rewrite Hp in Hf. discriminate.
    + exact (H2 a b Ha Hb Hp).
Qed.

Section Built.
Context (ks : list str).
Hypothesis Hpf : prefix_free_b ks = true.
Let K : str -> Prop := fun k => In k ks.
Lemma Kne : ~ K [].
Proof. apply (prefix_free_b_spec _ Hpf). Qed.
Lemma Kpf : forall a b, K a -> K b -> ~ proper_prefix a b.
Proof. apply (prefix_free_b_spec _ Hpf). Qed.

Lemma setter_within b o : within K (b_props b) -> K (setter_key o) ->
  exists b', apply_setter b o = Ok b' /\ within K (b_props b') /\ b_names b' = b_names b /\ b_descs b' = b_descs b /\
    forall k, rt_get (b_props b') k =
      match setter_effect o with
      | Some v => if str_eq_dec k (setter_key o) then Ok v else rt_get (b_props b) k
      | None => rt_get (b_props b) k
      end.
Proof.
  intros Hw Hk.
  assert (H : forall d, exists t, rt_set (b_props b) (setter_key o) d = Ok t /\ within K t /\
     forall k, rt_get t k = if str_eq_dec k (setter_key o) then Ok d else rt_get (b_props b) k).
  { intros d. destruct (within_set K Kne Kpf (b_props b) (setter_key o) d Hw Hk) as (t & E & Hw' & Hl).
    exists t. split; [exact E|]. split; [exact Hw'|]. intros k. rewrite !rt_get_look, Hl.
    destruct (str_eq_dec k (setter_key o)) as [->|Hne]; [now rewrite streq_refl|].
    rewrite streq_neq by exact Hne. reflexivity. }
  destruct o as [k s|k z|l]; cbn [apply_setter setter_effect setter_key] in *.
  - unfold base_set_str. destruct s as [s|]; [|exists b; auto].
    destruct (H (Some (PStr (Some s)))) as (t & -> & Hw' & Hg). cbn [bind]. eexists; split; [reflexivity|]. auto.
  - unfold base_set_num. destruct (H (option_map PNum z)) as (t & -> & Hw' & Hg). cbn [bind]. eexists; split; [reflexivity|]. auto.
  - unfold base_set_arches. destruct (H (option_map PList l)) as (t & -> & Hw' & Hg). cbn [bind]. eexists; split; [reflexivity|]. auto.
Qed.
Lemma built_within b : built ks b -> within K (b_props b) /\ breach b.
Proof.
  induction 1 as [|b o b' _ [IH Hr] Hk E|b l s b' _ [IH Hr] E|b l s b' _ [IH Hr] E|b _ [IH Hr]|a b r _ [IHa Ra] _ [IHb Rb] E|a b r _ [IHa Ra] _ [IHb Rb] E].
  - split; [apply within_create|]. split; [|split]; constructor.
  - destruct (setter_within b o IH Hk) as (b1 & E1 & Hw & En & Ed & _). assert (b1 = b') as -> by congruence.
    split; [exact Hw|]. destruct Hr as (Hp & Hn & Hd). split; [|split; congruence].
    assert (Hset : forall d t, rt_set (b_props b) (setter_key o) d = Ok t -> reach pval_copy t).
    { intros d t Et. exact (R_set _ _ _ _ _ Hp Et). }
    destruct o as [k s|k z|l]; cbn [apply_setter setter_key] in *.
    + unfold base_set_str in E. destruct s as [s|]; [|congruence].
      apply bind_ok in E. destruct E as (t & Et & E). inversion E; subst. exact (Hset _ _ Et).
    + unfold base_set_num in E. apply bind_ok in E. destruct E as (t & Et & E). inversion E; subst. exact (Hset _ _ Et).
    + unfold base_set_arches in E. apply bind_ok in E. destruct E as (t & Et & E). inversion E; subst. exact (Hset _ _ Et).
  - unfold base_set_name in E. apply bind_ok in E. destruct E as (t & Et & E). inversion E; subst. cbn.
    split; [exact IH|]. destruct Hr as (Hp & Hn & Hd). split; [exact Hp|]. split; [|exact Hd]. exact (R_set _ _ _ _ _ Hn Et).
  - unfold base_set_desc in E. apply bind_ok in E. destruct E as (t & Et & E). inversion E; subst. cbn.
    split; [exact IH|]. destruct Hr as (Hp & Hn & Hd). split; [exact Hp|]. split; [exact Hn|]. exact (R_set _ _ _ _ _ Hd Et).
  - split; [|now apply base_copy_spec]. cbn [base_copy b_props]. now apply within_clone.
  - destruct (base_union_spec a b Ra Rb) as (r' & E' & Hr & _). assert (r' = r) as -> by congruence. split; [|exact Hr].
    unfold base_union in E. apply bind_ok in E. destruct E as (p & Ep & E). apply bind_ok in E. destruct E as (n & _ & E).
    apply bind_ok in E. destruct E as (d & _ & E). inversion E; subst. cbn [b_props].
    exact (within_union K Kne Kpf pval_copy _ _ _ IHa IHb Ep).
  - destruct (base_intersect_spec a b Ra Rb) as (r' & E' & Hr & Hp & _). assert (r' = r) as -> by congruence. split; [|exact Hr].
    unfold base_intersect in E. rewrite !rt_pairs_ents in E. cbn [bind] in E.
    apply bind_ok in E. destruct E as (s & _ & E). apply bind_ok in E. destruct E as (p & Ep & E). inversion E; subst. cbn [b_props].
    rewrite set_pairs_sets in Ep. destruct IHb as (Wb & _ & Hd).
    apply (within_sets K Kne Kpf _ _ _ (within_create K) (fun k v H => Hd k ltac:(apply filter_In in H; destruct H as [H _]; apply (ents_look _ _ _ Wb) in H; congruence)) Ep).
Qed.
Lemma setters_independent b o : built ks b -> In (setter_key o) ks ->
  exists b', apply_setter b o = Ok b' /\ built ks b' /\
    (forall v, setter_effect o = Some v -> base_get b' (setter_key o) = Ok v) /\
    (setter_effect o = None -> base_get b' (setter_key o) = base_get b (setter_key o)) /\
    (forall k, k <> setter_key o -> base_get b' k = base_get b k) /\
    b_names b' = b_names b /\ b_descs b' = b_descs b.
Proof.
  intros Hb Hk. destruct (built_within b Hb) as [Hw _].
  destruct (setter_within b o Hw Hk) as (b' & E & Hw' & En & Ed & Hg). exists b'. split; [exact E|].
  split; [exact (B_set _ _ _ _ Hb Hk E)|]. unfold base_get. split; [|split; [|split]].
  - intros v Ev. rewrite Hg, Ev. destruct (str_eq_dec (setter_key o) (setter_key o)); congruence.
  - intros Ev. rewrite Hg, Ev. reflexivity.
  - intros k Hne. rewrite Hg. destruct (setter_effect o); [|reflexivity]. destruct (str_eq_dec k (setter_key o)); congruence.
  - auto.
Qed.
End Built.

(** The value a history of setter calls leaves under [k]. *)
Fixpoint apply_setters (b : base) (os : list setter) : res base :=
  match os with [] => Ok b | o :: r => b' <- apply_setter b o ;; apply_setters b' r end.
Definition last_value (os : list setter) (k : str) : option pval :=
  match find (fun o => match setter_effect o with Some _ => streq k (setter_key o) | None => false end) (rev os) with
  | Some o => match setter_effect o with Some v => v | None => None end
  | None => None
  end.
Lemma setters_history ks os : prefix_free_b ks = true -> (forall o, In o os -> In (setter_key o) ks) ->
  exists b, apply_setters base_create os = Ok b /\ forall k, base_get b k = Ok (last_value os k).
Proof.
  intros Hpf.
  assert (H : forall os0 past b, built ks b -> (forall k, base_get b k = Ok (last_value past k)) ->
     (forall o, In o os0 -> In (setter_key o) ks) ->
     exists b', apply_setters b os0 = Ok b' /\ forall k, base_get b' k = Ok (last_value (past ++ os0) k)).
  { induction os0 as [|o os' IH]; intros past b Hb Hg Hos; cbn [apply_setters].
    - exists b. now rewrite app_nil_r.
    - destruct (setters_independent ks Hpf b o Hb (Hos o (or_introl eq_refl))) as (b1 & -> & Hb1 & H1 & H2 & H3 & _).
      cbn [bind]. replace (past ++ o :: os') with ((past ++ [o]) ++ os') by (rewrite <- app_assoc; reflexivity).
      apply IH; auto; [|intros; apply Hos; now right].
      intros k. unfold last_value. rewrite rev_app_distr. cbn [rev app find].
      destruct (setter_effect o) as [v|] eqn:E.
      + destruct (streq_spec k (setter_key o)) as [->|Hne]; [rewrite E; now apply H1|]. rewrite H3 by exact Hne. apply Hg.
      + destruct (str_eq_dec k (setter_key o)) as [->|Hne]; [rewrite H2 by reflexivity; apply Hg|].
        rewrite H3 by exact Hne. apply Hg. }
  intros Hos. apply (H os [] base_create); auto; [constructor|].
  intros k. unfold base_get. rewrite rt_get_look. cbn [base_create b_props rt_create troot]. now rewrite look_empty.
Qed.
