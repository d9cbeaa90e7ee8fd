(** C81-C85: the radix tree with callbacks, comps_bradix.c. *)
From Coq Require Import Permutation.
From Verif Require Import CStr CStrFacts HSListModel RTreeModel RTreeFacts RTreeFacts2 OwnModel OwnFacts OwnFacts2 OwnFacts3
  BRadixModel BRadixFacts BRadixFacts2 BRadixFacts3.

Definition same_ : option nat -> option nat := fun d => d.
Notation "'!' x" := (list_ascii_of_string x%string) (at level 9, x at level 0).

(** ** C81 *)
Theorem C81_map_partial : forall (V : Type) ctor (os : list (bop V)), ordered os -> only_set_get os ->
  exists s effs, b_run true ctor o_create os = Ok (s, effs) /\
    (forall k, bshows s k = fst (fst (map_run ctor (fun _ => None) os)) k) /\
    results effs = snd (fst (map_run ctor (fun _ => None) os)).
Proof.
  intros V ctor os Ho Hs. destruct (set_get_run ctor os Ho Hs) as (s & effs & H1 & _ & H2 & H3 & _). exists s, effs. auto.
Qed.
Theorem C81_width : forall (V : Type) ctor (os : list (bop V)) w,
  (forall k, In k (bset_keys os) -> length k = w) -> only_set_get os ->
  exists s effs, b_run true ctor o_create os = Ok (s, effs) /\
    (forall k, bshows s k = fst (fst (map_run ctor (fun _ => None) os)) k) /\
    results effs = snd (fst (map_run ctor (fun _ => None) os)).
Proof. intros V ctor os w Hw. apply C81_map_partial. now apply (ordered_width os w). Qed.

(** ** C82 *)
Theorem C82_released_partial : forall (V : Type) ctor (os : list (bop V)), ordered os -> only_set_get os ->
  exists s effs ev, b_run true ctor o_create os = Ok (s, effs) /\ o_destroy (Plain true) s = Ok ev /\
    destroyed effs = snd (map_run ctor (fun _ => None) os) /\
    Permutation (destroyed effs ++ flat_map olist ev) (bgiven ctor os).
Proof.
  intros V ctor os Ho Hs. destruct (set_get_run ctor os Ho Hs) as (s & effs & H1 & _ & _ & _ & H2 & H3 & (ev & H4)). exists s, effs, ev. auto.
Qed.
Theorem C82_null_destructor : forall (V : Type) ctor (s : odict V) k d v,
  bshows s k = Some v -> b_step false ctor s (BSet k d) = UB.
Proof. intros V. exact (@null_replace V). Qed.
Theorem C82_clear : forall (V : Type) dtor ctor (s : odict V) s' e k0 v0,
  bshows s k0 = Some v0 -> b_step dtor ctor s BClear = Ok (s', e) ->
  (forall k d, k <> [] -> b_step dtor ctor s' (BSet k d) = UB /\ b_step dtor ctor s' (BGet k) = UB /\ b_step dtor ctor s' (BUnset k) = UB) /\
  b_step dtor ctor s' BClear = UB /\ o_destroy (Plain dtor) s' = UB.
Proof. intros V. exact (@clear_dead V). Qed.

(** ** C83 *)
Theorem C83_unset_partial : forall (V : Type) ctor (os : list (bop V)) s effs k s' e,
  apart (bset_keys os) -> no_clear os -> b_run true ctor o_create os = Ok (s, effs) ->
  b_step true ctor s (BUnset k) = Ok (s', e) ->
  ((forall k', bshows s' k' = bshows s k') /\ flat_map olist (e_destroyed e) = []) \/
  exists k0, length k0 = length k /\ (forall k', bshows s' k' = if streq k' k0 then None else bshows s k') /\
    flat_map olist (e_destroyed e) = olist (bshows s k0).
Proof.
  intros V ctor os s effs k s' e Ha Hn E. refine (unset_step ctor _ s k s' e _). exact (proj1 (apart_run ctor os s effs Ha Hn E)).
Qed.
Theorem C83_released_partial : forall (V : Type) ctor (os : list (bop V)) s effs,
  apart (bset_keys os) -> no_clear os -> b_run true ctor o_create os = Ok (s, effs) ->
  exists ev, o_destroy (Plain true) s = Ok ev /\ Permutation (destroyed effs ++ flat_map olist ev) (bgiven ctor os).
Proof. intros V ctor os s effs Ha Hn E. exact (proj2 (apart_run ctor os s effs Ha Hn E)). Qed.

(** ** C84 *)
Theorem C84_lists_partial : forall (V : Type) ctor (os : list (bop V)), ordered os -> only_set_get os ->
  exists s effs ps vs, b_run true ctor o_create os = Ok (s, effs) /\
    b_pairs s = Ok ps /\ b_keys s = Ok (map fst ps) /\ b_values s = Ok vs /\
    (forall k v, In (k, v) ps <-> fst (fst (map_run ctor (fun _ => None) os)) k = Some v) /\
    NoDup (map fst ps) /\ Permutation vs (map snd ps).
Proof.
  intros V ctor os Ho Hs. destruct (set_get_run ctor os Ho Hs) as (s & effs & H1 & Hi & H2 & _).
  destruct (b_lists _ s Hi) as (ps & vs & E1 & E2 & E3 & Hin & Hn & Hp). exists s, effs, ps, vs.
  split; [exact H1|]. split; [exact E1|]. split; [exact E2|]. split; [exact E3|]. split; [|auto].
  intros k v. now rewrite Hin, H2.
Qed.
Theorem C84_lists_unset_partial : forall (V : Type) ctor (os : list (bop V)) s effs,
  apart (bset_keys os) -> no_clear os -> b_run true ctor o_create os = Ok (s, effs) ->
  exists ps vs, b_pairs s = Ok ps /\ b_keys s = Ok (map fst ps) /\ b_values s = Ok vs /\
    (forall k v, In (k, v) ps <-> bshows s k = Some v) /\ NoDup (map fst ps) /\ Permutation vs (map snd ps).
Proof. intros V ctor os s effs Ha Hn E. exact (b_lists _ s (proj1 (apart_run ctor os s effs Ha Hn E))). Qed.

(** ** C85 *)
Theorem C85_clone_partial : forall (V : Type) ctor cl (f : V -> V) (os : list (bop V)), ordered os -> only_set_get os ->
  (forall v, cl (Some v) = Ok (Some (f v))) -> cl None = Ok None ->
  exists s effs c ps vs, b_run true ctor o_create os = Ok (s, effs) /\ b_clone cl s = Ok c /\
    (forall k, bshows c k = option_map f (bshows s k)) /\
    b_pairs c = Ok ps /\ b_values c = Ok vs /\ (forall k v, In (k, v) ps <-> bshows c k = Some v) /\ NoDup (map fst ps) /\
    Permutation vs (map snd ps).
Proof.
  intros V ctor cl f os Ho Hs Hc H0. destruct (set_get_run ctor os Ho Hs) as (s & effs & H1 & Hi & _).
  destruct (clone_binv _ s f Hi) as (Hi' & Hsh). destruct (b_lists _ _ Hi') as (ps & vs & E1 & _ & E3 & Hin & Hn & Hp).
  exists s, effs, (mkO (clone_sub f (o_root s)) false), ps, vs. split; [exact H1|].
  split; [apply b_clone_ok; auto; apply Hi|]. auto 10.
Qed.
(** With a cloner that reads its argument. *)
Theorem C85_clone_reads : forall (V : Type) cl (f : V -> V) (s : odict V),
  (forall v, cl (Some v) = Ok (Some (f v))) -> cl None = UB -> o_dead s = false ->
  b_clone cl s = if existsb (fun n => match ndata n with None => true | Some _ => false end) (hitems (o_root s))
                 then UB else Ok (mkO (clone_sub f (o_root s)) false).
Proof. intros V. exact (@b_clone_crash V). Qed.

(** ** Cases and findings *)
Definition prog1 : list (bop nat) :=
  [BSet !"abcd" (Some 1); BSet !"abce" (Some 2); BGet !"abcd"; BSet !"abcd" (Some 3); BSet !"xbcd" (Some 4); BGet !"abcd";
   BGet !"abce"; BGet !"abc"; BGet !"xbcd"].
Lemma prog1_ok : ordered prog1 /\ only_set_get prog1.
Proof.
  split.
  - apply (ordered_width prog1 4). cbn. intros k H. repeat (destruct H as [<-|H]; [reflexivity|]). destruct H.
  - unfold only_set_get, prog1. repeat constructor; try discriminate.
Qed.
Definition outcome (os : list (bop nat)) :=
  match b_run true same_ o_create os with
  | Ok (s, e) => Some (results e, destroyed e, match o_destroy (Plain true) s with Ok ev => Some (flat_map olist ev) | _ => None end)
  | _ => None
  end.
Example C81_case : outcome prog1 =
  Some ([None; None; Some 1; None; None; Some 3; Some 2; None; Some 4], [1], Some [2; 3; 4]).
Proof. vm_compute. reflexivity. Qed.
Example C81_ordered_case : ordered [BSet !"a" (Some 1); BSet !"ab" (Some 2); BGet !"ab"; BSet !"a" (Some 3); BSet !"abc" (Some 4)].
Proof.
  intros l1 k d l2 E. destruct l1 as [|o1 [|o2 [|o3 [|o4 [|o5 [|? ?]]]]]]; try discriminate; injection E; intros; subst; cbn.
  - right. intros k' [].
  - right. intros k' [<-|[]] (c & r & H). discriminate.
  - left. now left.
  - right. intros k' [<-|[<-|[<-|[]]]] (c & r & H); discriminate.
Qed.
(** Finding: a key set after a longer key that it starts. *)
Theorem C81_refuted : ~ (forall (os : list (bop nat)) s effs, only_set_get os -> b_run true same_ o_create os = Ok (s, effs) ->
  forall k, bshows s k = fst (fst (map_run same_ (fun _ => None) os)) k).
Proof.
  intros H. specialize (H [BSet !"abcd" (Some 1); BSet !"a" (Some 2)]).
  eassert (E : b_run true same_ o_create [BSet !"abcd" (Some 1); BSet !"a" (Some 2)] = Ok _) by (vm_compute; reflexivity).
  specialize (H _ _ ltac:(repeat constructor; discriminate) E !"abcd"). vm_compute in H. discriminate.
Qed.
Theorem C81_crash_refuted : ~ (forall os : list (bop nat), only_set_get os -> exists s effs, b_run true same_ o_create os = Ok (s, effs)).
Proof.
  intros H. destruct (H [BSet !"abcd" (Some 1); BSet !"abc" (Some 2)]) as (s & effs & E); [repeat constructor; discriminate|].
  vm_compute in E. discriminate.
Qed.
Example C82_case : exists s effs ev, b_run true same_ o_create prog1 = Ok (s, effs) /\ o_destroy (Plain true) s = Ok ev /\
  destroyed effs = [1] /\ flat_map olist ev = [2; 3; 4] /\ bgiven same_ prog1 = [1; 2; 3; 4].
Proof. eexists. eexists. eexists. split; [vm_compute; reflexivity|]. split; [vm_compute; reflexivity|]. repeat split; vm_compute; reflexivity. Qed.
(** Finding: replacing a value in a tree made without a destructor. *)
Theorem C82_refuted : ~ (forall dtor (os : list (bop nat)), ordered os -> only_set_get os -> exists s effs, b_run dtor same_ o_create os = Ok (s, effs)).
Proof.
  intros H. destruct (H false [BSet !"a" (Some 1); BSet !"a" (Some 2)]) as (s & effs & E).
  - apply (ordered_width _ 1). cbn. intros k [<-|[<-|[]]]; reflexivity.
  - repeat constructor; discriminate.
  - vm_compute in E. discriminate.
Qed.
Example C82_clear_case : exists s effs s' e, b_run true same_ o_create prog1 = Ok (s, effs) /\ bshows s !"abce" = Some 2 /\
  b_step true same_ s BClear = Ok (s', e) /\ flat_map olist (e_destroyed e) = [2; 3; 4].
Proof. eexists. eexists. eexists. eexists. split; [vm_compute; reflexivity|]. split; [reflexivity|]. split; vm_compute; reflexivity. Qed.
Definition prog2 : list (bop nat) :=
  [BSet !"abcd" (Some 1); BSet !"xbcd" (Some 2); BUnset !"abcd"; BGet !"abcd"; BGet !"xbcd"].
Lemma prog2_ok : apart (bset_keys prog2) /\ no_clear prog2.
Proof.
  split.
  - cbn. intros k k' [<-|[<-|[]]] [<-|[<-|[]]] (c & r & H); discriminate.
  - unfold no_clear, prog2. repeat constructor; discriminate.
Qed.
Example C83_case : outcome prog2 = Some ([None; None; None; None; Some 2], [1], Some [2]).
Proof. vm_compute. reflexivity. Qed.
(** Finding: the node taken is always the first one; here "xbcd" is kept and
    "abcd" lost. *)
Theorem C83_refuted : ~ (forall (os : list (bop nat)) s effs k s' e, apart (bset_keys os) -> no_clear os ->
  b_run true same_ o_create os = Ok (s, effs) -> b_step true same_ s (BUnset k) = Ok (s', e) ->
  bshows s' k = None /\ forall k', k' <> k -> bshows s' k' = bshows s k').
Proof.
  intros H. destruct prog2_ok as [Ha Hn].
  pose (p := [BSet !"abcd" (Some 1); BSet !"xbcd" (Some 2)]).
  eassert (E : b_run true same_ o_create p = Ok _) by (vm_compute; reflexivity).
  specialize (H p _ _ !"xbcd" _ _ Ha ltac:(repeat constructor; discriminate) E eq_refl).
  destruct H as [H _]. vm_compute in H. discriminate.
Qed.
(** Finding: a node that was the only one below its parent. *)
Theorem C83_crash_refuted : ~ (forall (os : list (bop nat)), ordered os -> no_clear os -> exists s effs, b_run true same_ o_create os = Ok (s, effs)).
Proof.
  intros H. destruct (H [BSet !"a" (Some 1); BSet !"ab" (Some 2); BUnset !"ab"]) as (s & effs & E).
  - intros l1 k d l2 E. destruct l1 as [|o1 [|o2 [|o3 [|? ?]]]]; try discriminate; injection E; intros; subst; cbn.
    + right. intros k' [].
    + right. intros k' [<-|[]] (c & r & H0). discriminate.
  - repeat constructor; discriminate.
  - vm_compute in E. discriminate.
Qed.
Example C84_case : match b_run true same_ o_create prog1 with
  | Ok (s, _) => b_pairs s = Ok [(!"xbcd", 4); (!"abce", 2); (!"abcd", 3)] /\ b_values s = Ok [4; 2; 3]
  | _ => False
  end.
Proof. vm_compute. split; reflexivity. Qed.
(** Finding: a key listed twice. *)
Theorem C84_refuted : ~ (forall (os : list (bop nat)) s effs ks, only_set_get os -> b_run true same_ o_create os = Ok (s, effs) ->
  b_keys s = Ok ks -> NoDup ks).
Proof.
  intros H. specialize (H [BSet !"ab" (Some 1); BSet !"a" (Some 2)]).
  eassert (E : b_run true same_ o_create [BSet !"ab" (Some 1); BSet !"a" (Some 2)] = Ok _) by (vm_compute; reflexivity).
  specialize (H _ _ [!"a"; !"a"] ltac:(repeat constructor; discriminate) E eq_refl). inversion H as [|? ? Hn _]; subst. apply Hn. now left.
Qed.
Example C85_case : match b_run true same_ o_create prog1 with
  | Ok (s, _) => match b_clone (fun d => Ok (option_map S d)) s with
                 | Ok c => bshows c !"abcd" = Some 4 /\ bshows c !"xbcd" = Some 5 /\ bshows c !"abc" = None
                 | _ => False
                 end
  | _ => False
  end.
Proof. vm_compute. repeat split; reflexivity. Qed.
(** Finding: the cloner of the tests reads through NULL for a node made by a split. *)
Theorem C85_refuted : ~ (forall (os : list (bop nat)) s effs cl, ordered os -> only_set_get os ->
  b_run true same_ o_create os = Ok (s, effs) -> (forall v, cl (Some v) = Ok (Some v)) -> exists c, b_clone cl s = Ok c).
Proof.
  intros H. pose (p := [BSet !"ab" (Some 1); BSet !"ac" (Some 2)]).
  eassert (E : b_run true same_ o_create p = Ok _) by (vm_compute; reflexivity).
  destruct (H p _ _ (fun d => match d with Some v => Ok (Some v) | None => UB end)
              ltac:(apply (ordered_width _ 2); cbn; intros k [<-|[<-|[]]]; reflexivity)
              ltac:(repeat constructor; discriminate) E ltac:(reflexivity)) as (c & Ec).
  vm_compute in Ec. discriminate.
Qed.

Print Assumptions C81_map_partial.
Print Assumptions C81_width.
Print Assumptions C81_refuted.
Print Assumptions C81_crash_refuted.
Print Assumptions C82_released_partial.
Print Assumptions C82_null_destructor.
Print Assumptions C82_clear.
Print Assumptions C82_refuted.
Print Assumptions C83_unset_partial.
Print Assumptions C83_released_partial.
Print Assumptions C83_refuted.
Print Assumptions C83_crash_refuted.
Print Assumptions C84_lists_partial.
Print Assumptions C84_lists_unset_partial.
Print Assumptions C84_refuted.
Print Assumptions C85_clone_partial.
Print Assumptions C85_clone_reads.
Print Assumptions C85_refuted.
