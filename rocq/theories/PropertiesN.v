(** C75-C80: who frees the values of the two string dictionaries. *)
From Coq Require Import Permutation.
From Verif Require Import ParseModel CStr CStrFacts HSListModel RTreeModel RTreeFacts RTreeFacts2 OwnModel OwnFacts OwnFacts2 OwnFacts3 OwnFacts4 OwnFacts5.

Definition same_ : option nat -> option nat := fun d => d.
Notation "'!' x" := (list_ascii_of_string x%string) (at level 9, x at level 0).

(** ** C75 *)
Theorem C75_same : forall (V : Type) (os : list (oop V)),
  (forall own k m d, ~ In (OSetN own k m d) os) -> ~ In OClear os ->
  match o_run (Plain true) (fun d => d) o_create os, o_run Objects (fun d => d) o_create os with
  | Ok (s1, e1), Ok (s2, e2) =>
      (forall k, shows s1 k = shows s2 k) /\ results e1 = results e2 /\ destroyed e1 = destroyed e2
  | UB, UB => True
  | _, _ => False
  end.
Proof.
  intros V os H1 H2. apply run_same_cases. apply Forall_forall. intros [own k d|own k m d|own k|k|] Hin; cbn; auto.
  now apply (H1 own k m d).
Qed.
Theorem C75_attributes_partial : forall attrs : list (str * str),
  (forall k v, In (k, v) attrs -> k <> []) ->
  (forall a1 k v a2, attrs = a1 ++ (k, v) :: a2 -> forall k', In k' (map fst a1) -> ~ proper_prefix k k') ->
  exists t s effs ev,
    attrs_dict rt_create attrs = Ok t /\ o_run (Plain true) (fun d => d) o_create (attr_ops attrs) = Ok (s, effs) /\
    o_root s = troot t /\ o_destroy (Plain true) s = Ok ev /\
    Permutation (destroyed effs ++ flat_map olist ev) (map snd attrs).
Proof. exact attrs_freed. Qed.

(** ** C76 *)
Theorem C76_safe_partial : forall (V : Type) kd ctor (os : list (oop V)) s effs,
  kd <> Plain false -> o_run kd ctor o_create os = Ok (s, effs) ->
  exists ps lost, (forall k v, In (k, v) ps <-> shows s k = Some v) /\ NoDup (map fst ps) /\
    Permutation (map snd ps ++ destroyed effs ++ lost) (given kd ctor os).
Proof. intros V. exact (@history_safe V). Qed.
Theorem C76_set : forall (V : Type) kd ctor (s : odict V) own k d s' e,
  o_step kd ctor s (OSet own k d) = Ok (s', e) -> o_dead s = false ->
  flat_map olist (e_destroyed e) = olist (shows s k).
Proof. intros V. exact (@set_exact V). Qed.
Theorem C76_unset : forall (V : Type) kd ctor (os : list (oop V)) s0 effs k s e,
  kd <> Plain false -> o_run kd ctor o_create os = Ok (s0, effs) -> o_dead s0 = false ->
  o_step kd ctor s0 (OUnset k) = Ok (s, e) ->
  exists gone, map snd gone = flat_map olist (e_destroyed e) /\ NoDup (map fst gone) /\
    (forall k' v, In (k', v) gone -> shows s0 k' = Some v /\ prefix k k') /\
    shows s k = None /\
    (forall k', shows s k' = if in_dec str_eq_dec k' (map fst gone) then None else shows s0 k').
Proof.
  intros V kd ctor os s0 effs k s e Ho E Hd Es. refine (unset_exact kd ctor s0 k s e Ho _ Hd Es).
  exact (run_wfo kd ctor Ho os o_create s0 effs wff_empty E).
Qed.
Theorem C76_null_destructor : forall (V : Type) ctor (s : odict V) own k d v,
  shows s k = Some v -> o_step (Plain false) ctor s (OSet own k d) = UB.
Proof. intros V. exact (@null_dtor_set_ub V). Qed.
Theorem C76_null_destructor_keeps : forall (V : Type) ctor (os : list (oop V)) s effs,
  o_run (Plain false) ctor o_create os = Ok (s, effs) -> destroyed effs = [].
Proof. intros V ctor os s effs. apply run_none. Qed.

(** ** C77 *)
Theorem C77_released_partial : forall (V : Type) kd ctor (os : list (oop V)) s effs ev,
  kd <> Plain false -> orderly kd ctor os -> o_run kd ctor o_create os = Ok (s, effs) -> o_destroy kd s = Ok ev ->
  Permutation (destroyed effs ++ flat_map olist ev) (given kd ctor os).
Proof. intros V. exact (@history_complete V). Qed.

(** ** C78 *)
Theorem C78_set_n_partial : forall (V : Type) kd ctor (os : list (oop V)) s effs own k m d,
  kd <> Plain false -> o_run kd ctor o_create os = Ok (s, effs) -> m <= length k ->
  exists k', (k' = k \/ k' = firstn m k) /\ o_step kd ctor s (OSetN own k m d) = o_step kd ctor s (OSet own k' d).
Proof.
  intros V kd ctor os s effs own k m d Ho E Hm. apply set_n_exact; [|exact Hm].
  exact (run_wfo kd ctor Ho os o_create s effs wff_empty E).
Qed.

(** ** C79 *)
Theorem C79_union : forall (V : Type) ctor (c f g : V -> V) (os1 os2 : list (oop V)) s1 e1 s2 e2,
  (forall v, ctor (Some v) = Some (c v)) ->
  o_run (Plain true) ctor o_create os1 = Ok (s1, e1) -> o_run (Plain true) ctor o_create os2 = Ok (s2, e2) ->
  o_dead s1 = false -> o_dead s2 = false ->
  exists s ev ps ps1 ps2, p_union true ctor (Some f) (Some g) s1 s2 = Ok (s, ev) /\
    (forall k, shows s k = match shows s1 k with Some v => Some (c (f v)) | None => option_map g (shows s2 k) end) /\
    (forall k v, In (k, v) ps <-> shows s k = Some v) /\ NoDup (map fst ps) /\
    (forall k v, In (k, v) ps1 <-> shows s1 k = Some v) /\ NoDup (map fst ps1) /\
    (forall k v, In (k, v) ps2 <-> shows s2 k = Some v) /\ NoDup (map fst ps2) /\
    Permutation (map snd ps ++ flat_map olist ev) (map (fun v => c (f v)) (map snd ps1) ++ map g (map snd ps2)).
Proof.
  intros V ctor c f g os1 os2 s1 e1 s2 e2 Hc E1 E2 H1 H2. apply union_spec; auto.
  - refine (run_wfo (Plain true) ctor _ os1 o_create s1 e1 wff_empty E1). discriminate.
  - refine (run_wfo (Plain true) ctor _ os2 o_create s2 e2 wff_empty E2). discriminate.
Qed.

(** ** C80 *)
Theorem C80_objects : forall (V : Type) ctor (os : list (oop V)) s effs s' e,
  o_run Objects ctor o_create os = Ok (s, effs) -> o_step Objects ctor s OClear = Ok (s', e) ->
  s' = o_create /\
  exists ps, (forall k v, In (k, v) ps <-> shows s k = Some v) /\ NoDup (map fst ps) /\
    flat_map olist (e_destroyed e) = map snd ps.
Proof.
  intros V ctor os s effs s' e E Es. refine (clear_objects ctor s s' e _ Es).
  refine (run_wfo Objects ctor _ os o_create s effs wff_empty E). discriminate.
Qed.
Theorem C80_plain : forall (V : Type) dtor ctor (s : odict V) s' e k0 v0,
  o_step (Plain dtor) ctor s OClear = Ok (s', e) -> shows s k0 = Some v0 ->
  (forall o, match o with
             | OSet _ k _ | OGet _ k | OUnset k => k <> []
             | OSetN _ _ m _ => m <> 0
             | OClear => True
             end -> o_step (Plain dtor) ctor s' o = UB) /\
  o_destroy (Plain dtor) s' = UB.
Proof.
  intros V dtor ctor s s' e k0 v0 E Hs. refine (clear_plain dtor ctor s s' e E _). exact (shows_items s k0 v0 Hs).
Qed.

(** ** Cases and findings *)
Definition summary kd (os : list (oop nat)) :=
  match o_run kd same_ o_create os with
  | Ok (s, e) => Some (results e, destroyed e, match o_destroy kd s with Ok ev => Some (flat_map olist ev) | _ => None end)
  | _ => None
  end.
Definition prog1 : list (oop nat) :=
  [OSet true !"a" (Some 1); OSet true !"ab" (Some 2); OSet true !"ab" (Some 3); OGet true !"ab"; OSet true !"abc" (Some 4);
   OSet true !"q" (Some 5); OSet true !"r" (Some 6); OUnset !"q"; OGet true !"q"; OGet true !"a"].
Example C75_case : summary (Plain true) prog1 = summary Objects prog1 /\
  summary Objects prog1 = Some ([None; None; None; Some 3; None; None; None; None; None; Some 1], [2; 5], Some [1; 3; 4; 6]).
Proof. split; vm_compute; reflexivity. Qed.
(** The attributes of a package requirement. *)
Example C75_attributes_case :
  match o_run (Plain true) (fun d => d) o_create (attr_ops [(!"type", !"conditional"); (!"requires", !"bash"); (!"type", !"default")]) with
  | Ok (s, effs) => destroyed effs = [!"conditional"] /\ o_destroy (Plain true) s = Ok [Some !"bash"; Some !"default"]
  | _ => False
  end.
Proof. vm_compute. split; reflexivity. Qed.
(** Finding: the value of attribute "lang" is never freed here. *)
Theorem C75_attributes_refuted :
  ~ (forall attrs : list (str * str), (forall k v, In (k, v) attrs -> k <> []) -> NoDup (map fst attrs) ->
     forall s effs ev, o_run (Plain true) (fun d => d) o_create (attr_ops attrs) = Ok (s, effs) -> o_destroy (Plain true) s = Ok ev ->
     length (destroyed effs ++ flat_map olist ev) = length attrs).
Proof.
  intros H. specialize (H [(!"arches", !"1"); (!"lang", !"2"); (!"arch", !"3")]).
  assert (A : forall k v : str, In (k, v) [(!"arches", !"1"); (!"lang", !"2"); (!"arch", !"3")] -> k <> []).
  { intros k v [E|[E|[E|[]]]]; inversion E; discriminate. }
  assert (B : NoDup (map fst [(!"arches", !"1"); (!"lang", !"2"); (!"arch", !"3")])).
  { repeat constructor; cbn; intuition discriminate. }
  specialize (H A B). eassert (E : o_run (Plain true) (fun d => d) o_create
      (attr_ops [(!"arches", !"1"); (!"lang", !"2"); (!"arch", !"3")]) = Ok _) by (vm_compute; reflexivity).
  specialize (H _ _ _ E eq_refl). vm_compute in H. discriminate.
Qed.
Example C76_case : exists s effs, o_run (Plain true) same_ o_create prog1 = Ok (s, effs) /\ shows s !"abc" = Some 4 /\ o_dead s = false.
Proof. eexists. eexists. split; [vm_compute; reflexivity|]. split; reflexivity. Qed.
(** Finding: setting a key twice in a dictionary made without a destructor. *)
Theorem C76_refuted : ~ (forall kd (os : list (oop nat)), Forall plain_op os -> exists s effs, o_run kd same_ o_create os = Ok (s, effs)).
Proof.
  intros H. destruct (H (Plain false) [OSet true !"a" (Some 1); OSet true !"a" (Some 2)]) as (s & effs & E).
  - repeat constructor.
  - vm_compute in E. discriminate.
Qed.
Example C77_case : orderly (Plain true) same_ prog1 /\ summary (Plain true) prog1 <> None.
Proof.
  split; [|vm_compute; discriminate]. split; [|split].
  - intros own k m d H. cbn in H. intuition discriminate.
  - intros own k d H. cbn [prog1 In] in H.
    repeat (destruct H as [H|H]; [first [discriminate H|inversion H; subst; split; discriminate]|]). contradiction.
  - intros l1 own k d l2 E.
    do 10 (destruct l1 as [|o l1]; [cbn in E; inversion E; subst;
      right; intros k' Hk' (c & r & Hp); cbn in Hk';
      repeat (destruct Hk' as [<-|Hk']; [discriminate|]); contradiction
    |cbn in E; injection E as <- E]).
    destruct l1; discriminate.
Qed.
(** Findings: values that are never freed: a sibling of a split node, a value set
    under the empty key. *)
Definition leak1 : list (oop nat) := [OSet true !"abc" (Some 1); OSet true !"x" (Some 2); OSet true !"ab" (Some 3)].
Definition leak2 : list (oop nat) := [OSet true !"" (Some 1)].
Theorem C77_refuted : ~ (forall kd (os : list (oop nat)) s effs ev, kd <> Plain false -> Forall plain_op os ->
  o_run kd same_ o_create os = Ok (s, effs) -> o_destroy kd s = Ok ev ->
  length (destroyed effs ++ flat_map olist ev) = length (given kd same_ os)).
Proof.
  intros H. eassert (E : o_run (Plain true) same_ o_create leak1 = Ok _) by (vm_compute; reflexivity).
  specialize (H (Plain true) leak1 _ _ _ (ltac:(discriminate)) (ltac:(repeat constructor)) E eq_refl). vm_compute in H. discriminate.
Qed.
Theorem C77_empty_key_refuted : ~ (forall kd (os : list (oop nat)) s effs ev, kd <> Plain false -> Forall plain_op os ->
  (forall l1 own k d l2, os = l1 ++ OSet own k d :: l2 -> forall k', In k' (set_keys l1) -> ~ proper_prefix k k') ->
  o_run kd same_ o_create os = Ok (s, effs) -> o_destroy kd s = Ok ev ->
  length (destroyed effs ++ flat_map olist ev) = length (given kd same_ os)).
Proof.
  intros H. eassert (E : o_run Objects same_ o_create leak2 = Ok _) by (vm_compute; reflexivity).
  refine (_ (H Objects leak2 _ _ _ (ltac:(discriminate)) (ltac:(repeat constructor)) _ E eq_refl)).
  - intros X. vm_compute in X. discriminate.
  - intros [|o l1] own k d l2 E2 k' Hk'; [easy|]. destruct l1; discriminate.
Qed.
(** Findings: both files store under a longer key than asked for. *)
Theorem C78_plain_refuted : ~ (forall (os : list (oop nat)) s effs own k m d, o_run (Plain true) same_ o_create os = Ok (s, effs) ->
  m <= length k -> o_step (Plain true) same_ s (OSetN own k m d) = o_step (Plain true) same_ s (OSet own (firstn m k) d)).
Proof. intros H. specialize (H [] o_create [] true !"abcd" 2 (Some 1) eq_refl (ltac:(cbn; lia))). vm_compute in H. discriminate. Qed.
Theorem C78_objects_refuted : ~ (forall (os : list (oop nat)) s effs own k m d, o_run Objects same_ o_create os = Ok (s, effs) ->
  m <= length k -> o_step Objects same_ s (OSetN own k m d) = o_step Objects same_ s (OSet own (firstn m k) d)).
Proof.
  intros H. eassert (E : o_run Objects same_ o_create [OSet true !"abc" (Some 1)] = Ok _) by (vm_compute; reflexivity).
  specialize (H _ _ _ true !"azq" 2 (Some 2) E (ltac:(cbn; lia))). vm_compute in H. discriminate.
Qed.
Example C78_case : summary Objects [OSetN true !"abcd" 2 (Some 1); OGet true !"ab"] = Some ([None; Some 1], [], Some [1]).
Proof. vm_compute. reflexivity. Qed.
Example C79_case :
  match o_run (Plain true) same_ o_create [OSet true !"a" (Some 1); OSet true !"abc" (Some 2)],
        o_run (Plain true) same_ o_create [OSet true !"abd" (Some 30); OSet true !"a" (Some 40)] with
  | Ok (s1, _), Ok (s2, _) =>
      match p_union true same_ (Some (fun v => v + 100)) (Some (fun v => v + 200)) s1 s2 with
      | Ok (s, ev) => map (shows s) [!"a"; !"abc"; !"abd"; !"ab"] = [Some 101; Some 102; Some 230; None] /\ ev = [Some 240]
      | _ => False
      end
  | _, _ => False
  end.
Proof. vm_compute. split; reflexivity. Qed.
(** Finding: without a cloner a union crashes. *)
Theorem C79_null_cloner_refuted : ~ (forall (g : nat -> nat) (s1 s2 : odict nat), o_dead s1 = false -> o_dead s2 = false ->
  exists r, p_union true same_ None (Some g) s1 s2 = Ok r).
Proof.
  intros H. eassert (E : o_run (Plain true) same_ o_create [OSet true !"a" (Some 1)] = Ok _) by (vm_compute; reflexivity).
  match type of E with (_ = Ok (?s, _)) => destruct (H (fun v => v) s o_create eq_refl eq_refl) as (r & Hr) end. vm_compute in Hr. discriminate.
Qed.
Theorem C79_null_cloner : forall (V : Type) ctor (os : list (oop V)) s effs dtor ctor' cl1 s1 k v,
  o_run (Plain true) ctor o_create os = Ok (s, effs) -> shows s k = Some v ->
  p_union dtor ctor' cl1 None s1 s = UB.
Proof.
  intros V ctor os s effs dtor ctor' cl1 s1 k v E Hs. apply (union_null dtor ctor' cl1 s1 s k v); [|exact Hs].
  refine (run_wfo (Plain true) ctor _ os o_create s effs wff_empty E). discriminate.
Qed.
Example C80_case : exists s effs s' e, o_run Objects same_ o_create prog1 = Ok (s, effs) /\ o_step Objects same_ s OClear = Ok (s', e) /\
  e_destroyed e = [Some 1; Some 3; Some 4; Some 6].
Proof. eexists. eexists. eexists. eexists. split; [vm_compute; reflexivity|]. split; vm_compute; reflexivity. Qed.
(** Finding: a cleared plain dictionary cannot even be destroyed. *)
Theorem C80_refuted : ~ (forall (os : list (oop nat)) s effs, o_run (Plain true) same_ o_create os = Ok (s, effs) ->
  exists ev, o_destroy (Plain true) s = Ok ev).
Proof.
  intros H. eassert (E : o_run (Plain true) same_ o_create [OSet true !"a" (Some 1); OClear] = Ok _) by (vm_compute; reflexivity).
  destruct (H _ _ _ E) as (ev & Hev). vm_compute in Hev. discriminate.
Qed.

Print Assumptions C75_same.
Print Assumptions C75_attributes_partial.
Print Assumptions C75_attributes_refuted.
Print Assumptions C76_safe_partial.
Print Assumptions C76_set.
Print Assumptions C76_unset.
Print Assumptions C76_null_destructor.
Print Assumptions C76_null_destructor_keeps.
Print Assumptions C76_refuted.
Print Assumptions C77_released_partial.
Print Assumptions C77_refuted.
Print Assumptions C77_empty_key_refuted.
Print Assumptions C78_set_n_partial.
Print Assumptions C78_plain_refuted.
Print Assumptions C78_objects_refuted.
Print Assumptions C79_union.
Print Assumptions C79_null_cloner_refuted.
Print Assumptions C79_null_cloner.
Print Assumptions C80_objects.
Print Assumptions C80_plain.
Print Assumptions C80_refuted.
