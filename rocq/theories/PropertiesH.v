(** Property theorems for reference counting (C34).

    [rhist h ext]: memory [h] and the references [ext] the callers own (one entry per
    reference) after any sequence of allowed calls.  [legal] (SpecH) says which calls
    are allowed; two restrictions keep the theorems partial.  A call that destroys
    references while it works on a list needs a list kept by a caller, directly or
    through lists.  [comps_objlist_set] needs a new element kept by more than the item
    it replaces; without that it uses freed memory ([C34_set_self_refuted]). *)
From Verif Require Import CStr CStrFacts HSListModel ObjListModel ObjListFacts RefcModel RefcFacts SpecH SpecH2.

(** Two strings, one of them stored twice in a list, a list of that list. *)
Definition h_calls : list rop :=
  [RNew (Some (S_ "a")); RNew (Some (S_ "b")); RNewList; RAppend 2 (Some 0); RAppendX 2 (Some 1); RAppend 2 (Some 0); RInsertAt 2 1 None;
   RNewList; RAppend 3 (Some 2)].
Definition h_state : heap * list addr := match rplay [] [] h_calls with Some s => s | None => ([], []) end.
Definition hh := fst h_state.
Definition hx := snd h_state.
Lemma h_ok : rhist hh hx.
Proof. apply (proj2 (rplay_ok h_calls [] [] hh hx ltac:(vm_compute; reflexivity))). constructor. Qed.
Example h_case : hx = [3; 2; 0] /\ holds hh 2 [Some 0; None; Some 1; Some 0] /\ holds hh 3 [Some 2] /\ value hh 1 (Some (S_ "b")).
Proof. split; [vm_compute; reflexivity|]. split; [eexists; split; vm_compute; reflexivity|]. split; [eexists; split; vm_compute; reflexivity|vm_compute; reflexivity]. Qed.

(** Every allowed call returns, with the effect its documentation says, on lists as
    sequences; everything else that survives is unchanged. *)
Theorem C34_calls_partial : forall h ext c, rhist h ext -> legal h ext c ->
  exists h' out, rstep h c = Ok (h', out) /\ effect h c h' out.
Proof. intros h ext c H Hl. destruct (rstep_ok h ext c (rhist_Inv _ _ H) Hl) as (h' & out & E & _ & Hf). eauto. Qed.
Print Assumptions C34_calls_partial.
Example C34_calls_case :
  legal hh hx (RSet 2 0 (Some 3)) /\ legal hh hx (RRemove 2 (Some 1)) /\ legal hh hx (RCopy 5 3) /\ legal hh hx (RRelease 3) /\ legal hh hx (RClear 2) /\
  legal hh hx (RSet 2 0 (Some 1)) /\ ~ legal hh hx (RSet 2 2 (Some 1)).
Proof.
  split; [apply legalb_ok; vm_compute; reflexivity|]. split; [apply legalb_ok; vm_compute; reflexivity|]. split; [apply legalb_ok; vm_compute; reflexivity|].
  split; [apply legalb_ok; vm_compute; reflexivity|]. split; [apply legalb_ok; vm_compute; reflexivity|].
  assert (H2 : holds hh 2 [Some 0; None; Some 1; Some 0]) by (eexists; split; vm_compute; reflexivity).
  split.
  - split; [constructor; vm_compute; tauto|]. split; [intros v; apply listb_ok; vm_compute; reflexivity|].
    eapply R_item with (i := 2); [constructor; vm_compute; right; left; reflexivity|exact H2|reflexivity|intros [_ X]; discriminate].
  - intros (_ & _ & X). inversion X as [a Ha|l items i a _ Hl Hi Hs]; subst; [vm_compute in Ha; intuition discriminate|].
    assert (Hl2 : l = 2 /\ items = [Some 0; None; Some 1; Some 0]).
    { destruct Hl as (o & Ho & <-). destruct l as [|[|[|[|l]]]].
      - vm_compute in Ho. discriminate.
      - vm_compute in Ho. discriminate.
      - split; [reflexivity|]. destruct H2 as (o2 & Ho2 & <-). congruence.
      - exfalso. vm_compute in Ho. injection Ho as <-. cbn in Hi. destruct i as [|[|i]]; cbn in Hi; discriminate.
      - exfalso. vm_compute in Ho. destruct l; discriminate. }
    destruct Hl2 as [-> ->]. apply Hs. split; [reflexivity|].
    destruct i as [|[|[|[|[|i]]]]]; cbn in Hi; try discriminate. reflexivity.
Qed.

(** An object exists exactly while a caller or an existing list keeps a reference. *)
Theorem C34_exists_partial : forall h ext a, rhist h ext -> (live h a <-> referenced h ext a).
Proof. intros h ext a H. exact (Inv_referenced _ _ _ (rhist_Inv _ _ H)). Qed.
Print Assumptions C34_exists_partial.
(** Releasing a reference destroys the object exactly when it was the last one. *)
Theorem C34_release_partial : forall h ext a h' out, rhist h ext -> In a ext -> rstep h (RRelease a) = Ok (h', out) ->
  (live h' a <-> 1 < cnt a ext + stored h a).
Proof. intros h ext a h' out H. exact (release_last _ _ _ _ _ (rhist_Inv _ _ H)). Qed.
Print Assumptions C34_release_partial.
(** The counter is the number of references, less one: those of the callers, and one
    for each stored occurrence. *)
Theorem C34_count_partial : forall h ext a c, rhist h ext -> nth_error h a = Some (Some c) -> S (refc c) = cnt a ext + stored h a.
Proof. exact rhist_count. Qed.
Print Assumptions C34_count_partial.
Example C34_count_case : cnt 0 hx + stored hh 0 = 3 /\ cnt 1 hx + stored hh 1 = 1 /\ cnt 2 hx + stored hh 2 = 2 /\ option_map (option_map refc) (nth_error hh 0) = Some (Some 2) /\
  (exists h' out, rstep hh (RRelease 3) = Ok (h', out) /\ ~ live h' 3 /\ live h' 2) /\
  (exists h' ext', rsteps hh hx h' ext' /\ ext' = [0] /\ live h' 0 /\ ~ live h' 1 /\ ~ live h' 2).
Proof.
  split; [vm_compute; reflexivity|]. split; [vm_compute; reflexivity|]. split; [vm_compute; reflexivity|]. split; [vm_compute; reflexivity|]. split.
  - eexists _, _; split; [vm_compute; reflexivity|]. split; [intros (c & Hc); discriminate|eexists; reflexivity].
  - eexists _, _; split; [exact (proj1 (rplay_ok [RRelease 3; RRelease 2] hh hx _ _ ltac:(vm_compute; reflexivity)))|]. split; [reflexivity|].
    split; [eexists; reflexivity|]. split; intros (c & Hc); discriminate.
Qed.

(** What a caller keeps, directly or through lists, exists. *)
Theorem C34_reachable_partial : forall h ext a, rhist h ext -> rooted h nothing ext a -> live h a.
Proof. intros h ext a H. exact (rooted_live _ _ _ (rhist_Inv _ _ H)). Qed.
Print Assumptions C34_reachable_partial.
(** A value stays readable, unchanged, through any calls, while a reference is kept. *)
Theorem C34_readable_partial : forall h ext h' ext' a v, rhist h ext -> value h a v -> rsteps h ext h' ext' -> referenced h' ext' a -> value h' a v.
Proof.
  intros h ext h' ext' a v H Hv Hs Hr. pose proof (rhist_Inv _ _ H) as I. apply (value_steps _ _ _ _ _ _ Hs I Hv).
  apply (Inv_referenced _ _ _ (rsteps_Inv _ _ _ _ Hs I)). exact Hr.
Qed.
Print Assumptions C34_readable_partial.
(** Nothing is left over when no list contains itself. *)
Theorem C34_no_leak_partial : forall h ext a, rhist h ext -> acyclic h -> live h a -> rooted h nothing ext a.
Proof. intros h ext a H. exact (acyclic_rooted _ _ _ (rhist_Inv _ _ H)). Qed.
Print Assumptions C34_no_leak_partial.
Example C34_no_leak_case : acyclic hh /\ exists h', rsteps hh hx h' [] /\ forall a, ~ live h' a.
Proof.
  split.
  - exists (fun a => a). intros l items a (o & Ho & <-) Ha. destruct l as [|[|[|[|l]]]].
    + vm_compute in Ho. discriminate.
    + vm_compute in Ho. discriminate.
    + vm_compute in Ho. injection Ho as <-. vm_compute in Ha. intuition (try discriminate); match goal with H : Some _ = Some _ |- _ => injection H as <- end; lia.
    + vm_compute in Ho. injection Ho as <-. vm_compute in Ha. intuition (try discriminate); match goal with H : Some _ = Some _ |- _ => injection H as <- end; lia.
    + vm_compute in Ho. destruct l; discriminate.
  - eexists; split; [exact (proj1 (rplay_ok [RRelease 3; RRelease 2; RRelease 0] hh hx _ [] ltac:(vm_compute; reflexivity)))|].
    intros [|[|[|[|a]]]] (c & Hc); try discriminate. destruct a; discriminate.
Qed.

(** Replacing an element by itself, when the list keeps the only reference, uses
    freed memory. *)
Theorem C34_set_self_refuted : forall h ext l items p x, rhist h ext -> rooted h nothing ext l -> holds h l items -> nth_error items p = Some (Some x) ->
  cnt x ext + stored h x = 1 -> rstep h (RSet l p (Some x)) = UB.
Proof. intros h ext l items p x H. exact (set_self_ub _ _ _ _ _ _ (rhist_Inv _ _ H)). Qed.
Print Assumptions C34_set_self_refuted.
Example C34_set_self_case : rhist hh hx /\ In 2 hx /\ holds hh 2 [Some 0; None; Some 1; Some 0] /\ referenced hh hx 1 /\ cnt 1 hx + stored hh 1 = 1 /\ rstep hh (RSet 2 2 (Some 1)) = UB.
Proof.
  split; [exact h_ok|]. split; [vm_compute; tauto|]. assert (H2 : holds hh 2 [Some 0; None; Some 1; Some 0]) by (eexists; split; vm_compute; reflexivity).
  split; [exact H2|]. split; [right; exists 2, [Some 0; None; Some 1; Some 0]; split; [exact H2|cbn; auto]|]. split; vm_compute; reflexivity.
Qed.
(** A list that contains itself is never destroyed, and copying it never ends. *)
Theorem C34_cycle_refuted : exists h, rhist h [] /\ live h 0 /\ forall depth, rstep h (RCopy depth 0) = NoFuel.
Proof.
  set (cs := [RNewList; RAppend 0 (Some 0); RRelease 0]).
  eexists. split; [apply (proj2 (rplay_ok cs [] [] _ [] ltac:(vm_compute; reflexivity))); constructor|].
  split; [eexists; reflexivity|]. intros depth. cbn [rstep]. erewrite cyclic_copy; [reflexivity|reflexivity|reflexivity].
Qed.
Print Assumptions C34_cycle_refuted.
