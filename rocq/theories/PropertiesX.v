(** Properties of the memory of the document objects: claims C99 to C101. *)
From Verif Require Import CStr ObjMemModel SpecX ObjMemFactsC.

(** Every call of a client that keeps to the rules runs: it uses no freed and no
    unwritten memory, whatever was called before. *)
Theorem C99_defined oracle matches t h held c kept : history oracle matches t h held ->
  (forall a, occ a held = occ a (takes c ++ kept)) -> allowed h kept c -> exists h' got, run oracle matches c h = Ok (h', got).
Proof. exact (history_defined oracle matches t h held c kept). Qed.
Print Assumptions C99_defined.
Theorem C99_sound oracle matches t h held : history oracle matches t h held -> sound h held.
Proof. exact (history_sound oracle matches t h held). Qed.
Print Assumptions C99_sound.

(** * Writing histories *)
Ltac here := solve [repeat (first [left; reflexivity|right])].
Ltac same_count := let a := fresh in intros a; unfold occ; cbn [app takes refs_of count_occ]; repeat match goal with |- context [Nat.eq_dec ?x ?y] => destruct (Nat.eq_dec x y) end; lia.
Ltac obeys :=
  cbn; repeat match goal with
  | |- True => exact Logic.I
  | |- _ /\ _ => split
  | |- usable _ _ _ _ => split
  | |- from _ _ _ => apply from_held; here
  | |- is_text _ _ => eexists
  | |- is _ _ _ => eexists; split; [reflexivity|reflexivity]
  | |- forall _, _ => let E := fresh in intros ? E; try discriminate E; injection E as <-
  | |- In _ _ => cbn; here
  | |- _ \/ _ => here
  | |- exists _, _ => eexists
  | |- _ => exact Logic.I
  | |- _ <> _ => discriminate
  | |- _ = _ => reflexivity
  end.
Ltac call_as t' H c kept :=
  match type of H with history ?o ?m ?t ?h ?held =>
    let r := eval vm_compute in (run o m c h) in
    match r with Ok (?h', ?got) =>
      let H' := fresh in
      assert (H' : history o m t' h' (got ++ kept));
      [ apply (next o m t t' h held c kept h' got H);
        [same_count| |vm_compute; reflexivity|try discriminate; intros _; split; [reflexivity|try exact Logic.I]]
      | clear H; rename H' into H; cbn [app] in H ]
    end
  end.
Ltac call H c kept := call_as true H c kept; [solve [obeys]|].

Definition bash : str + Z := inl (S_ "bash").
Section Cases.
Variable oracle : mem -> addr -> addr -> bool.
Variable matches : mem -> addr -> bool.
(** A document with a group with a package, the group copied and united with the copy,
    the document filtered; then everything is released.  The
    client kept to the rules, and nothing is left. *)
Example C99_case : exists h, history oracle matches true h [] /\ length h = 57.
Proof.
  pose proof (start oracle matches) as H.
  call H (CItem WPkg) (@nil addr).
  call H (CSetVal WPkg 0 f_name bash) [0].
  call H (CObj PGroup) [0].
  call H (CSetProp PGroup 2 (S_ "id") bash) [2; 0].
  call H (CAddItem PGroup 2 f_pkgs LPkg 0) [2].
  call H (CCopy 2) [2].
  call_as true H (CUnion PGroup 2 8) [2; 8]; [solve [obeys]| |].
  { split; intros f e l cl xs [Hf|[]] (c & Hc & Hp) Hl E; injection Hf as <- <-; vm_compute in Hc; injection Hc as <-;
      cbn in Hp; repeat match type of Hp with _ \/ _ => destruct Hp as [Hp|Hp] | False => destruct Hp end; try discriminate Hp; injection Hp as <-; vm_compute in Hl; injection Hl as <-;
      (destruct xs as [|x [|y xs]]; [constructor|constructor; [intros []|constructor]|discriminate E]). }
  call H (CDoc None) [16; 2; 8].
  call H (CDocAdd PGroup 29 16) [29; 2; 8].
  call H (CList LStr) [29; 2; 8].
  call H (CDocFilter 29 36) [36; 29; 2; 8].
  call H (CRelease 37) [36; 29; 2; 8].
  call H (CRelease 29) [36; 2; 8].
  call H (CRelease 36) [2; 8].
  call H (CRelease 2) [8].
  call H (CRelease 8) (@nil addr).
  eexists. split; [exact H|reflexivity].
Qed.

(** Two documents with a group of one id, the first with one more group: the union is
    tidy, and when all is released nothing is left. *)
Ltac apart o l xs :=
  exists o, l; eexists; exists xs; split; [eexists; split; [reflexivity|cbn; here]|]; split; [eexists; split; [reflexivity|cbn; here]|]; split; [reflexivity|]; split; [reflexivity|];
  split; [vm_compute; repeat constructor; cbn; intuition discriminate|];
  let x := fresh in let Hx := fresh in intros x Hx; cbn in Hx; repeat match type of Hx with _ \/ _ => destruct Hx as [Hx|Hx] | False => destruct Hx end; subst x;
  let f := fresh in let e := fresh in let ll := fresh in let cl := fresh in let zs := fresh in let Hf := fresh in let c := fresh in let Hc := fresh in let Hp := fresh in let Hl := fresh in let E := fresh in
  intros f e ll cl zs [Hf|[]] (c & Hc & Hp) Hl E; injection Hf as <- <-; vm_compute in Hc; injection Hc as <-;
  cbn in Hp; repeat match type of Hp with _ \/ _ => destruct Hp as [Hp|Hp] | False => destruct Hp end; try discriminate Hp; injection Hp as <-; vm_compute in Hl; injection Hl as <-;
  (destruct zs; [constructor|discriminate E]).
Example C101_case : exists h, history oracle matches true h [] /\ length h = 65 /\ Forall (fun c => c = None) h.
Proof.
  pose proof (start oracle matches) as H.
  call H (CDoc None) (@nil addr). call H (CObj PGroup) [0]. call H (CSetProp PGroup 6 (S_ "id") bash) [6; 0]. call H (CCopy 6) [6; 0].
  call H (CDocAdd PGroup 0 6) [12; 0]. call H (CDocGet 0 o_cats) [12; 0]. call H (CRelease 19) [12; 0]. call H (CDocGet 0 o_envs) [12; 0]. call H (CRelease 20) [12; 0].
  call H (CDoc None) [12; 0]. call H (CDocAdd PGroup 21 12) [21; 0]. call H (CDocGet 21 o_cats) [21; 0]. call H (CRelease 28) [21; 0]. call H (CDocGet 21 o_envs) [21; 0]. call H (CRelease 29) [21; 0].
  call H (CObj PGroup) [21; 0]. call H (CDocAdd PGroup 0 30) [21; 0].
  call_as true H (CDocUnion 0 21) [21; 0]; [solve [obeys]| |].
  { intros []; split; [apart 1 18 [6; 30]|apart 22 27 [12]|apart 1 19 (@nil addr)|apart 22 28 (@nil addr)|apart 1 20 (@nil addr)|apart 22 29 (@nil addr)]. }
  call H (CRelease 35) [21; 0]. call H (CRelease 21) [0]. call H (CRelease 0) (@nil addr).
  eexists. split; [exact H|split; [reflexivity|repeat constructor]].
Qed.

(** Outside the rules: a copy of a document has no log pointer; releasing it uses
    unwritten memory. *)
Theorem C99_document_copy_refuted : exists h d h1 r, history oracle matches true h [d] /\ is h d KDoc /\ copy_obj d h = Ok (h1, r) /\ release (Some r) h1 = UB.
Proof.
  pose proof (start oracle matches) as H. call H (CDoc None) (@nil addr).
  match type of H with history _ _ _ ?h _ => let r := eval vm_compute in (copy_obj 0 h) in match r with Ok (?h1, ?n) => exists h, 0, h1, n end end.
  split; [exact H|]. split; [obeys|]. split; vm_compute; reflexivity.
Qed.
(** A copy of a blacklist or a whiteout uses unwritten memory. *)
Theorem C99_multi_copy_refuted : exists h d m, history oracle matches true h [m; d] /\ is h d KDoc /\ is h m KMDict /\ copy_obj m h = UB.
Proof.
  pose proof (start oracle matches) as H. call H (CDoc None) (@nil addr). call H (CDocGet 0 o_black) [0].
  eexists. exists 0, 6. split; [exact H|]. split; [obeys|]. split; [obeys|]. vm_compute. reflexivity.
Qed.
(** Setting the list an object already has uses freed memory, unless the client holds
    a reference of its own. *)
Theorem C99_own_list_refuted : exists h g l, history oracle matches true h [g] /\ is h g KGroup /\ points h g f_pkgs l /\ set_objlist g f_pkgs l h = UB.
Proof.
  pose proof (start oracle matches) as H. call H (CObj PGroup) (@nil addr).
  eexists. exists 0, 4. split; [exact H|]. split; [obeys|]. split; [|vm_compute; reflexivity]. eexists. split; [reflexivity|]. cbn. here.
Qed.
Theorem C99_own_doctype_refuted : exists h d v, history oracle matches true h [d] /\ is h d KDoc /\ points h d f_dtname v /\ doctype_set d (Some v) h = UB.
Proof.
  pose proof (start oracle matches) as H. call H (CDoc None) (@nil addr).
  eexists. exists 0, 3. split; [exact H|]. split; [obeys|]. split; [|vm_compute; reflexivity]. eexists. split; [reflexivity|]. cbn. here.
Qed.

(** The counter of every object is the number of references to it, [lost] among them
    those nobody can give back; what is in memory is what is reached from these. *)
Theorem C100_counted t h held : history oracle matches t h held ->
  exists lost, counted h (held ++ lost) /\ (forall a, alloc h a <-> from h (held ++ lost) a) /\ (t = true -> lost = []).
Proof. exact (history_counted oracle matches t h held). Qed.
(** An object with two references and one pointer to it. *)
Example C100_case : exists h c, history oracle matches true h [3; 2; 0] /\ at_ h 3 c /\ refc c = 1 /\ occ 3 (all_pointers h) = 1.
Proof.
  pose proof (start oracle matches) as H. call H (CList LStr) (@nil addr). call H (CText bash) [0]. call H (CAppend LStr 0 1) [1; 0]. call H (CRelease 1) [0]. call H (CItem WPkg) [0].
  call H (CSetVal WPkg 2 f_name bash) [2; 0]. call H (CGetVal WPkg 2 f_name) [2; 0].
  eexists. eexists. split; [exact H|]. split; [reflexivity|]. split; [reflexivity|]. vm_compute. reflexivity.
Qed.

(** After tidy calls memory holds what the client can reach and nothing else. *)
Theorem C101_no_leak_partial h held a : history oracle matches true h held -> (alloc h a <-> from h held a).
Proof. exact (history_tidy oracle matches h held a). Qed.
Theorem C101_empty_partial h a : history oracle matches true h [] -> ~ alloc h a.
Proof. exact (history_empty oracle matches h a). Qed.
(** A call that leaves memory nobody can free: everything is given back, something
    is still allocated. *)
Definition leaks (c : call) : Prop := exists h held h1 got h2 a,
  history oracle matches true h held /\ takes c = [] /\ allowed h held c /\ run oracle matches c h = Ok (h1, got) /\
  forM (fun x => release (Some x)) (got ++ held) h1 = Ok (h2, tt) /\ alloc h2 a.
Ltac leak_of H c a :=
  match type of H with history ?o ?m _ ?h ?held =>
    let r := eval vm_compute in (run o m c h) in
    match r with Ok (?h1, ?got) =>
      let r2 := eval vm_compute in (forM (fun x => release (Some x)) (got ++ held) h1) in
      match r2 with Ok (?h2, _) => exists h, held, h1, got, h2, a; split; [exact H|]; split; [reflexivity|]; split; [solve [obeys]|]; split; [vm_compute; reflexivity|]; split; [vm_compute; reflexivity|]; eexists; vm_compute; reflexivity end
    end
  end.
(** comps_docgroup_union, when a group has two packages of one name. *)
Theorem C101_union_refuted : exists a b, leaks (CUnion PGroup a b).
Proof.
  exists 4, 9. pose proof (start oracle matches) as H. call H (CItem WPkg) (@nil addr). call H (CSetVal WPkg 0 f_name bash) [0]. call H (CCopy 0) [0]. call H (CObj PGroup) [2; 0].
  call H (CAddItem PGroup 4 f_pkgs LPkg 0) [4; 2]. call H (CAddItem PGroup 4 f_pkgs LPkg 2) [4]. call H (CObj PGroup) [4].
  leak_of H (CUnion PGroup 4 9) 22.
Qed.
(** comps_doc_union, when a document has two groups of one id. *)
Theorem C101_document_union_refuted : exists a b, leaks (CDocUnion a b).
Proof.
  exists 0, 19. pose proof (start oracle matches) as H. call H (CDoc None) (@nil addr). call H (CObj PGroup) [0]. call H (CSetProp PGroup 6 (S_ "id") bash) [6; 0]. call H (CCopy 6) [6; 0].
  call H (CDocAdd PGroup 0 6) [12; 0]. call H (CDocAdd PGroup 0 12) [0]. call H (CDoc None) [0].
  leak_of H (CDocUnion 0 19) 39.
Qed.
(** comps_docgroup_get_packages of no group. *)
Theorem C101_packages_refuted name : leaks (CPackages None name).
Proof. pose proof (start oracle matches) as H. leak_of H (CPackages None name) 0. Qed.
End Cases.
Print Assumptions C99_document_copy_refuted.
Print Assumptions C99_multi_copy_refuted.
Print Assumptions C99_own_list_refuted.
Print Assumptions C99_own_doctype_refuted.
Print Assumptions C100_counted.
Print Assumptions C101_no_leak_partial.
Print Assumptions C101_empty_partial.
Print Assumptions C101_union_refuted.
Print Assumptions C101_document_union_refuted.
Print Assumptions C101_packages_refuted.
