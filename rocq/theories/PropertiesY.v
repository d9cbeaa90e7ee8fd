(** Properties of the memory of sums of Python lists: claim C103. *)
From Verif Require Import CStr ObjMemModel ObjMemSum SpecX SpecY ObjMemSumFacts2.

(** Every call of a client that keeps to the rules runs, sums among them. *)
Theorem C103_defined oracle matches t h held c kept : history2 oracle matches t h held ->
  (forall a, occ a held = occ a (takes2 c ++ kept)) -> allowed2 h kept c -> exists h' got, run2 oracle matches c h = Ok (h', got).
Proof. exact (history2_defined oracle matches t h held c kept). Qed.
Print Assumptions C103_defined.
Theorem C103_sound oracle matches t h held : history2 oracle matches t h held -> sound h held.
Proof. exact (history2_sound oracle matches t h held). Qed.
Print Assumptions C103_sound.
Theorem C103_counted oracle matches t h held : history2 oracle matches t h held ->
  exists lost, counted h (held ++ lost) /\ (forall a, alloc h a <-> from h (held ++ lost) a) /\ (t = true -> lost = []).
Proof. exact (history2_counted oracle matches t h held). Qed.
Print Assumptions C103_counted.
(** After tidy calls memory holds what the client can reach and nothing else. *)
Theorem C103_no_leak_partial oracle matches h held a : history2 oracle matches true h held -> (alloc h a <-> from h held a).
Proof. exact (history2_tidy oracle matches h held a). Qed.
Print Assumptions C103_no_leak_partial.
Theorem C103_empty_partial oracle matches h a : history2 oracle matches true h [] -> ~ alloc h a.
Proof. exact (history2_empty oracle matches h a). Qed.
Print Assumptions C103_empty_partial.
(** What a sum is: a new list of one new object for each of the first list, then those
    of the second list, themselves, that have no id of the first; the operands and all
    else the client can reach stay as they are. *)
Theorem C103_sum oracle matches t h held p l1 l2 xs ys : history2 oracle matches t h held -> allowed2 h held (CSum p l1 l2) -> objects_in h l1 xs -> objects_in h l2 ys ->
  exists h' r, run2 oracle matches (CSum p l1 l2) h = Ok (h', [r]) /\ summed h h' r (length xs) (others (id_of h) xs ys) /\ untouched h h' held.
Proof. exact (history2_sum oracle matches t h held p l1 l2 xs ys). Qed.
Print Assumptions C103_sum.
Theorem C103_packages oracle matches t h held l1 l2 xs ys : history2 oracle matches t h held -> allowed2 h held (CSumPkgs l1 l2) -> objects_in h l1 xs -> objects_in h l2 ys ->
  exists h' r, run2 oracle matches (CSumPkgs l1 l2) h = Ok (h', [r]) /\ summed h h' r (length xs) (others (name_of h) xs ys) /\ untouched h h' held.
Proof. exact (history2_sum_pkgs oracle matches t h held l1 l2 xs ys). Qed.
Print Assumptions C103_packages.

(** * Writing histories *)
Ltac here := solve [repeat (first [left; reflexivity|right])].
Ltac same_count := let a := fresh in intros a; unfold occ; cbn [app takes2 takes refs_of count_occ]; repeat match goal with |- context [Nat.eq_dec ?x ?y] => destruct (Nat.eq_dec x y) end; lia.
Ltac obeys :=
  cbn; repeat match goal with
  | |- True => exact Logic.I
  | |- _ /\ _ => split
  | |- usable _ _ _ _ => split
  | |- from _ _ _ => apply from_held; here
  | |- is_text _ _ => eexists
  | |- is _ _ _ => eexists; split; [reflexivity|reflexivity]
  | |- forall _, _ => let E := fresh in intros ? E; try discriminate E; injection E as <-
  | |- In _ _ => cbn; here
  | |- _ \/ _ => here
  | |- exists _, _ => eexists
  | |- _ => exact Logic.I
  | |- _ <> _ => discriminate
  | |- _ = _ => reflexivity
  end.
Ltac call_as t' H c kept :=
  match type of H with history2 ?o ?m ?t ?h ?held =>
    let r := eval vm_compute in (run2 o m c h) in
    match r with Ok (?h', ?got) =>
      let H' := fresh in
      assert (H' : history2 o m t' h' (got ++ kept));
      [ apply (next2 o m t t' h held c kept h' got H);
        [same_count| |vm_compute; reflexivity|try discriminate; intros _; split; [reflexivity|try exact Logic.I]]
      | clear H; rename H' into H; cbn [app] in H ]
    end
  end.
Ltac call H c kept := call_as true H (Old c) kept; [solve [obeys]|].
(** A list whose objects have different ids and no items. *)
Ltac apart :=
  let xs := fresh in let c := fresh in let Hc := fresh in let E := fresh in
  intros xs (c & Hc & E); vm_compute in Hc; injection Hc as <-; cbn in E;
  repeat (destruct xs as [|? xs]; [try discriminate E|try discriminate E; injection E as <- E]);
  split; [vm_compute; repeat constructor; cbn; intuition discriminate|];
  let x := fresh in let Hx := fresh in intros x Hx; cbn in Hx; repeat match type of Hx with _ \/ _ => destruct Hx as [Hx|Hx] | False => destruct Hx end; subst x;
  let f := fresh in let e := fresh in let ll := fresh in let cl := fresh in let zs := fresh in let Hf := fresh in let c := fresh in let Hc := fresh in let Hp := fresh in let Hl := fresh in let E := fresh in
  intros f e ll cl zs [Hf|[]] (c & Hc & Hp) Hl E; injection Hf as <- <-; vm_compute in Hc; injection Hc as <-;
  cbn in Hp; repeat match type of Hp with _ \/ _ => destruct Hp as [Hp|Hp] | False => destruct Hp end; try discriminate Hp; injection Hp as <-; vm_compute in Hl; injection Hl as <-;
  (destruct zs; [constructor|discriminate E]).
Definition bash : str + Z := inl (S_ "bash").
Definition zsh : str + Z := inl (S_ "zsh").
Section Cases.
Variable oracle : mem -> addr -> addr -> bool.
Variable matches : mem -> addr -> bool.
(** A list with group bash, another with a group bash and a group zsh: the sum has a
    new group and the old zsh; when all is released nothing is left. *)
Example C103_case : exists h h1 h2 a, history2 oracle matches true h [1; 0] /\ objects_in h 0 [2] /\ objects_in h 1 [8; 14] /\ others (id_of h) [2] [8; 14] = [14] /\
  run2 oracle matches (CSum PGroup 0 1) h = Ok (h1, [20]) /\ objects_in h1 20 [a; 14] /\ length h <= a /\ history2 oracle matches true h1 [20; 1; 0] /\
  history2 oracle matches true h2 [] /\ Forall (fun c => c = None) h2.
Proof.
  pose proof (start2 oracle matches) as H. call H (CList LGroup) (@nil addr). call H (CList LGroup) [0].
  call H (CObj PGroup) [1; 0]. call H (CSetProp PGroup 2 (S_ "id") bash) [2; 1; 0]. call H (CCopy 2) [2; 1; 0].
  call H (CObj PGroup) [8; 2; 1; 0]. call H (CSetProp PGroup 14 (S_ "id") zsh) [14; 8; 2; 1; 0].
  call H (CAppendX LGroup 0 2) [14; 8; 1; 0]. call H (CAppendX LGroup 1 8) [14; 1; 0]. call H (CAppendX LGroup 1 14) [1; 0].
  pose proof H as H1. call_as true H (CSum PGroup 0 1) [1; 0]; [solve [obeys]|split; apart|].
  pose proof H as H2. call H (CRelease 1) [20; 0]. call H (CRelease 20) [0]. call H (CRelease 0) (@nil addr).
  eexists. eexists. eexists. eexists. split; [exact H1|]. split; [eexists; split; reflexivity|]. split; [eexists; split; reflexivity|]. split; [vm_compute; reflexivity|].
  split; [vm_compute; reflexivity|]. split; [eexists; split; [reflexivity|cbn; reflexivity]|]. split; [cbn; lia|]. split; [exact H2|]. split; [exact H|]. repeat constructor.
Qed.
(** The same of lists of packages. *)
Example C103_packages_case : exists h h1 h2 a, history2 oracle matches true h [1; 0] /\ objects_in h 0 [2] /\ objects_in h 1 [4; 6] /\ others (name_of h) [2] [4; 6] = [6] /\
  run2 oracle matches (CSumPkgs 0 1) h = Ok (h1, [8]) /\ objects_in h1 8 [a; 6] /\ length h <= a /\ history2 oracle matches true h1 [8; 1; 0] /\
  history2 oracle matches true h2 [] /\ Forall (fun c => c = None) h2.
Proof.
  pose proof (start2 oracle matches) as H. call H (CList LPkg) (@nil addr). call H (CList LPkg) [0].
  call H (CItem WPkg) [1; 0]. call H (CSetVal WPkg 2 f_name bash) [2; 1; 0]. call H (CCopy 2) [2; 1; 0].
  call H (CItem WPkg) [4; 2; 1; 0]. call H (CSetVal WPkg 6 f_name zsh) [6; 4; 2; 1; 0].
  call H (CAppendX LPkg 0 2) [6; 4; 1; 0]. call H (CAppendX LPkg 1 4) [6; 1; 0]. call H (CAppendX LPkg 1 6) [1; 0].
  pose proof H as H1. call_as true H (CSumPkgs 0 1) [1; 0]; [solve [obeys]| |].
  { intros xs (c & Hc & E). vm_compute in Hc. injection Hc as <-. cbn in E. destruct xs as [|x [|y xs]]; try discriminate E. constructor; [intros []|constructor]. }
  pose proof H as H2. call H (CRelease 1) [8; 0]. call H (CRelease 8) [0]. call H (CRelease 0) (@nil addr).
  eexists. eexists. eexists. eexists. split; [exact H1|]. split; [eexists; split; reflexivity|]. split; [eexists; split; reflexivity|]. split; [vm_compute; reflexivity|].
  split; [vm_compute; reflexivity|]. split; [eexists; split; [reflexivity|cbn; reflexivity]|]. split; [cbn; lia|]. split; [exact H2|]. split; [exact H|]. repeat constructor.
Qed.
(** A sum that leaves memory nobody can free: everything is given back, something is
    still allocated. *)
Definition leaks2 (c : call2) : Prop := exists h held h1 got h2 a,
  history2 oracle matches true h held /\ takes2 c = [] /\ allowed2 h held c /\ run2 oracle matches c h = Ok (h1, got) /\
  forM (fun x => release (Some x)) (got ++ held) h1 = Ok (h2, tt) /\ alloc h2 a.
Ltac leak_of H c a :=
  match type of H with history2 ?o ?m _ ?h ?held =>
    let r := eval vm_compute in (run2 o m c h) in
    match r with Ok (?h1, ?got) =>
      let r2 := eval vm_compute in (forM (fun x => release (Some x)) (got ++ held) h1) in
      match r2 with Ok (?h2, _) => exists h, held, h1, got, h2, a; split; [exact H|]; split; [reflexivity|]; split; [solve [obeys]|]; split; [vm_compute; reflexivity|]; split; [vm_compute; reflexivity|]; eexists; vm_compute; reflexivity end
    end
  end.
(** Two groups of one id in the first list, added to an empty list. *)
Theorem C103_first_refuted : exists a b, leaks2 (CSum PGroup a b).
Proof.
  exists 0, 1. pose proof (start2 oracle matches) as H. call H (CList LGroup) (@nil addr). call H (CList LGroup) [0].
  call H (CObj PGroup) [1; 0]. call H (CSetProp PGroup 2 (S_ "id") bash) [2; 1; 0]. call H (CCopy 2) [2; 1; 0].
  call H (CAppendX LGroup 0 2) [8; 1; 0]. call H (CAppendX LGroup 0 8) [1; 0].
  leak_of H (CSum PGroup 0 1) 21.
Qed.
(** Two groups of one id in the second list. *)
Theorem C103_second_refuted : exists a b, leaks2 (CSum PGroup a b).
Proof.
  exists 0, 1. pose proof (start2 oracle matches) as H. call H (CList LGroup) (@nil addr). call H (CList LGroup) [0].
  call H (CObj PGroup) [1; 0]. call H (CSetProp PGroup 2 (S_ "id") bash) [2; 1; 0]. call H (CCopy 2) [2; 1; 0]. call H (CCopy 2) [8; 2; 1; 0].
  call H (CAppendX LGroup 0 2) [14; 8; 1; 0]. call H (CAppendX LGroup 1 8) [14; 1; 0]. call H (CAppendX LGroup 1 14) [1; 0].
  leak_of H (CSum PGroup 0 1) 36.
Qed.
(** Two packages of one name in the first list. *)
Theorem C103_packages_refuted : exists a b, leaks2 (CSumPkgs a b).
Proof.
  exists 0, 1. pose proof (start2 oracle matches) as H. call H (CList LPkg) (@nil addr). call H (CList LPkg) [0].
  call H (CItem WPkg) [1; 0]. call H (CSetVal WPkg 2 f_name bash) [2; 1; 0]. call H (CCopy 2) [2; 1; 0].
  call H (CAppendX LPkg 0 2) [4; 1; 0]. call H (CAppendX LPkg 0 4) [1; 0].
  leak_of H (CSumPkgs 0 1) 9.
Qed.
(** A sum is not a list of its own objects: an object of the second operand is in it,
    and what is set in the sum is set in the operand. *)
Theorem C103_own_refuted : exists h l1 l2 h1 r x h2, history2 oracle matches true h [l2; l1] /\ allowed2 h [l2; l1] (CSum PGroup l1 l2) /\ run2 oracle matches (CSum PGroup l1 l2) h = Ok (h1, [r]) /\
  objects_in h1 r [x] /\ objects_in h1 l2 [x] /\ id_of h1 x = Some bash /\ run2 oracle matches (Old (CSetProp PGroup x (S_ "id") zsh)) h1 = Ok (h2, []) /\ objects_in h2 l2 [x] /\ id_of h2 x = Some zsh.
Proof.
  pose proof (start2 oracle matches) as H. call H (CList LGroup) (@nil addr). call H (CList LGroup) [0].
  call H (CObj PGroup) [1; 0]. call H (CSetProp PGroup 2 (S_ "id") bash) [2; 1; 0]. call H (CAppendX LGroup 1 2) [1; 0].
  eexists. exists 0, 1. eexists. eexists. exists 2. eexists. split; [exact H|]. split; [solve [obeys]|]. split; [vm_compute; reflexivity|].
  split; [eexists; split; reflexivity|]. split; [eexists; split; reflexivity|]. split; [vm_compute; reflexivity|]. split; [vm_compute; reflexivity|].
  split; [eexists; split; reflexivity|]. vm_compute. reflexivity.
Qed.
End Cases.
Print Assumptions C103_first_refuted.
Print Assumptions C103_second_refuted.
Print Assumptions C103_packages_refuted.
Print Assumptions C103_own_refuted.
