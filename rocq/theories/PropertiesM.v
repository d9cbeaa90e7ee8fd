(** C72-C74: list and dictionary attributes of Group, Category, Environment and
    Comps, with every reference counted. *)
From Verif Require Import CStr CStrFacts CountMem CountMemFacts PyAttrModel PyAttrSpec PyAttrFacts1 PyAttrFacts2 PyAttrFacts3 PyAttrFacts4 PyAttrFacts5 PyAttrFacts6.

Section Attr.
Context {V : Type}.
Variable blank : vtype -> V.

(** * C72: an attribute reads back what was last assigned to it *)
(** The code against plain Python, where an attribute is a field of an object and
    variables share objects: the same outputs, for every program without
    [Comps.clear] in which either no object is reached through two Python objects or
    no [name_by_lang] or [desc_by_lang] is assigned. *)
Theorem C72_plain_partial : forall l again, forallb (allowed again) l = true ->
  match irun blank false empty_world l with
  | None => run blank start l = UB
  | Some (w, os) => exists s, run blank start l = Ok (s, os)
  end.
Proof.
  intros l again H. rewrite <- (run_good blank again l _ (Good_empty again) H).
  pose proof (run_sim blank l _ _ (@Sim_start V)) as P. destruct (irun blank true empty_world l) as [[w os]|]; [|exact P].
  destruct P as (s & E & _). exists s. exact E.
Qed.
(** Every program: the code shows what objects that remember show. *)
Theorem C72_exact : forall l,
  match irun blank true empty_world l with
  | None => run blank start l = UB
  | Some (w, os) => exists s, run blank start l = Ok (s, os)
  end.
Proof.
  intros l. pose proof (run_sim blank l _ _ (@Sim_start V)) as P. destruct (irun blank true empty_world l) as [[w os]|]; [|exact P].
  destruct P as (s & E & _). exists s. exact E.
Qed.

(** * C73: no program over attributes uses freed memory *)
(** Programs without [del] of an attribute run to the end, and so does giving up all
    variables; every counter of a live cell stays positive. *)
Theorem C73_safe_partial : forall l, forallb (fun p => negb (deletes p)) l = true ->
  exists s os m, run blank start l = Ok (s, os) /\ finish s = Ok m /\ forall a c, nth_error m a = Some (Some c) -> 0 < cnt c.
Proof.
  intros l H. pose proof (program blank l) as P. pose proof (run_safe blank true l H empty_world) as N.
  destruct (irun blank true empty_world l) as [[w os]|]; [|congruence]. destruct P as (s & m & E & F & _ & L). exists s, os, m. split; [exact E|]. split; [exact F|].
  intros a c Hc. exact (proj1 (L a c Hc)).
Qed.
(** The only way to crash: [del] of an attribute of a Comps object. *)
Theorem C73_crash_partial : forall l p s os, run blank start l = Ok (s, os) -> step blank s p = UB ->
  exists x a n c cache, p = PSet x a ArgDel /\ var s x = Some n /\ nth_error (s_mem s) n = Some (Some c) /\
    (exists o, body c = PyObj KComps o cache) /\ styleof KComps a <> None.
Proof. exact (crash_only blank). Qed.
Theorem C73_fuel : forall l, run blank start l <> NoFuel.
Proof.
  intros l E. pose proof (run_sim blank l _ _ (@Sim_start V)) as P. destruct (irun blank true empty_world l) as [[w os]|]; [destruct P as (s & P & _)|]; congruence.
Qed.

(** * C74: every reference is given back *)
(** After any program, when all variables are gone: the counters left are exactly
    the references the specification counts as lost; what is left are lists and
    dictionaries only, each library list held by a lost Python object. *)
Theorem C74_balance_partial : forall l w os, irun blank true empty_world l = Some (w, os) ->
  exists s m, run blank start l = Ok (s, os) /\ finish s = Ok m /\ py_counters m = lost w /\
    (forall a c, nth_error m a = Some (Some c) ->
       match body c with
       | PyVal t l => exists d v, nth_error m l = Some (Some d) /\ body d = CVal v
       | CVal _ => exists p d t, nth_error m p = Some (Some d) /\ body d = PyVal t a
       | _ => False
       end).
Proof.
  intros l w os E. pose proof (program blank l) as P. rewrite E in P. destruct P as (s & m & H1 & H2 & H3 & H4). exists s, m.
  split; [exact H1|]. split; [exact H2|]. split; [exact H3|]. intros a c Hc. exact (proj2 (H4 a c Hc)).
Qed.
(** Programs that assign no list to a Group, Category or Environment and do not use
    [langpacks], [blacklist] and [whiteout] leave nothing. *)
Theorem C74_clean_partial : forall l s os m, forallb clean l = true -> run blank start l = Ok (s, os) -> finish s = Ok m ->
  forall a, nth_error m a = Some None \/ length m <= a.
Proof. exact (clean_program blank). Qed.
End Attr.

(** ** Cases *)
Definition none_ : attr -> option nat := fun _ => None.
Definition zero (_ : vtype) : nat := 0.
Definition outputs {S O} (r : res (S * list O)) : option (list O) := match r with Ok (_, os) => Some os | _ => None end.

(** A group with a package list that is assigned, shared and changed. *)
Definition prog1 : list (pop nat) :=
  [PNew KGroup none_; PMake TPackages 3; PSet 0 APackages (ArgVar 1); PGet 0 APackages; PEdit 2 4; PRead 1;
   PDrop 0; PRead 2; PMake TStrDict 8; PSet 0 ANameByLang (ArgVar 3)].
Example C72_case : forallb (allowed false) prog1 = true /\
  outputs (run zero start prog1) = Some [OVar 0; OVar 1; ONone; OVar 2; ONone; OContent 4; ONone; OContent 4; OVar 3; OErr ENameError].
Proof. split; vm_compute; reflexivity. Qed.
(** The same group read twice from its list; its category too. *)
Definition prog2 : list (pop nat) :=
  [PNew KEnv none_; PAgain 0; PMake TIds 6; PSet 1 AOptionIds (ArgVar 2); PGet 0 AOptionIds; PRead 3; PDrop 1; PDrop 2; PGet 0 AOptionIds; PRead 4].
Example C72_case_again : forallb (allowed true) prog2 = true /\
  outputs (run zero start prog2) = Some [OVar 0; OVar 1; OVar 2; ONone; OVar 3; OContent 6; ONone; ONone; OVar 4; OContent 6].
Proof. split; vm_compute; reflexivity. Qed.

(** Finding: two Python objects for one group; [name_by_lang] assigned through both
    reads back, through the first, what the first assigned. *)
Definition stale1 : list (pop nat) :=
  [PNew KGroup none_; PAgain 0; PMake TStrDict 4; PMake TStrDict 5; PSet 0 ANameByLang (ArgVar 2); PSet 1 ANameByLang (ArgVar 3);
   PGet 0 ANameByLang; PRead 4].
(** Finding: after [clear] an attribute that was read before still shows the old
    content. *)
Definition stale2 : list (pop nat) :=
  [PNew KComps (fun a => match a with AGroups => Some 7 | _ => None end); PGet 0 AGroups; PClear 0; PGet 0 AGroups; PRead 2].
Theorem C72_refuted :
  ~ (forall l : list (pop nat), match irun zero false empty_world l with
                                | None => run zero start l = UB
                                | Some (w, os) => exists s, run zero start l = Ok (s, os)
                                end).
Proof. intros H. specialize (H stale1). vm_compute in H. destruct H as [s H]. discriminate H. Qed.
Theorem C72_clear_refuted :
  ~ (forall l : list (pop nat), forallb (fun p => match p with PAgain _ => false | _ => true end) l = true ->
                                match irun zero false empty_world l with
                                | None => run zero start l = UB
                                | Some (w, os) => exists s, run zero start l = Ok (s, os)
                                end).
Proof. intros H. specialize (H stale2 eq_refl). vm_compute in H. destruct H as [s H]. discriminate H. Qed.

Example C73_case : exists s os m, run zero start (prog1 ++ prog2 ++ stale1 ++ stale2) = Ok (s, os) /\ finish s = Ok m.
Proof.
  destruct (C73_safe_partial zero (prog1 ++ prog2 ++ stale1 ++ stale2) eq_refl) as (s & os & m & E & F & _). exists s, os, m. auto.
Qed.
(** Finding: [del comps.groups] crashes the interpreter. *)
Definition crash : list (pop nat) := [PNew KComps none_; PSet 0 AGroups ArgDel].
Theorem C73_refuted : ~ (forall l : list (pop nat), exists s os, run zero start l = Ok (s, os)).
Proof. intros H. destruct (H crash) as (s & os & E). vm_compute in E. discriminate E. Qed.

(** Findings: what is never given back. *)
Definition left_by (l : list (pop nat)) : option nat :=
  match run zero start l with Ok (s, _) => match finish s with Ok m => Some (py_counters m) | _ => None end | _ => None end.
Definition leak1 : list (pop nat) := [PNew KGroup none_; PMake TPackages 3; PSet 0 APackages (ArgVar 1)].
Definition leak2 : list (pop nat) := [PNew KComps none_; PGet 0 ALangpacks].
Theorem C74_refuted : ~ (forall l : list (pop nat), forall k, left_by l = Some k -> k = 0).
Proof. intros H. specialize (H leak1 1). vm_compute in H. discriminate (H eq_refl). Qed.
Theorem C74_langpacks_refuted : ~ (forall l : list (pop nat), forallb (fun p => match p with PSet _ _ _ => false | _ => true end) l = true -> forall k, left_by l = Some k -> k = 0).
Proof. intros H. specialize (H leak2 eq_refl 1). vm_compute in H. discriminate (H eq_refl). Qed.
(** Assigning a list again and again. *)
Fixpoint assigns (n : nat) : list (pop nat) := match n with O => [] | S n => PSet 0 APackages (ArgVar 1) :: assigns n end.
Example C74_case : left_by ([PNew KGroup none_; PMake TPackages 3] ++ assigns 5) = Some 5 /\
  left_by [PNew KGroup none_; PMake TStrDict 3; PSet 0 ANameByLang (ArgVar 1); PGet 0 ANameByLang; PGet 0 APackages; PAgain 0] = Some 0.
Proof. split; vm_compute; reflexivity. Qed.

Print Assumptions C72_plain_partial.
Print Assumptions C72_exact.
Print Assumptions C72_refuted.
Print Assumptions C72_clear_refuted.
Print Assumptions C73_safe_partial.
Print Assumptions C73_crash_partial.
Print Assumptions C73_fuel.
Print Assumptions C73_refuted.
Print Assumptions C74_balance_partial.
Print Assumptions C74_clean_partial.
Print Assumptions C74_refuted.
Print Assumptions C74_langpacks_refuted.
