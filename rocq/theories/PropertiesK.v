(** C60-C64: the Python dictionaries StrDict and MDict. *)
From Verif Require Import CStr CStrFacts HSListModel HSListFacts SetModel RTreeModel RTreeFacts MRTreeModel ObjModel StrModel StrFacts PyObjModel SpecA SpecB
  PyDictModel PyDictFacts PyDictFacts2 Utf8Facts.

Definition T (s : string) : pyval := PyText (S_ s).
Definition put (k v : string) : sdop := SdSet (T k) (T v).

(** * C60: a StrDict behaves like the dict of the assignments made *)
(** Assignments of str to str, in an order in which no key comes for the first time
    after a key it is a proper prefix of. *)
Theorem C60_history_partial : forall os, all_text os -> no_late_prefix (bindings [] os) ->
  exists d rs, sd_run sd_new os = Ok (d, rs) /\ Forall (fun r => r = Ret tt) rs /\
    (forall k, sd_get d (PyText k) = Ok (match latest (bindings [] os) (cut k) with Some x => Ret (str_tostr x) | None => Raise KeyError end)) /\
    exists ps, NoDup (map fst ps) /\ length ps = sd_len d /\
      (forall k v, In (k, v) ps <-> latest (bindings [] os) k = Some (Some v)) /\
      sd_keys d = Ok (Ret (map fst ps)) /\ sd_values d = Ok (Ret (map snd ps)) /\ sd_items d = Ok (Ret ps).
Proof. exact sd_history_text. Qed.
Print Assumptions C60_history_partial.
(** Any keys and values, deletions apart: every reading. *)
Theorem C60_any_history_partial : forall os, no_del os -> no_late_prefix (bindings [] os) ->
  exists d rs, sd_run sd_new os = Ok (d, rs) /\ sd_shows d (bindings [] os).
Proof. exact sd_history. Qed.
Print Assumptions C60_any_history_partial.
(** Which strings are Python texts: the writings of characters. *)
Theorem C60_utf8 : forall s, utf8 s = true <-> exists cs, Forall scalar cs /\ s = flat_map encode cs.
Proof. exact utf8_iff. Qed.
Print Assumptions C60_utf8.
Example C60_utf8_case : utf8 (encode 233 ++ encode 8364 ++ encode 128512) = true /\ utf8 (encode 55296) = false /\ utf8 (encode 1114112) = false.
Proof. vm_compute. auto. Qed.
Example C60_case :
  let os := [put "pt" "y"; put "pt_BR" "x"; put "de" "1"; put "pt" "z"] in
  all_text os /\ no_late_prefix (bindings [] os) /\
  (exists d rs, sd_run sd_new os = Ok (d, rs) /\ sd_get d (T "pt") = Ok (Ret (S_ "z")) /\ sd_get d (T "ru") = Ok (Raise KeyError) /\
     sd_get_ d (T "ru") = Ok (Ret None) /\ sd_len d = 3 /\
     sd_items d = Ok (Ret [(S_ "de", S_ "1"); (S_ "pt", S_ "z"); (S_ "pt_BR", S_ "x")])).
Proof.
  cbv zeta. split; [|split].
  - unfold all_text. repeat (apply Forall_cons; [split; vm_compute; reflexivity|]). constructor.
  - apply no_late_prefix_b. vm_compute. reflexivity.
  - do 2 eexists. split; [vm_compute; reflexivity|]. vm_compute. repeat split.
Qed.
(** A call that raises leaves the dictionary as it was. *)
Theorem C60_refused : forall d k v d' r, sd_set d k v = Ok (d', r) -> r <> Ret tt -> r <> RetSet tt -> d' = d.
Proof.
  intros d k v d' r E H1 H2. unfold sd_set in E.
  assert (Hv : v <> PyNull) by (intros ->; discriminate E).
  assert (E' : match key_arg k with
               | KStr s => match str_in v with
                           | Some (x, p) => d2 <- rt_set d s (Some x) ;; Ok (d2, if p : bool then RetSet tt else Ret tt)
                           | None => Ok (d, Raise TypeErr)
                           end
               | bad => Ok (d, key_fails (match str_in v with Some (_, p) => p | None => false end) bad)
               end = Ok (d', r)) by (destruct v; first [exact E|congruence]).
  clear E. destruct (key_arg k) as [s0| |]; [|now inversion E'|now inversion E'].
  destruct (str_in v) as [[x p]|]; [|now inversion E'].
  apply bind_ok in E'. destruct E' as (t & _ & E). inversion E; subst. destruct p; congruence.
Qed.
Print Assumptions C60_refused.
(** Without the conditions. *)
Theorem C60_history_refuted :
  (* an earlier key is lost *)
  (exists os d rs, all_text os /\ sd_run sd_new os = Ok (d, rs) /\
     In (put "de" "1") os /\ sd_get d (T "de") = Ok (Raise KeyError) /\ sd_len d = 3 /\
     sd_items d = Ok (Ret [(S_ "pt", S_ "y"); (S_ "pt_BR", S_ "x")])) /\
  (* del reads through a null pointer *)
  (forall d k, sd_set d k PyNull = UB) /\
  (* the empty key is accepted and ignored *)
  (forall d v, sd_set d (T "") (PyText v) = Ok (d, Ret tt)) /\
  (* a value that cannot be encoded is stored as "" with the error pending *)
  (exists d, sd_set sd_new (T "a") PyBadText = Ok (d, RetSet tt) /\ sd_get d (T "a") = Ok (Ret [])) /\
  (* None as a key fails without an exception *)
  (forall d v, sd_get d PyNone = Ok NoExc /\ sd_set d PyNone (PyText v) = Ok (d, NoExc)) /\
  (* bytes that are not UTF-8 are accepted; reading raises, items is undefined *)
  (exists d, sd_set sd_new (T "a") (PyBytes [ascii_of_nat 255]) = Ok (d, Ret tt) /\ sd_get d (T "a") = Ok (Raise UnicodeError) /\ sd_items d = UB).
Proof.
  split; [|split; [reflexivity|split; [|split; [|split]]]].
  - exists [put "de" "1"; put "pt_BR" "x"; put "pt" "y"]. do 2 eexists. split.
    { unfold all_text. repeat (apply Forall_cons; [split; vm_compute; reflexivity|]). constructor. }
    split; [vm_compute; reflexivity|]. split; [now left|]. vm_compute. repeat split.
  - intros d v. unfold sd_set, T. cbn [key_arg]. change (cut (S_ "")) with (@nil ascii). cbn [str_in]. rewrite rt_set_nil. reflexivity.
  - eexists. split; vm_compute; reflexivity.
  - intros d v. split; reflexivity.
  - eexists. split; [vm_compute; reflexivity|]. split; vm_compute; reflexivity.
Qed.
Print Assumptions C60_history_refuted.

(** * C61: copies, updates and comparison of StrDicts *)
(** The copy shows the same, except that its length reads 0. *)
Theorem C61_copy_partial : forall os d rs, no_del os -> sd_run sd_new os = Ok (d, rs) ->
  (forall k, sd_get (sd_copy d) k = sd_get d k) /\ (forall k, sd_get_ (sd_copy d) k = sd_get_ d k) /\
  (forall k, sd_has_key (sd_copy d) k = sd_has_key d k) /\
  sd_keys (sd_copy d) = sd_keys d /\ sd_values (sd_copy d) = sd_values d /\ sd_items (sd_copy d) = sd_items d /\
  sd_str (sd_copy d) = sd_str d /\
  sd_cmp d (Some (sd_copy d)) OpEq = Ok (Ret true) /\ sd_len (sd_copy d) = 0.
Proof. exact sd_copy_obs. Qed.
Print Assumptions C61_copy_partial.
Theorem C61_copy_len_refuted : exists os d rs, all_text os /\ sd_run sd_new os = Ok (d, rs) /\ sd_len d = 2 /\ sd_len (sd_copy d) = 0.
Proof.
  exists [put "de" "1"; put "pt" "y"]. do 2 eexists. split; [unfold all_text; repeat (apply Forall_cons; [split; vm_compute; reflexivity|]); constructor|].
  split; [vm_compute; reflexivity|]. split; reflexivity.
Qed.
Print Assumptions C61_copy_len_refuted.
(** d.update(e) shows what the assignments of [d] followed by those of [e] show, if
    no key of [e] that is new to [d] is a proper prefix of a key of [d]. *)
Theorem C61_update_partial : forall o1 o2 d e r1 r2, no_del o1 -> no_del o2 ->
  sd_run sd_new o1 = Ok (d, r1) -> sd_run sd_new o2 = Ok (e, r2) ->
  no_late_prefix (bindings [] o1) -> no_late_prefix (bindings [] o2) -> fits (bindings [] o1) (bindings [] o2) ->
  exists d', sd_update d (Some e) = Ok (d', Ret tt) /\ sd_shows d' (bindings [] o1 ++ bindings [] o2).
Proof. exact sd_update_history. Qed.
Print Assumptions C61_update_partial.
Theorem C61_update_refuted : exists o1 o2 d e r1 r2 d', all_text o1 /\ all_text o2 /\
  sd_run sd_new o1 = Ok (d, r1) /\ sd_run sd_new o2 = Ok (e, r2) /\
  no_late_prefix (bindings [] o1) /\ no_late_prefix (bindings [] o2) /\
  sd_has_key d (T "de") = Ok (Ret true) /\ sd_update d (Some e) = Ok (d', Ret tt) /\ sd_has_key d' (T "de") = Ok (Ret false).
Proof.
  exists [put "de" "1"; put "pt_BR" "x"], [put "pt" "y"]. do 5 eexists.
  split; [unfold all_text; repeat (apply Forall_cons; [split; vm_compute; reflexivity|]); constructor|].
  split; [unfold all_text; repeat (apply Forall_cons; [split; vm_compute; reflexivity|]); constructor|].
  split; [vm_compute; reflexivity|]. split; [vm_compute; reflexivity|].
  split; [apply no_late_prefix_b; vm_compute; reflexivity|]. split; [apply no_late_prefix_b; vm_compute; reflexivity|].
  split; [vm_compute; reflexivity|]. split; vm_compute; reflexivity.
Qed.
Print Assumptions C61_update_refuted.
(** Two StrDicts are equal exactly if they hold the same bindings. *)
Theorem C61_compare : forall o1 o2 d e r1 r2, no_del o1 -> no_del o2 ->
  sd_run sd_new o1 = Ok (d, r1) -> sd_run sd_new o2 = Ok (e, r2) ->
  no_late_prefix (bindings [] o1) -> no_late_prefix (bindings [] o2) ->
  exists b, sd_cmp d (Some e) OpEq = Ok (Ret b) /\ sd_cmp d (Some e) OpNe = Ok (Ret (negb b)) /\
    (b = true <-> forall k, latest (bindings [] o1) k = latest (bindings [] o2) k).
Proof. exact sd_cmp_history. Qed.
Print Assumptions C61_compare.
(** Comparison with another type raises; an order comparison returns a value with
    an exception set. *)
Theorem C61_compare_refuted : forall d op,
  sd_cmp d None op = Ok (Raise TypeErr) /\
  (op <> OpEq -> op <> OpNe -> forall e, sd_cmp d (Some e) op = Ok (RetSet false)).
Proof. intros d op. split; [reflexivity|]. intros H1 H2 e. destruct op; try congruence; reflexivity. Qed.
Print Assumptions C61_compare_refuted.
(** str(d): the items in the order of items(), each with a separator after it. *)
Theorem C61_text : forall d, (forall ps, sd_items d = Ok (Ret ps) ->
    sd_str d = Ok (S_ "{" ++ concat (map (fun p => fst p ++ S_ " = '" ++ snd p ++ S_ "', ") ps) ++ S_ "}")) /\
  (sd_items d = UB -> sd_str d = UB).
Proof.
  intros d. unfold sd_items, sd_str. destruct (rt_pairs d) as [qs| |]; cbn [bind]; [|split; [discriminate|reflexivity]|split; discriminate].
  destruct (forallb pair_ok qs); [|split; [discriminate|reflexivity]]. split; [|discriminate]. intros ps [= <-].
  assert (E : forall l, flat_map (fun p : str * ostr => entry_text (fst p, str_tostr (snd p)) (S_ ", ")) l =
     concat (map (fun p => fst p ++ S_ " = '" ++ snd p ++ S_ "', ") (map (fun p => (fst p, str_tostr (snd p))) l))).
  { induction l as [|[k v] l IH]; [reflexivity|]. cbn [flat_map map concat]. rewrite IH. reflexivity. }
  now rewrite E.
Qed.
Print Assumptions C61_text.
Example C61_case :
  let o1 := [put "pt" "y"; put "de" "1"] in let o2 := [put "pt_BR" "x"; put "de" "2"] in
  fits (bindings [] o1) (bindings [] o2) /\ no_late_prefix (bindings [] o1) /\ no_late_prefix (bindings [] o2) /\
  (exists d e d' r1 r2, sd_run sd_new o1 = Ok (d, r1) /\ sd_run sd_new o2 = Ok (e, r2) /\ sd_update d (Some e) = Ok (d', Ret tt) /\
     sd_items d' = Ok (Ret [(S_ "de", S_ "2"); (S_ "pt", S_ "y"); (S_ "pt_BR", S_ "x")]) /\
     sd_cmp d (Some e) OpEq = Ok (Ret false) /\ sd_str e = Ok (S_ "{de = '2', pt_BR = 'x', }")).
Proof.
  cbv zeta. split; [|split; [|split]].
  - intros k s Hk Hs Hp. vm_compute in Hk, Hs. destruct Hk as [<-|[<-|[]]], Hs as [<-|[<-|[]]];
      destruct Hp as (c & r & E); vm_compute in E; discriminate E.
  - apply no_late_prefix_b. vm_compute. reflexivity.
  - apply no_late_prefix_b. vm_compute. reflexivity.
  - do 5 eexists. split; [vm_compute; reflexivity|]. split; [vm_compute; reflexivity|]. split; [vm_compute; reflexivity|]. vm_compute. repeat split.
Qed.

(** * C62: assignments to an MDict *)
(** In every state: d[k] = v is undefined if [k] is the only key that extends some
    key; otherwise d[k] reads back what was assigned, no other key loses or gains
    a value, no key disappears. *)
Theorem C62_assign_partial : forall d s v vs, pmreach d -> cut s <> [] -> given v = Some vs ->
  (pm_set d (PyText s) v = UB /\ sole_extension d s) \/
  (~ sole_extension d s /\ exists d' r, pm_set d (PyText s) v = Ok (d', r) /\ pmreach d' /\
     pm_get d' (PyText s) = Ok (Ret vs) /\
     (forall s', cut s' <> cut s -> texts d' s' = texts d s') /\
     (forall s', has d s' -> has d' s') /\
     pm_len d' = (pm_len d - Z.of_nat (count_at d s) + Z.of_nat (Nat.max 1 (length vs)))%Z).
Proof. exact pm_assign. Qed.
Print Assumptions C62_assign_partial.
Theorem C62_texts_partial : forall d s ls, pmreach d -> cut s <> [] -> ~ sole_extension d s ->
  exists d', pm_set d (PyText s) (MList (map PyText ls)) = Ok (d', Ret tt) /\
    pm_get d' (PyText s) = Ok (Ret (map (fun x => MV (Some (cut x))) ls)).
Proof. exact pm_assign_result. Qed.
Print Assumptions C62_texts_partial.
Theorem C62_refused : forall d k v,
  (forall s, k <> PyText s) \/ v = MOther \/ (exists l, v = MList l /\ exists x, In x l /\ str_in x = None) ->
  exists r, pm_set d k v = Ok (d, r) /\ r <> Ret tt.
Proof.
  intros d k v [H|[H|(l & -> & H)]]; apply pm_refused; [auto|auto|]. right. right. exists l. split; [reflexivity|]. now apply strlist_none.
Qed.
Print Assumptions C62_refused.
Local Open Scope string_scope. Local Open Scope list_scope.
Definition asg (k : string) (l : list string) (a : res mdict) : res mdict :=
  d <- a ;; r <- pm_set d (T k) (MList (map T l)) ;; Ok (fst r).
Lemma asg_reach k l a d : (forall d0, a = Ok d0 -> pmreach d0) -> asg k l a = Ok d -> pmreach d.
Proof.
  intros H E. unfold asg in E. apply bind_ok in E. destruct E as (d0 & Ea & E). apply bind_ok in E. destruct E as ([d1 r] & E1 & E).
  cbn [fst] in E. assert (d1 = d) by congruence. subst d1. exact (PM_set _ _ _ _ _ (H _ Ea) E1).
Qed.
Lemma new_reach d : Ok pm_new = Ok d -> pmreach d.
Proof. intros E. inversion E. constructor. Qed.

Lemma reach1 k1 l1 d : asg k1 l1 (Ok pm_new) = Ok d -> pmreach d.
Proof. apply asg_reach. intros d0. apply new_reach. Qed.
Lemma reach2 k1 l1 k2 l2 d : asg k2 l2 (asg k1 l1 (Ok pm_new)) = Ok d -> pmreach d.
Proof. apply asg_reach. intros d0. apply reach1. Qed.
Lemma reach3 k1 l1 k2 l2 k3 l3 d : asg k3 l3 (asg k2 l2 (asg k1 l1 (Ok pm_new))) = Ok d -> pmreach d.
Proof. apply asg_reach. intros d0. apply reach2. Qed.
Example C62_case : exists d, asg "a" ["x"; "y"] (asg "b" ["z"] (asg "a" ["w"] (Ok pm_new))) = Ok d /\ pmreach d /\ ~ sole_extension d (S_ "a") /\
  pm_get d (T "a") = Ok (Ret [MV (Some (S_ "x")); MV (Some (S_ "y"))]) /\ pm_len d = 3%Z /\
  pm_str d = Ok (S_ "{b = '[z]', a = '[x, y]'}").
Proof.
  eexists. split; [vm_compute; reflexivity|]. split; [eapply reach3 with (k1 := "a"%string) (k2 := "b"%string) (k3 := "a"%string) (l1 := ["w"%string]) (l2 := ["z"%string]) (l3 := ["x"%string; "y"%string]); vm_compute; reflexivity|].
  split; [|vm_compute; repeat split].
  intros (p & (l & Hl) & _ & Hp & _). destruct Hp as (c & r & E). destruct p as [|c0 p]; [vm_compute in Hl; discriminate|].
  vm_compute in E. inversion E as [[E1 E2]]. symmetry in E2. apply app_eq_nil in E2. destruct E2. discriminate.
Qed.
(** Reading back what was stored can differ once another key branches off; and the
    replacement of a key's values is undefined in a state two assignments away. *)
Theorem C62_assign_refuted :
  (exists d1 d2, asg "abc" ["x"] (Ok pm_new) = Ok d1 /\ asg "abd" ["y"] (Ok d1) = Ok d2 /\
     pm_get d1 (T "abc") = Ok (Ret [MV (Some (S_ "x"))]) /\
     pm_get d2 (T "abc") = Ok (Ret [MNest [MV (Some (S_ "x"))]]) /\
     pm_str d2 = Ok (S_ "{ab = '[]', abc = '[[x]]', abd = '[y]'}")) /\
  asg "ab" ["z"] (asg "ab" ["y"] (asg "a" ["x"] (Ok pm_new))) = UB.
Proof. split; [|vm_compute; reflexivity]. do 2 eexists. split; [vm_compute; reflexivity|]. split; [vm_compute; reflexivity|]. vm_compute. repeat split. Qed.
Print Assumptions C62_assign_refuted.

(** * C63: deletions, assignments of a value read, updates and comparison of MDicts *)
Theorem C63_delete_partial : forall d s, pmreach d -> cut s <> [] ->
  (pm_set d (PyText s) MDel = UB /\ sole_extension d s) \/
  (~ sole_extension d s /\ exists d', pm_set d (PyText s) MDel = Ok (d', Ret tt) /\ pmreach d' /\
     (forall s', cut s' <> cut s -> pm_get d' (PyText s') = pm_get d (PyText s')) /\
     (has d s -> extended d s -> pm_get d' (PyText s) = Ok (Ret [])) /\
     (~ (has d s /\ extended d s) -> pm_get d' (PyText s) = Ok (Raise KeyError)) /\
     pm_len d' = (pm_len d - Z.of_nat (count_at d s))%Z).
Proof. exact pm_delete. Qed.
Print Assumptions C63_delete_partial.
Theorem C63_self_assign_partial : forall d s l, pmreach d -> cut s <> [] -> pm_get d (PyText s) = Ok (Ret l) ->
  (pm_set d (PyText s) MOwn = UB /\ sole_extension d s) \/
  (~ sole_extension d s /\ exists d', pm_set d (PyText s) MOwn = Ok (d', Ret tt) /\
     (extended d s -> pm_get d' (PyText s) = Ok (Ret [])) /\
     (~ extended d s -> pm_get d' (PyText s) = Ok (Ret l))).
Proof. exact pm_self. Qed.
Print Assumptions C63_self_assign_partial.
Theorem C63_update_appends : forall d e, pmreach d -> pmreach e ->
  exists d', pm_update d (Some e) = Ok (d', Ret tt) /\ pmreach d' /\ forall s, texts d' s = texts d s ++ texts e s.
Proof. exact pm_update_texts. Qed.
Print Assumptions C63_update_appends.
Theorem C63_compare_keys_partial : forall d e, pmreach d -> pmreach e ->
  exists b, pm_cmp d (Some e) OpEq = Ok (Ret b) /\ pm_cmp d (Some e) OpNe = Ok (Ret (negb b)) /\
    (b = true <-> forall k, listed d k <-> listed e k).
Proof. exact pm_cmp_keys. Qed.
Print Assumptions C63_compare_keys_partial.
Theorem C63_refuted :
  (* a deleted key is still there *)
  (exists d d', asg "abc" ["z"] (asg "ab" ["y"] (asg "a" ["x"] (Ok pm_new))) = Ok d /\ pm_set d (T "a") MDel = Ok (d', Ret tt) /\
     pm_has_key d' (T "a") = Ok (Ret true)) /\
  (* d["a"] = d["a"] empties the key *)
  (exists d d', asg "ac" ["z"] (asg "ab" ["y"] (asg "a" ["x"] (Ok pm_new))) = Ok d /\ pm_get d (T "a") = Ok (Ret [MV (Some (S_ "x"))]) /\
     pm_set d (T "a") MOwn = Ok (d', Ret tt) /\ pm_get d' (T "a") = Ok (Ret [])) /\
  (* update does not overwrite *)
  (exists d e d', asg "a" ["x"] (Ok pm_new) = Ok d /\ asg "a" ["y"] (Ok pm_new) = Ok e /\ pm_update d (Some e) = Ok (d', Ret tt) /\
     pm_get d' (T "a") = Ok (Ret [MV (Some (S_ "x")); MV (Some (S_ "y"))])) /\
  (* different values compare equal *)
  (exists d e, asg "a" ["x"] (Ok pm_new) = Ok d /\ asg "a" ["y"] (Ok pm_new) = Ok e /\ pm_cmp d (Some e) OpEq = Ok (Ret true)) /\
  (* update with itself goes on for ever on any list that is not empty *)
  (forall n (l : list (mval ostr)), l <> [] -> exists st, self_turns n (l, 0) = Some st).
Proof.
  split; [|split; [|split; [|split]]].
  - do 2 eexists. split; [vm_compute; reflexivity|]. split; vm_compute; reflexivity.
  - do 2 eexists. split; [vm_compute; reflexivity|]. split; [vm_compute; reflexivity|]. split; vm_compute; reflexivity.
  - do 3 eexists. split; [vm_compute; reflexivity|]. split; [vm_compute; reflexivity|]. split; vm_compute; reflexivity.
  - do 2 eexists. split; [vm_compute; reflexivity|]. split; vm_compute; reflexivity.
  - intros n l Hl. apply self_forever. destruct l; [congruence|cbn; lia].
Qed.
Print Assumptions C63_refuted.
Example C63_case : exists d, asg "b" ["z"] (asg "ab" ["y"] (asg "a" ["x"] (Ok pm_new))) = Ok d /\
  extended d (S_ "a") /\ has d (S_ "a") /\ sole_extension d (S_ "ab") /\ pm_set d (T "ab") MDel = UB.
Proof.
  eexists. split; [vm_compute; reflexivity|]. split; [|split; [|split]].
  - exists (S_ "ab"). split; [now exists "b"%char, []|]. eexists. vm_compute. reflexivity.
  - vm_compute. reflexivity.
  - exists (S_ "a"). split; [eexists; vm_compute; reflexivity|]. split; [eexists; vm_compute; reflexivity|].
    split; [now exists "b"%char, []|]. intros s (l & Hl) (c & r & ->). cbn in Hl.
    destruct r as [|c2 r]; [|exfalso; destruct (Ascii.eqb_spec "b" c) as [<-|Hn]; cbn in Hl].
    + destruct (Ascii.eqb_spec "b" c) as [<-|Hn]; [reflexivity|]. cbn in Hl. destruct c as [[] [] [] [] [] [] [] []]; cbn in Hl; try discriminate Hl. exfalso. apply Hn. reflexivity.
    + cbn in Hl. discriminate Hl.
    + destruct c as [[] [] [] [] [] [] [] []]; cbn in Hl; discriminate Hl.
  - vm_compute. reflexivity.
Qed.

(** * C64: the other calls of an MDict, and the texts of both *)
Theorem C64_lists_partial : forall d, pmreach d ->
  exists ps, NoDup (map fst ps) /\ (forall k l, In (k, l) ps <-> mt_get d k = Ok (Some l)) /\
    mt_pairs d = Ok ps /\
    pm_keys d = Ok (to_pys (map fst ps)) /\
    pm_items d = (if forallb utf8 (map fst ps) then Ok (Ret ps) else UB) /\
    pm_values d = match ps with [] => Ok (Ret []) | _ => UB end.
Proof. exact pm_lists. Qed.
Print Assumptions C64_lists_partial.
Theorem C64_text : forall d ps, mt_pairs d = Ok ps ->
  pm_str d = match ps with
             | [] => UB
             | _ => if forallb readable ps
                    then Ok (S_ "{" ++ join (S_ ", ") (map (fun p => fst p ++ S_ " = '" ++ seq_shown (snd p) ++ S_ "'") ps) ++ S_ "}")
                    else UB
             end.
Proof. exact pm_str_text. Qed.
Print Assumptions C64_text.
(** str of an MDict is undefined exactly if it is empty or holds text that is not
    UTF-8. *)
Theorem C64_text_defined : forall d, pmreach d ->
  (pm_str d = UB <-> (forall k, ~ listed d k) \/ exists k l, mt_get d k = Ok (Some l) /\ utf8 k && utf8 (seq_shown l) = false).
Proof.
  intros d Hr. destruct (pm_lists d Hr) as (ps & _ & H & E & _). rewrite (pm_str_text d ps E). pose proof (no_pairs d Hr) as Hn. rewrite E in Hn.
  destruct ps as [|p ps].
  - split; [|reflexivity]. intros _. left. now apply Hn.
  - destruct (forallb readable (p :: ps)) eqn:Ef.
    + split; [discriminate|]. intros [Hl|(k & l & Hl & Hu)]; [apply Hn in Hl; discriminate|].
      apply H in Hl. rewrite forallb_forall in Ef. specialize (Ef _ Hl). unfold readable in Ef. cbn [fst snd] in Ef. congruence.
    + split; [|reflexivity]. intros _. right.
      assert (Hx : exists q, In q (p :: ps) /\ readable q = false).
      { clear - Ef. induction (p :: ps) as [|q l IH]; [discriminate|]. cbn [forallb] in Ef. destruct (readable q) eqn:Eq.
        - destruct (IH Ef) as (x & Hx & Ex). exists x. split; [now right|exact Ex].
        - exists q. split; [now left|exact Eq]. }
      destruct Hx as ([k l] & Hin & Hu). exists k, l. split; [now apply H|exact Hu].
Qed.
Print Assumptions C64_text_defined.
Theorem C64_copy_clear_refuted : forall d, pmreach d ->
  ((exists k, listed d k) -> pm_copy d = UB /\ pm_clear d = UB) /\
  ((forall k, ~ listed d k) -> pm_clear d = Ok d /\ exists d', pm_copy d = Ok d' /\ (forall k, ~ listed d' k) /\ pm_len d' = pm_len d).
Proof. exact pm_copy_clear. Qed.
Print Assumptions C64_copy_clear_refuted.
(** The length is neither the number of keys nor that of values. *)
Theorem C64_len_refuted :
  (exists d, asg "a" ["x"; "y"] (Ok pm_new) = Ok d /\ pm_keys d = Ok (Ret [S_ "a"]) /\ pm_len d = 2%Z) /\
  (exists d, asg "a" [] (asg "a" [] (Ok pm_new)) = Ok d /\ pm_items d = Ok (Ret [(S_ "a", [])]) /\ pm_len d = 2%Z) /\
  (exists d d', asg "abd" ["w"] (asg "abc" ["x"; "y"; "z"] (Ok pm_new)) = Ok d /\ pm_set d (T "abc") MDel = Ok (d', Ret tt) /\
     pm_items d' = Ok (Ret [(S_ "ab", []); (S_ "abd", [MV (Some (S_ "w"))])]) /\ pm_len d' = 3%Z).
Proof.
  split; [|split].
  - eexists. split; [vm_compute; reflexivity|]. split; vm_compute; reflexivity.
  - eexists. split; [vm_compute; reflexivity|]. split; vm_compute; reflexivity.
  - do 2 eexists. split; [vm_compute; reflexivity|]. split; [vm_compute; reflexivity|]. split; vm_compute; reflexivity.
Qed.
Print Assumptions C64_len_refuted.
(** d.get(k) raises, where its documentation promises None. *)
Theorem C64_get_refuted : forall d s, pmreach d -> ~ has d s -> pm_get d (PyText s) = Ok (Raise KeyError).
Proof.
  intros d s _ H. rewrite get_mlook. rewrite has_mlook in H. destruct (MRTreeFacts.mlook d (cut s)); [|reflexivity]. exfalso. apply H. discriminate.
Qed.
Print Assumptions C64_get_refuted.
Example C64_case : pm_str pm_new = UB /\ exists d, asg "b" [] (asg "a" ["x"; "y"] (Ok pm_new)) = Ok d /\ pm_str d = Ok (S_ "{a = '[x, y]', b = '[]'}") /\
  pm_keys d = Ok (Ret [S_ "a"; S_ "b"]) /\ pm_values d = UB /\ pm_copy d = UB.
Proof. split; [vm_compute; reflexivity|]. eexists. split; [vm_compute; reflexivity|]. vm_compute. repeat split. Qed.
