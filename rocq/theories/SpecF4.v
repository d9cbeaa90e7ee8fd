(** Result codes, clean files, parsers that are used again. *)
From Coq Require Import NArith Nnat.
From Verif Require Import CStr CStrFacts HSListModel HSListFacts RTreeModel RTreeFacts RTreeFacts2 RTreeFacts3 RTreeFacts4
  MRTreeModel MRTreeFacts MRTreeFacts2 ObjModel ObjFacts2 Dec StrModel DocModel DocFacts2 SpecA SpecC ParseModel ParseFacts SpecF SpecF2 SpecF3.

(** ** Result codes *)
Lemma step_fatal strict st e st1 : step strict st e = Ok st1 -> ps_fatal st1 = ps_fatal st.
Proof.
  destruct e as [n a|n|s|n s p]; cbn [step]; intros E.
  - unfold start_handler in E. apply bind_ok in E. destruct E as (dict & _ & E). apply bind_ok in E. destruct E as (es & _ & E).
    destruct (el_valid _).
    + apply bind_ok in E. destruct E as (d & _ & E). inversion E. destruct (ps_text st); reflexivity.
    + inversion E. fields. destruct (ps_text st); reflexivity.
  - unfold end_handler in E. apply bind_ok in E. destruct E as (tmp & _ & E). fields. destruct (ps_stack st) as [|el anc]; [discriminate|].
    destruct (etype_eqb _ _); [|inversion E; reflexivity].
    apply bind_ok in E. destruct E as ([[d es] tmp'] & _ & E). inversion E. reflexivity.
  - inversion E. unfold chars_handler. destruct (forallb is_space s); reflexivity.
  - inversion E. reflexivity.
Qed.
Lemma run_fatal strict es : forall st st1, run strict st es = Ok st1 -> ps_fatal st1 = ps_fatal st.
Proof.
  induction es as [|e es IH]; intros st st1 E; cbn [run] in E; [inversion E; reflexivity|].
  apply bind_ok in E. destruct E as (s & E1 & E). rewrite (IH _ _ E). exact (step_fatal strict _ _ _ E1).
Qed.
Definition failing (fs : list feed) : Prop := exists es m, In (es, Some m) fs.
Lemma feeds_fatal strict fs : forall st st1, run_feeds strict st fs = Ok st1 -> (ps_fatal st1 = true <-> ps_fatal st = true \/ failing fs).
Proof.
  induction fs as [|[es er] fs IH]; intros st st1 E; cbn [run_feeds] in E.
  - inversion E; subst. split; [auto|]. intros [H|(x & m & [])]. exact H.
  - apply bind_ok in E. destruct E as (s & E1 & E). apply run_fatal in E1. rewrite (IH _ _ E). unfold failing. cbn [In]. destruct er as [m|].
    + cbn [with_fatal ps_fatal]. split; [|auto]. intros _. right. exists es, m. now left.
    + rewrite E1. split.
      * intros [H|(x & m & H)]; [auto|right; exists x, m; auto].
      * intros [H|(x & m & [H|H])]; [auto|discriminate|right; exists x, m; auto].
Qed.
Lemma feeds_log strict fs : forall st st1, run_feeds strict st fs = Ok st1 -> exists l, ps_log st1 = ps_log st ++ l /\ (failing fs -> l <> []).
Proof.
  induction fs as [|[es er] fs IH]; intros st st1 E; cbn [run_feeds] in E.
  - inversion E; subst. exists []. rewrite app_nil_r. split; [reflexivity|]. intros (x & m & []).
  - apply bind_ok in E. destruct E as (s & E1 & E). destruct (run_log strict _ _ _ E1) as (l1 & L1). destruct (IH _ _ E) as (l2 & L2 & H2).
    destruct er as [m|]; cbn [with_fatal logged ps_log] in L2; rewrite L2, L1, <- !app_assoc; eexists; (split; [reflexivity|]).
    + intros _. destruct l1; discriminate.
    + intros (x & m & [H|H]); [discriminate|]. assert (Hn : l2 <> []) by (apply H2; exists x, m; exact H). destruct l1; [exact Hn|discriminate].
Qed.
Lemma after_parse_same st st1 : after_parse st = Ok st1 ->
  ps_fatal st1 = ps_fatal st /\ ps_log st1 = ps_log st /\ ps_stack st1 = ps_stack st /\ ps_text st1 = ps_text st /\ ps_len st1 = ps_len st.
Proof.
  unfold after_parse. destruct (ps_doctype st) as [[[n s] p]|]; [destruct (ps_doc st) as [| |d]|]; intros E; inversion E; subst; cbn; auto.
Qed.
Lemma code_cases st : (parse_code st = -1 <-> ps_fatal st = true)%Z /\ (parse_code st = 0 <-> ps_fatal st = false /\ ps_log st = [])%Z /\
  (parse_code st = 1 <-> ps_fatal st = false /\ ps_log st <> [])%Z.
Proof.
  unfold parse_code. destruct (ps_fatal st), (ps_log st); (split; [|split]); (split; [intros H|intros H]); try lia; try (destruct H; congruence); auto; try discriminate;
   try (split; [reflexivity|discriminate]).
Qed.
Lemma file_code strict st f o st1 c : parse_file strict st f o = Ok (st1, c) ->
  (c = -1 <-> (f = None \/ exists fs, f = Some fs /\ failing fs))%Z /\
  (c = 0 <-> exists fs, f = Some fs /\ ~ failing fs /\ ps_log st1 = [])%Z /\
  (c = 1 <-> exists fs, f = Some fs /\ ~ failing fs /\ ps_log st1 <> [])%Z.
Proof.
  intros E. unfold parse_file in E. destruct f as [fs|].
  2: { inversion E; subst. split; [split; auto|]. split; (split; [discriminate|intros (fs & H & _); discriminate]). }
  apply bind_ok in E. destruct E as (s1 & Er & E). apply bind_ok in E. destruct E as (s2 & E2 & E). apply bind_ok in E. destruct E as (s3 & E3 & E).
  inversion E; subst st1 c. clear E.
  assert (F1 : ps_fatal s1 = false) by (unfold reinit in Er; destruct (ps_doc st); inversion Er; reflexivity).
  destruct (after_parse_same _ _ E3) as (A1 & A2 & _). assert (F2 := feeds_fatal strict _ _ _ E2). cbn [with_opts ps_fatal] in F2. rewrite F1 in F2.
  destruct (code_cases s3) as (C1 & C2 & C3). rewrite C1, C2, C3, A1.
  assert (Fb : ps_fatal s2 = false <-> ~ failing fs).
  { destruct (ps_fatal s2) eqn:Ef; split; try congruence; try tauto.
    - intros H. exfalso. destruct F2 as [F2 _]. destruct (F2 eq_refl); [discriminate|contradiction].
    - intros _ H. destruct F2 as [_ F2]. discriminate (F2 (or_intror H)). }
  split; [|split].
  - rewrite F2. split; [intros [H|H]; [discriminate|right; eauto]|intros [H|(fs' & H1 & H2)]; [discriminate|right; congruence]].
  - rewrite Fb. split; [intros [H1 H2]; eauto|intros (fs' & H1 & H2 & H3); inversion H1; subst; auto].
  - rewrite Fb. split; [intros [H1 H2]; eauto|intros (fs' & H1 & H2 & H3); inversion H1; subst; auto].
Qed.
Lemma str_code strict st f o st1 c : parse_str strict st f o = Ok (st1, c) -> exists l, ps_log st1 = ps_log st ++ l /\
  (c = -1 <-> (ps_fatal st = true \/ snd f <> None))%Z /\
  (c = 0 <-> ps_fatal st = false /\ snd f = None /\ ps_log st = [] /\ l = [])%Z.
Proof.
  intros E. unfold parse_str in E. apply bind_ok in E. destruct E as (s2 & E2 & E). apply bind_ok in E. destruct E as (s3 & E3 & E).
  inversion E; subst st1 c. clear E. destruct (after_parse_same _ _ E3) as (A1 & A2 & _). assert (F2 := feeds_fatal strict _ _ _ E2).
  destruct (feeds_log strict _ _ _ E2) as (l & L & Hl). cbn [with_opts ps_fatal ps_log] in *. exists l. rewrite A2. split; [exact L|].
  destruct (code_cases s3) as (C1 & C2 & _). rewrite C1, C2, A1, A2.
  assert (Hf : failing [f] <-> snd f <> None).
  { unfold failing. destruct f as [es [m|]]; cbn [snd In]; split; try congruence; eauto.
    intros (x & y & [H|[]]). discriminate. }
  rewrite Hf in *. split; [exact F2|].
  destruct (ps_fatal s2) eqn:Ef.
  - split; [intros [H _]; discriminate|]. intros (H1 & H2 & _). destruct F2 as [F2 _]. destruct (F2 eq_refl); congruence.
  - split.
    + intros [_ H]. destruct (ps_fatal st); [destruct F2 as [_ F2]; discriminate F2; now left|].
      destruct (snd f); [destruct F2 as [_ F2]; discriminate F2; right; discriminate|]. rewrite L in H. apply app_eq_nil in H. tauto.
    + intros (_ & _ & H1 & H2). split; [reflexivity|]. now rewrite L, H1, H2.
Qed.

(** ** Clean files *)
Definition attr_table : list (string * list string) :=
  [ ("group", ["arch"]); ("category", ["arch"]); ("environment", ["arch"]);
    ("name", ["xml:lang"]); ("description", ["xml:lang"]);
    ("packagereq", ["requires"; "type"; "basearchonly"; "arch"]);
    ("groupid", ["default"; "arch"]);
    ("match", ["name"; "install"]); ("package", ["name"; "arch"]);
    ("ignoredep", ["requires"; "package"]) ]%string.
Definition may_have (n k : str) : Prop := exists row, In row attr_table /\ n = S_ (fst row) /\ exists q, In q (snd row) /\ k = S_ q.
Lemma may_haveb n k : existsb (fun row => streq n (S_ (fst row)) && existsb (fun q => streq k (S_ q)) (snd row)) attr_table = true -> may_have n k.
Proof.
  intros H. apply existsb_exists in H. destruct H as (row & Hin & H). apply andb_true_iff in H. destruct H as [H1 H2].
  apply existsb_exists in H2. destruct H2 as (q & Hq & H2). exists row. split; [exact Hin|]. split; [now apply streq_iff|].
  exists q. split; [exact Hq|now apply streq_iff].
Qed.
Lemma attributes_table n k : In k (attributes (get_type n)) -> may_have n k.
Proof.
  intros H. remember (get_type n) as t eqn:Et. symmetry in Et.
  destruct (etype_eqb t TUnknown) eqn:Eu; [apply etype_eqb_iff in Eu; rewrite Eu in H; cbn in H; contradiction|].
  assert (Hn : n = tname t) by (apply get_type_inv; [exact Et|intros ->; discriminate]). subst n. clear Et Eu.
  apply may_haveb.
  destruct t; cbn [attributes In] in H; try contradiction;
    repeat match goal with H : _ \/ _ |- _ => destruct H as [H|H] | H : False |- _ => contradiction end; subst k; reflexivity.
Qed.
Lemma drop_key_keep k x l : In x l -> x <> k -> In x (drop_key k l).
Proof.
  induction l as [|y l IH]; cbn [drop_key In]; [auto|]. intros [->|H] Hn.
  - rewrite (streq_neq _ _ Hn). now left.
  - destruct (streq y k); [exact H|]. right. auto.
Qed.
Lemma drop_all at_ x : forall l, In x l -> fold_left (fun l k => drop_key k l) at_ l = [] -> In x at_.
Proof.
  induction at_ as [|k at_ IH]; cbn [fold_left In]; intros l H E; [rewrite E in H; destruct H|].
  destruct (streq x k) eqn:Ex; [left; apply streq_iff in Ex; congruence|]. right. apply (IH (drop_key k l)); [|exact E].
  apply drop_key_keep; [exact H|]. intros ->. rewrite streq_refl in Ex. discriminate.
Qed.
Lemma latest_some (a : list (str * str)) k v : In (k, v) a -> latest a k <> None.
Proof.
  intros H. unfold latest. destruct (find (fun p => streq k (fst p)) (rev a)) as [p|] eqn:E; [discriminate|].
  apply in_rev in H. apply (find_none _ _ E) in H. cbn in H. now rewrite streq_refl in H.
Qed.
(** The events before an event of a clean file found nothing to complain about. *)
Lemma known_attrs a dict t : nonempty_keys a -> no_late_prefix a -> attrs_dict rt_create a = Ok dict -> check_attributes false t dict = Ok [] ->
  forall k v, In (k, v) a -> In k (attributes t).
Proof.
  intros Hne Hl Ed Ec k v Hin. unfold check_attributes in Ec. cbn [andb] in Ec. unfold rt_keys in Ec. rewrite rt_pairs_ents in Ec. cbn in Ec.
  injection Ec as Ec. apply map_eq_nil in Ec. apply (drop_all _ k _) in Ec; [exact Ec|].
  assert (Hg := attrs_dict_latest a dict Hne Hl Ed k). rewrite rt_get_look in Hg. injection Hg as Hg.
  destruct (latest a k) as [x|] eqn:Ex; [|elim (latest_some a k v Hin Ex)].
  assert (Hw : wft dict). { destruct (attrs_dict_ok a rt_create wft_create) as (d' & E' & Hw). congruence. }
  apply in_map_iff. exists (k, x). split; [reflexivity|]. apply ents_look; [apply Hw|exact Hg].
Qed.
Lemma clean_start o t st n a st1 : sim o t st -> step false st (EStart n a) = Ok st1 -> ps_log st1 = ps_log st ->
  legit (n :: map fst o) /\ t = [] /\ (nonempty_keys a -> no_late_prefix a -> forall k v, In (k, v) a -> may_have n k).
Proof.
  intros (Hs & Ht & Ec) E El. cbn [step] in E. unfold start_handler in E.
  apply bind_ok in E. destruct E as (dict & Ed & E). apply bind_ok in E. destruct E as (es & Ee & E).
  rewrite (elem_valid_legit o _ n Hs) in E. cbn [el_valid] in E.
  assert (Hlen : forall l1 l2 : list pentry, l1 ++ l2 = l1 -> l2 = []).
  { intros l1 l2 H. rewrite <- (app_nil_r l1) in H at 2. now apply app_inv_head in H. }
  destruct (legitb (n :: map fst o)) eqn:Ev.
  - apply bind_ok in E. destruct E as (d & _ & E). inversion E; subst st1. clear E.
    split; [now apply legitb_iff|]. destruct (ps_text st) as [|x r] eqn:Ex; fields.
    + apply Hlen in El. subst es. split; [now subst t|]. intros H1 H2 k v Hin. apply attributes_table. exact (known_attrs a dict _ H1 H2 Ed Ee k v Hin).
    + rewrite <- app_assoc in El. apply Hlen in El. discriminate.
  - exfalso. fields. inversion E; subst st1. clear E. destruct (ps_text st) as [|x r] eqn:Ex; fields; rewrite <- !app_assoc in El; apply Hlen in El; discriminate.
Qed.
Definition containers : list string :=
  ["comps"; "group"; "category"; "environment"; "packagelist"; "grouplist"; "optionlist"; "langpacks"; "match"; "blacklist"; "package"; "whiteout"; "ignoredep"]%string.
Definition texts : list string := ["id"; "name"; "description"; "packagereq"]%string.
Lemma clean_end o t st n st1 a : sim ((n, a) :: o) t st -> legit (n :: map fst o) -> step false st (EEnd n) = Ok st1 -> ps_log st1 = ps_log st ->
  (In n (map S_ containers) -> t = []) /\ (In n (map S_ texts) -> t <> []).
Proof.
  intros (Hs & Ht & Ec) Hl E El. cbn [step] in E. unfold end_handler in E. rewrite (end_text st t Ht Ec) in E. cbn [bind] in E. fields.
  inversion Hs as [|n' a' o' el s' Hs' Et Ev Ea E4 E5]; subst n' a' o'. rewrite <- E5, <- Et, etype_eqb_refl in E.
  apply legitb_iff in Hl. rewrite Ev, Hl in E. apply bind_ok in E. destruct E as ([[d es] tmp'] & Ep & E). inversion E; subst st1. clear E. fields.
  assert (Hn : es = [] /\ tmp' = None).
  { rewrite <- (app_nil_r (ps_log st)) in El at 2. apply app_inv_head in El. apply app_eq_nil in El. destruct El as [H1 H2]. split; [exact H1|].
    destruct tmp'; [discriminate|reflexivity]. }
  destruct Hn as [-> ->]. clear El. unfold postproc in Ep. rewrite Et in Ep. split.
  - intros Hin. unfold containers in Hin. cbn [map In] in Hin.
    assert (Hd : forall d0 r, Ok (PLive d0, r, text_of t) = Ok (d, @nil pentry, @None str) -> t = []) by (intros d0 r H; destruct t; [reflexivity|discriminate]).
    assert (Hd2 : forall p r, Ok (p, r, text_of t) = Ok (d, @nil pentry, @None str) -> t = []) by (intros d0 r H; destruct t; [reflexivity|discriminate]).
    repeat match goal with H : _ \/ _ |- _ => destruct H as [H|H] | H : False |- _ => contradiction end; subst n;
    match type of Ep with context [get_type ?x] => let v := eval vm_compute in (get_type x) in change (get_type x) with v in Ep end; cbv iota beta in Ep;
    repeat match type of Ep with bind ?x ?f = Ok ?y => let z := fresh "z" in let Hz := fresh "Hz" in apply bind_ok in Ep; destruct Ep as (z & Hz & Ep) end;
    eauto.
  - intros Hin ->. unfold texts in Hin. cbn [map In] in Hin. cbn [text_of] in Ep.
    repeat match goal with H : _ \/ _ |- _ => destruct H as [H|H] | H : False |- _ => contradiction end; subst n;
    match type of Ep with context [get_type ?x] => let v := eval vm_compute in (get_type x) in change (get_type x) with v in Ep end; cbv iota beta in Ep;
    repeat match type of Ep with bind ?x ?f = Ok ?y => let z := fresh "z" in let Hz := fresh "Hz" in apply bind_ok in Ep; destruct Ep as (z & Hz & Ep) end.
    4: { discriminate. }
    all: inversion Ep as [[P1 P2]]; clear Ep;
      match goal with H : upd_base ?w _ _ = Ok ?z |- _ => destruct w; cbn [upd_base] in H; unfold upd_last_group, upd_last_cat, upd_last_env in H end;
      repeat match goal with H : bind ?x ?f = Ok ?y |- _ => let z := fresh "z" in let Hz := fresh "Hz" in apply bind_ok in H; destruct H as (z & Hz & H) end;
      repeat match goal with H : Ok _ = Ok _ |- _ => inversion H; clear H; subst end; cbn [fst snd] in *; discriminate.
Qed.
Lemma clean_run strict st es st' : run strict st es = Ok st' -> ps_log st' = ps_log st ->
  forall pre e post, es = pre ++ e :: post -> exists s s1, run strict st pre = Ok s /\ step strict s e = Ok s1 /\ ps_log s1 = ps_log s.
Proof.
  intros E El pre e post ->. rewrite run_app in E. apply bind_ok in E. destruct E as (s & E1 & E). cbn [run] in E.
  apply bind_ok in E. destruct E as (s1 & E2 & E3). exists s, s1. split; [exact E1|]. split; [exact E2|].
  destruct (run_log strict _ _ _ E1) as (l1 & L1). destruct (step_log strict _ _ _ E2) as (l2 & L2). destruct (run_log strict _ _ _ E3) as (l3 & L3).
  rewrite L3, L2, L1, <- !app_assoc in El. rewrite <- (app_nil_r (ps_log st)) in El at 2. apply app_inv_head in El.
  apply app_eq_nil in El. destruct El as [_ El]. apply app_eq_nil in El. destruct El as [-> _]. now rewrite app_nil_r in L2.
Qed.
Lemma feeds_run strict fs : forall st st', ~ failing fs -> run_feeds strict st fs = Ok st' -> run strict st (concat (map fst fs)) = Ok st'.
Proof.
  induction fs as [|[es er] fs IH]; intros st st' Hf E; cbn [run_feeds map fst concat] in *; [exact E|].
  apply bind_ok in E. destruct E as (s & E1 & E). rewrite run_app, E1. cbn [bind].
  destruct er as [m|]; [exfalso; apply Hf; exists es, m; now left|]. apply IH; [|exact E].
  intros (x & m & H). apply Hf. exists x, m. now right.
Qed.
Lemma clean_file st fs o st1 : tcons [] (ps_len st) -> parse_file false st (Some fs) o = Ok (st1, 0%Z) ->
  forall pre e post op t, concat (map fst fs) = pre ++ e :: post -> nested [] pre op -> pending [] pre t ->
  match e with
  | EStart n a => legit (n :: map fst op) /\ t = [] /\ (nonempty_keys a -> no_late_prefix a -> forall k v, In (k, v) a -> may_have n k)
  | EEnd n => forall a op', op = (n, a) :: op' -> legit (map fst op) -> (In n (map S_ containers) -> t = []) /\ (In n (map S_ texts) -> t <> [])
  | _ => True
  end.
Proof.
  intros Hlen E pre e post op t Ees Hn Hp. destruct (file_code _ _ _ _ _ _ E) as (_ & C0 & _). destruct C0 as [C0 _]. destruct (C0 eq_refl) as (fs' & Efs & Hnf & Hlog).
  injection Efs as <-. unfold parse_file in E. apply bind_ok in E. destruct E as (s1 & Er & E). apply bind_ok in E. destruct E as (s2 & E2 & E). apply bind_ok in E. destruct E as (s3 & E3 & E).
  inversion E; subst s3. clear E. destruct (after_parse_same _ _ E3) as (_ & A2 & _). apply (feeds_run false _ _ _ Hnf) in E2.
  set (s0 := with_opts s1 _) in *.
  assert (Hs0 : sim [] [] s0 /\ ps_log s0 = []).
  { unfold s0, reinit in *. destruct (ps_doc st); inversion Er; subst s1; (split; [|reflexivity]); (split; [constructor|]); fields; (split; [exact Hlen|reflexivity]). }
  destruct Hs0 as [Hs0 Hl0].
  destruct (clean_run false s0 _ s2 E2) with (pre := pre) (e := e) (post := post) as (s & s' & R1 & R2 & R3); [congruence|exact Ees|].
  assert (Hsim := run_sim2 false pre _ _ _ _ _ _ Hs0 Hn Hp R1).
  destruct e as [n a|n|x|n x p]; auto.
  - exact (clean_start _ _ _ _ _ _ Hsim R2 R3).
  - intros a op' -> Hl. exact (clean_end _ _ _ _ _ _ Hsim Hl R2 R3).
Qed.

(** ** Parsers used for several files *)
Lemma preproc_ptr o enc el anc p p' : preproc o enc el anc p = Ok p' -> p' = p \/ exists d, p' = PLive d.
Proof.
  unfold preproc. intros E. destruct (el_type el); try (inversion E; now left);
    repeat match type of E with bind ?x ?f = Ok ?y => let z := fresh "z" in let Hz := fresh "Hz" in apply bind_ok in E; destruct E as (z & Hz & E) end;
    inversion E; subst; right; eauto.
Qed.
Lemma postproc_ptr o el anc p tmp p' es tmp' : postproc o el anc p tmp = Ok (p', es, tmp') -> p' = p \/ exists d, p' = PLive d.
Proof.
  unfold postproc. intros E. destruct (el_type el); try (inversion E; now left);
    repeat match type of E with
    | bind ?x ?f = Ok ?y => let z := fresh "z" in let Hz := fresh "Hz" in apply bind_ok in E; destruct E as (z & Hz & E)
    | match ?x with Some _ => _ | None => _ end = Ok _ => destruct x end;
    inversion E; subst; right; eauto.
Qed.
Lemma step_ptr strict st e st1 : step strict st e = Ok st1 -> ps_doc st1 = ps_doc st \/ exists d, ps_doc st1 = PLive d.
Proof.
  destruct e as [n a|n|s|n s p]; cbn [step]; intros E.
  - unfold start_handler in E. apply bind_ok in E. destruct E as (dict & _ & E). apply bind_ok in E. destruct E as (es & _ & E).
    destruct (el_valid _).
    + apply bind_ok in E. destruct E as (d & Ed & E). inversion E; subst. cbn [with_doc ps_doc].
      replace (ps_doc st) with (ps_doc (logged (with_stack match ps_text st with [] => st | x :: _ => with_text (logged st [perr E_TEXT_BETWEEN [Some x]]) [] 0 end
         (mkElem (get_type n) (elem_valid (get_type n) (ps_stack st)) dict :: ps_stack match ps_text st with [] => st | x :: _ => with_text (logged st [perr E_TEXT_BETWEEN [Some x]]) [] 0 end)) es))
        by (destruct (ps_text st); reflexivity).
      exact (preproc_ptr _ _ _ _ _ _ Ed).
    + inversion E. fields. left. destruct (ps_text st); reflexivity.
  - unfold end_handler in E. apply bind_ok in E. destruct E as (tmp & _ & E). fields. destruct (ps_stack st) as [|el anc]; [discriminate|].
    destruct (etype_eqb _ _); [|inversion E; now left].
    apply bind_ok in E. destruct E as ([[d es] tmp'] & Ed & E). inversion E; subst. fields.
    destruct (el_valid el); [exact (postproc_ptr _ _ _ _ _ _ _ _ Ed)|inversion Ed; now left].
  - inversion E. unfold chars_handler. destruct (forallb is_space s); now left.
  - inversion E. now left.
Qed.
Lemma run_ptr strict es : forall st st1, run strict st es = Ok st1 -> ps_doc st1 = ps_doc st \/ exists d, ps_doc st1 = PLive d.
Proof.
  induction es as [|e es IH]; intros st st1 E; cbn [run] in E; [inversion E; now left|].
  apply bind_ok in E. destruct E as (s & E1 & E). destruct (step_ptr strict _ _ _ E1) as [H1|(d & H1)], (IH _ _ E) as [H2|H2]; rewrite ?H1 in *; auto.
  rewrite H2. eauto.
Qed.
Lemma comps_live strict st a st1 : step strict st (EStart (S_ "comps") a) = Ok st1 -> exists d, ps_doc st1 = PLive d.
Proof.
  intros E. cbn [step] in E. unfold start_handler in E. apply bind_ok in E. destruct E as (dict & _ & E). apply bind_ok in E. destruct E as (es & _ & E).
  change (get_type (S_ "comps")) with TDoc in E. cbn [elem_valid ancestors etype_eqb negb el_valid] in E.
  apply bind_ok in E. destruct E as (d & Ed & E). inversion E; subst. cbn [with_doc ps_doc]. unfold preproc in Ed. cbn [el_type] in Ed.
  apply bind_ok in Ed. destruct Ed as (d0 & _ & Ed). inversion Ed. eauto.
Qed.
Lemma run_live strict es st st1 a : In (EStart (S_ "comps") a) es -> run strict st es = Ok st1 -> exists d, ps_doc st1 = PLive d.
Proof.
  intros Hin E. apply in_split in Hin. destruct Hin as (l1 & l2 & ->). rewrite run_app in E. apply bind_ok in E. destruct E as (s & E1 & E).
  cbn [run] in E. apply bind_ok in E. destruct E as (s1 & E2 & E3). destruct (comps_live strict _ _ _ E2) as (d & Hd).
  destruct (run_ptr strict _ _ _ E3) as [H|H]; [rewrite H; eauto|exact H].
Qed.
Lemma fit_docs st : sim [] [] st -> plive (ps_doc st) -> fit [] [] st.
Proof. intros H1 H2. split; [exact H1|]. split; [exact I|]. split; [exact H2|exact I]. Qed.
Lemma fit_same o t st st' : ps_stack st' = ps_stack st -> ps_text st' = ps_text st -> ps_len st' = ps_len st -> ps_doc st' = ps_doc st -> fit o t st -> fit o t st'.
Proof. unfold fit, sim. intros -> -> -> ->. auto. Qed.
Lemma safe_app es1 : forall o t es2 o', safe o t (es1 ++ es2) o' -> exists o1 t1, safe o t es1 o1 /\ pending t es1 t1 /\ safe o1 t1 es2 o'.
Proof.
  induction es1 as [|e es1 IH]; intros o t es2 o' H; cbn [app] in H.
  - exists o, t. split; [constructor|]. split; [constructor|exact H].
  - inversion H as [|? ? ? o1 t1 ? ? Hn Hx Hs H']; subst. destruct (IH _ _ _ _ H') as (o2 & t2 & S1 & P1 & S2).
    exists o2, t2. split; [econstructor; eassumption|]. split; [econstructor; eassumption|exact S2].
Qed.
Lemma safe_nested es : forall o t o', safe o t es o' -> nested o es o'.
Proof. induction es as [|e es IH]; intros o t o' H; inversion H; subst; econstructor; eauto. Qed.
Lemma run_ok2 es o t o' t' st : fit o t st -> safe o t es o' -> pending t es t' -> exists st', run false st es = Ok st' /\ fit o' t' st'.
Proof.
  intros Hf Hs Hp. destruct (run_ok es _ _ _ _ Hf Hs) as (st' & t2 & E & Hf'). exists st'. split; [exact E|].
  assert (Hsim := run_sim2 false es _ _ _ _ _ _ (proj1 Hf) (safe_nested _ _ _ _ Hs) Hp E).
  split; [exact Hsim|exact (proj2 Hf')].
Qed.
Lemma text1_fun t e t1 t2 : text1 t e t1 -> text1 t e t2 -> t1 = t2.
Proof. intros A B. inversion A; subst; inversion B; subst; auto; contradiction. Qed.
Lemma pending_app es1 : forall t es2 t1 t', pending t es1 t1 -> pending t (es1 ++ es2) t' -> pending t1 es2 t'.
Proof.
  induction es1 as [|e es1 IH]; intros t es2 t1 t' P1 Hp; cbn [app] in Hp; inversion P1 as [|? ? x1 ? ? T1 Q1]; subst; [exact Hp|].
  inversion Hp as [|? ? x2 ? ? T2 Q2]; subst. rewrite (text1_fun _ _ _ _ T2 T1) in Q2. exact (IH _ _ _ _ Q1 Q2).
Qed.
Lemma feeds_ok fs : forall o t o' t' st, fit o t st -> safe o t (concat (map fst fs)) o' -> pending t (concat (map fst fs)) t' ->
  exists st', run_feeds false st fs = Ok st' /\ fit o' t' st' /\
    (ps_doc st' = ps_doc st \/ exists d, ps_doc st' = PLive d) /\
    ((exists d, ps_doc st = PLive d) \/ (exists a, In (EStart (S_ "comps") a) (concat (map fst fs))) -> exists d, ps_doc st' = PLive d).
Proof.
  induction fs as [|[es er] fs IH]; intros o t o' t' st Hf Hs Hp; cbn [map fst concat run_feeds] in *.
  - inversion Hs; subst. inversion Hp; subst. exists st. split; [reflexivity|]. split; [exact Hf|]. split; [now left|].
    intros [H|(a & [])]. exact H.
  - destruct (safe_app _ _ _ _ _ Hs) as (o1 & t1 & S1 & P1 & S2).
    assert (P2 : pending t1 (concat (map fst fs)) t').
    { exact (pending_app _ _ _ _ _ P1 Hp). }
    destruct (run_ok2 _ _ _ _ _ _ Hf S1 P1) as (s & E & Hf1). rewrite E. cbn [bind].
    set (s' := match er with Some m => with_fatal (logged s [perr E_PARSER [Some m]]) true | None => s end).
    assert (Hf2 : fit o1 t1 s') by (apply (fit_same _ _ s); auto; unfold s'; destruct er; reflexivity).
    assert (Hd' : ps_doc s' = ps_doc s) by (unfold s'; destruct er; reflexivity).
    destruct (IH _ _ _ _ _ Hf2 S2 P2) as (st' & E' & Hf' & Hptr & Hlive). exists st'.
    replace (match er with Some m => with_fatal (logged s [perr E_PARSER [Some m]]) true | None => s end) with s' by (unfold s'; destruct er; reflexivity).
    split; [exact E'|]. split; [exact Hf'|]. rewrite Hd' in *. split.
    + destruct Hptr as [Hptr|Hptr]; [|auto]. rewrite Hptr. exact (run_ptr false _ _ _ E).
    + intros [Hl|(a & Hin)].
      * apply Hlive. left. destruct (run_ptr false _ _ _ E) as [H|H]; [rewrite H; exact Hl|exact H].
      * apply Hlive. apply in_app_iff in Hin. destruct Hin as [Hin|Hin]; [left; exact (run_live false _ _ _ _ Hin E)|right; eauto].
Qed.
(** A file that a parser survives, also as one of many. *)
Definition fine (fs : list feed) : Prop :=
  (exists o', safe [] [] (concat (map fst fs)) o') /\ pending [] (concat (map fst fs)) [] /\ exists a, In (EStart (S_ "comps") a) (concat (map fst fs)).
Fixpoint session (st : pst) (files : list (list feed * option dopts)) : res pst :=
  match files with [] => Ok st | (fs, o) :: r => x <- parse_file false st (Some fs) o ;; session (fst x) r end.
Definition ready (st : pst) : Prop := ps_len st = 0 /\ ps_doc st <> PFreed.
Lemma file_ok st fs o : ready st -> fine fs -> exists st' c, parse_file false st (Some fs) o = Ok (st', c) /\ ready st' /\ exists d, ps_doc st' = PLive d.
Proof.
  intros [Hl Hd] ((o' & Hs) & Hp & Ha). unfold parse_file.
  set (p := match ps_doc st with PLive _ => PFreed | x => x end).
  assert (Er : reinit st = Ok (mkP [] [] 0 p [] false None (ps_enc st) (ps_opts st))).
  { unfold reinit, p. rewrite Hl. destruct (ps_doc st); [reflexivity|congruence|reflexivity]. }
  rewrite Er. cbn [bind]. set (s0 := with_opts _ _).
  assert (Hf : fit [] [] s0).
  { apply fit_docs; [split; [constructor|]; split; [apply tcons_nil|reflexivity]|]. unfold s0, p. cbn. destruct (ps_doc st); exact I. }
  destruct (feeds_ok fs _ _ _ _ _ Hf Hs Hp) as (s2 & E2 & Hf2 & _ & Hlive). rewrite E2. cbn [bind].
  destruct (Hlive (or_intror Ha)) as (d & Ed). unfold after_parse. rewrite Ed.
  assert (Hlen : ps_len s2 = 0) by (destruct Hf2 as ((_ & [_ Ht] & Ec) & _); rewrite Ht, Ec; reflexivity).
  destruct (ps_doctype s2) as [[[n s] q]|]; cbn [bind]; do 2 eexists; (split; [reflexivity|]); unfold ready; cbn [with_doc ps_len ps_doc];
    rewrite ?Ed, ?Hlen; (split; [split; [reflexivity|discriminate]|eauto]).
Qed.
Lemma session_ok files : forall st, ready st -> Forall (fun f => fine (fst f)) files -> exists st', session st files = Ok st' /\ ready st'.
Proof.
  induction files as [|[fs o] files IH]; intros st Hr Hf; cbn [session]; [eauto|]. inversion Hf as [|? ? Hf1 Hf2]; subst.
  destruct (file_ok st fs o Hr Hf1) as (st' & c & -> & Hr' & _). cbn [bind fst]. exact (IH st' Hr' Hf2).
Qed.
