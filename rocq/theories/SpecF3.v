(** Elements out of place, split texts, result codes. *)
From Coq Require Import NArith Nnat.
From Verif Require Import CStr CStrFacts HSListModel HSListFacts RTreeModel RTreeFacts RTreeFacts2 RTreeFacts3 RTreeFacts4
  MRTreeModel MRTreeFacts MRTreeFacts2 ObjModel ObjFacts2 Dec StrModel DocModel DocFacts2 SpecA SpecC ParseModel ParseFacts SpecF SpecF2.

(** ** The log is only written *)
Definition rlift {A B} (f : A -> B) (x : res A) : res B := match x with Ok a => Ok (f a) | UB => UB | NoFuel => NoFuel end.
Lemma rlift_bind {A B C} (f : B -> C) (x : res A) (k : A -> res B) : rlift f (bind x k) = bind x (fun a => rlift f (k a)).
Proof. destruct x; reflexivity. Qed.
Definition prelog (P : list pentry) (st : pst) : pst :=
  mkP (ps_stack st) (ps_text st) (ps_len st) (ps_doc st) (P ++ ps_log st) (ps_fatal st) (ps_doctype st) (ps_enc st) (ps_opts st).
Definition nolog (st : pst) : pst :=
  mkP (ps_stack st) (ps_text st) (ps_len st) (ps_doc st) [] (ps_fatal st) (ps_doctype st) (ps_enc st) (ps_opts st).
Lemma prelog_nolog st : prelog (ps_log st) (nolog st) = st.
Proof. destruct st. unfold prelog, nolog. cbn. now rewrite app_nil_r. Qed.
Lemma logged_prelog P st es : logged (prelog P st) es = prelog P (logged st es).
Proof. unfold logged, prelog. cbn. now rewrite app_assoc. Qed.
Lemma start_prelog strict P st n a : start_handler strict (prelog P st) n a = rlift (prelog P) (start_handler strict st n a).
Proof.
  unfold start_handler. rewrite rlift_bind. destruct (attrs_dict rt_create a) as [dict| |]; [cbn [bind]|reflexivity|reflexivity]. cbv zeta.
  change (ps_stack (prelog P st)) with (ps_stack st).
  set (el := mkElem (get_type n) (elem_valid (get_type n) (ps_stack st)) dict). clearbody el.
  replace (if el_valid el then prelog P st else logged (prelog P st) [perr E_NOPARENT [Some n]])
    with (prelog P (if el_valid el then st else logged st [perr E_NOPARENT [Some n]]))
    by (destruct (el_valid el); [reflexivity|symmetry; apply logged_prelog]).
  set (st1 := if el_valid el then st else logged st [perr E_NOPARENT [Some n]]). clearbody st1.
  change (ps_text (prelog P st1)) with (ps_text st1).
  replace (match ps_text st1 with [] => prelog P st1 | s :: _ => with_text (logged (prelog P st1) [perr E_TEXT_BETWEEN [Some s]]) [] 0 end)
    with (prelog P (match ps_text st1 with [] => st1 | s :: _ => with_text (logged st1 [perr E_TEXT_BETWEEN [Some s]]) [] 0 end))
    by (destruct (ps_text st1); [reflexivity|rewrite logged_prelog; reflexivity]).
  set (st2 := match ps_text st1 with [] => st1 | s :: _ => _ end). clearbody st2.
  change (ps_stack (prelog P st2)) with (ps_stack st2).
  change (with_stack (prelog P st2) (el :: ps_stack st2)) with (prelog P (with_stack st2 (el :: ps_stack st2))).
  set (st3 := with_stack st2 (el :: ps_stack st2)). clearbody st3.
  rewrite rlift_bind. destruct (check_attributes strict (get_type n) dict) as [es| |]; [cbn [bind]|reflexivity|reflexivity].
  rewrite logged_prelog. set (st4 := logged st3 es). clearbody st4. destruct (el_valid el); [|reflexivity].
  rewrite rlift_bind.
  change (ps_opts (prelog P st4)) with (ps_opts st4). change (ps_enc (prelog P st4)) with (ps_enc st4). change (ps_doc (prelog P st4)) with (ps_doc st4).
  destruct (preproc (ps_opts st4) (ps_enc st4) el (ps_stack st) (ps_doc st4)); reflexivity.
Qed.
Lemma step_prelog strict P st e : step strict (prelog P st) e = rlift (prelog P) (step strict st e).
Proof.
  destruct e as [n a|n|s|n s p]; cbn [step]; [apply start_prelog| | |];
    destruct st as [sk tx ln dc lg ft dt en op]; unfold prelog; cbn [ps_stack ps_text ps_len ps_doc ps_log ps_fatal ps_doctype ps_enc ps_opts].
  - unfold end_handler. cbn [ps_text ps_len]. rewrite rlift_bind. destruct (all_text tx ln) as [tmp| |]; [cbn [bind]|reflexivity|reflexivity].
    cbn [with_text ps_stack ps_opts ps_doc]. destruct sk as [|el sk]; [reflexivity|].
    destruct (etype_eqb (get_type n) (el_type el)); [|reflexivity]. rewrite rlift_bind.
    destruct (if el_valid el then postproc op el sk dc tmp else Ok (dc, [], tmp)) as [[[d es] tmp']| |]; [cbn [bind rlift]|reflexivity|reflexivity].
    unfold with_stack, logged, with_doc. cbn. now rewrite <- app_assoc.
  - unfold chars_handler. destruct (forallb is_space s); reflexivity.
  - reflexivity.
Qed.
Lemma run_prelog strict P es : forall st, run strict (prelog P st) es = rlift (prelog P) (run strict st es).
Proof.
  induction es as [|e es IH]; intros st; cbn [run]; [reflexivity|]. rewrite step_prelog.
  destruct (step strict st e) as [s| |]; cbn [rlift bind]; [apply IH|reflexivity|reflexivity].
Qed.
Lemma run_app strict es1 : forall es2 st, run strict st (es1 ++ es2) = bind (run strict st es1) (fun s => run strict s es2).
Proof.
  induction es1 as [|e es1 IH]; intros es2 st; cbn [run app]; [reflexivity|].
  destruct (step strict st e) as [s| |]; cbn [bind]; [apply IH|reflexivity|reflexivity].
Qed.
Lemma step_log strict st e st1 : step strict st e = Ok st1 -> exists l, ps_log st1 = ps_log st ++ l.
Proof.
  intros E. rewrite <- (prelog_nolog st), step_prelog in E.
  destruct (step strict (nolog st) e) as [s| |]; try discriminate. inversion E; subst st1. cbn. eauto.
Qed.
Lemma run_log strict es st st1 : run strict st es = Ok st1 -> exists l, ps_log st1 = ps_log st ++ l.
Proof.
  intros E. rewrite <- (prelog_nolog st), run_prelog in E.
  destruct (run strict (nolog st) es) as [s| |]; try discriminate. inversion E; subst st1. cbn. eauto.
Qed.

(** ** Elements out of place *)
(** Events inside of an element: anything but another comps element. *)
Definition inner (e : event) : Prop :=
  match e with EStart n _ => n <> S_ "comps" | EDoctype _ _ _ => False | _ => True end.
Definition noise (e : pentry) : Prop := pe_code e = E_NOPARENT \/ pe_code e = E_TEXT_BETWEEN \/ pe_code e = E_ATTR_UNKNOWN.
Definition quiet (s s1 : pst) : Prop :=
  ps_doc s1 = ps_doc s /\ ps_fatal s1 = ps_fatal s /\ ps_doctype s1 = ps_doctype s /\ ps_enc s1 = ps_enc s /\ ps_opts s1 = ps_opts s /\
  exists l, ps_log s1 = ps_log s ++ l /\ Forall noise l.
Lemma quiet_refl s : quiet s s.
Proof. do 5 (split; [reflexivity|]). exists []. split; [now rewrite app_nil_r|constructor]. Qed.
Lemma quiet_trans a b c : quiet a b -> quiet b c -> quiet a c.
Proof.
  intros (A1 & A2 & A3 & A4 & A5 & l & A6 & A7) (B1 & B2 & B3 & B4 & B5 & m & B6 & B7).
  do 5 (split; [congruence|]). exists (l ++ m). split; [rewrite B6, A6, app_assoc; reflexivity|]. apply Forall_app. auto.
Qed.
Lemma not_legit_above (rel o : list frame) : Forall (fun f => fst f <> S_ "comps") rel -> ~ legit (map fst o) -> ~ legit (map fst (rel ++ o)).
Proof.
  intros Hr Ho. induction Hr as [|[n a] rel Hn _ IH]; [exact Ho|]. cbn [app map fst] in *. intros H.
  destruct (legit_parent _ _ H Hn) as (p & r & E & _ & Hl). apply IH. now rewrite E.
Qed.
Lemma unknown_attrs_noise strict t dict es : check_attributes strict t dict = Ok es -> Forall noise es.
Proof.
  unfold check_attributes. destruct (strict && unterminated t); [discriminate|]. intros E.
  apply bind_ok in E. destruct E as (ks & _ & E). inversion E; subst. apply Forall_forall. intros x Hx.
  apply in_map_iff in Hx. destruct Hx as (k & <- & _). right; right. reflexivity.
Qed.
Lemma nested1_rel rel e rel1 o : nested1 rel e rel1 -> nested1 (rel ++ o) e (rel1 ++ o).
Proof. intros H. inversion H; subst; cbn [app]; constructor. Qed.

Lemma start_bad strict o t st n a st1 : sim o t st -> ~ legit (n :: map fst o) -> step strict st (EStart n a) = Ok st1 ->
  quiet st st1 /\ exists el, ps_stack st1 = el :: ps_stack st /\
    exists l, ps_log st1 = ps_log st ++ perr E_NOPARENT [Some n] :: l /\ Forall noise l.
Proof.
  intros (Hs & _ & _) Hl E. cbn [step] in E. unfold start_handler in E.
  apply bind_ok in E. destruct E as (dict & _ & E). apply bind_ok in E. destruct E as (es & Ee & E).
  apply unknown_attrs_noise in Ee. rewrite (elem_valid_legit o _ n Hs) in E. cbn [el_valid] in E.
  destruct (legitb (n :: map fst o)) eqn:Ev; [exfalso; now apply Hl, legitb_iff|]. cbn [logged ps_text] in E. inversion E; subst st1. clear E.
  destruct (ps_text st) as [|x r].
  - split.
    + do 5 (split; [reflexivity|]). exists (perr E_NOPARENT [Some n] :: es). cbn. rewrite <- app_assoc. split; [reflexivity|].
      constructor; [now left|exact Ee].
    + eexists. split; [reflexivity|]. exists es. cbn. rewrite <- app_assoc. split; [reflexivity|exact Ee].
  - split.
    + do 5 (split; [reflexivity|]). exists (perr E_NOPARENT [Some n] :: perr E_TEXT_BETWEEN [Some x] :: es). cbn. rewrite <- !app_assoc.
      split; [reflexivity|]. constructor; [now left|]. constructor; [right; now left|exact Ee].
    + eexists. split; [reflexivity|]. exists (perr E_TEXT_BETWEEN [Some x] :: es). cbn. rewrite <- !app_assoc. split; [reflexivity|].
      constructor; [right; now left|exact Ee].
Qed.
Lemma end_bad strict n a o t st st1 : sim ((n, a) :: o) t st -> ~ legit (n :: map fst o) -> step strict st (EEnd n) = Ok st1 ->
  quiet st st1 /\ ps_stack st1 = tl (ps_stack st).
Proof.
  intros (Hs & Ht & Ec) Hl E. cbn [step] in E. unfold end_handler in E. rewrite (end_text st t Ht Ec) in E. cbn [bind with_text ps_stack ps_opts ps_doc] in E.
  inversion Hs as [|n' a' o' el s' Hs' Et Ev Ea E4 E5]; subst. rewrite <- E5, <- Et, etype_eqb_refl in E.
  destruct (legitb (n :: map fst o)) eqn:Elb; [exfalso; now apply Hl, legitb_iff|]. rewrite Ev in E. cbn [bind] in E.
  destruct (text_of (concat (ps_text st))); cbn in E; inversion E; subst st1; cbn; rewrite ?app_nil_r;
    (split; [|reflexivity]; do 5 (split; [reflexivity|]); exists []; cbn; split; [now rewrite ?app_nil_r|constructor]).
Qed.
Lemma body_bad strict o0 base es : o0 <> [] -> ~ legit (map fst o0) -> Forall inner es ->
  forall rel rel' t st st', nested rel es rel' -> Forall (fun f => fst f <> S_ "comps") rel -> sim (rel ++ o0) t st ->
  (exists x, ps_stack st = x ++ base /\ length x = length rel) -> run strict st es = Ok st' ->
  quiet st st' /\ (exists t', sim (rel' ++ o0) t' st') /\ (exists x, ps_stack st' = x ++ base /\ length x = length rel').
Proof.
  intros Hne Hl Hin. induction Hin as [|e es He _ IH]; intros rel rel' t st st' Hn Hc Hsim Hx E; cbn [run] in E; inversion Hn as [|? ? r1 ? ? Hn1 Hn2]; subst.
  - inversion E; subst. split; [apply quiet_refl|]. split; [eauto|exact Hx].
  - apply bind_ok in E. destruct E as (s1 & E1 & E). destruct (text1_total t e) as (t1 & Ht).
    assert (Hsim1 := step_sim strict _ _ _ _ _ _ _ Hsim (nested1_rel _ _ _ o0 Hn1) Ht E1).
    assert (Hq : quiet st s1 /\ (exists x, ps_stack s1 = x ++ base /\ length x = length r1) /\ Forall (fun f => fst f <> S_ "comps") r1).
    { destruct Hx as (x & Ex & Elx). destruct e as [n a|n|s|n s p]; cbn [inner] in He; inversion Hn1; subst; try contradiction.
      - assert (Hbad : ~ legit (n :: map fst (rel ++ o0))).
        { apply (not_legit_above ((n, a) :: rel) o0); [now constructor|exact Hl]. }
        destruct (start_bad strict _ _ _ _ _ _ Hsim Hbad E1) as (Hq & el & Es & _). split; [exact Hq|]. split; [|now constructor].
        exists (el :: x). rewrite Es, Ex. cbn. split; [reflexivity|]. now rewrite Elx.
      - cbn [app] in Hsim. assert (Hbad : ~ legit (n :: map fst (r1 ++ o0))) by (apply (not_legit_above ((n, a) :: r1) o0); assumption).
        destruct (end_bad strict _ _ _ _ _ _ Hsim Hbad E1) as (Hq & Es). split; [exact Hq|]. split; [|now inversion Hc].
        destruct x as [|el x]; [discriminate|]. exists x. rewrite Es, Ex. cbn in *. split; [reflexivity|]. now inversion Elx.
      - inversion E1; subst s1. unfold chars_handler. destruct (forallb is_space s); (split; [|eauto]).
        + apply quiet_refl.
        + do 5 (split; [reflexivity|]). exists []. cbn. split; [now rewrite app_nil_r|constructor]. }
    destruct Hq as (Hq & Hx1 & Hc1). destruct (IH _ _ _ _ _ Hn2 Hc1 Hsim1 Hx1 E) as (Hq2 & H2). split; [exact (quiet_trans _ _ _ Hq Hq2)|exact H2].
Qed.
Lemma sim_step_total o t e o1 st : sim o t st -> nested1 o e o1 -> inner e ->
  (match e with EStart n _ => ~ legit (n :: map fst o) | EEnd _ => ~ legit (map fst o) | _ => True end) -> exists st1, step false st e = Ok st1.
Proof.
  intros (Hs & Ht & Ec) Hn Hi Hl. destruct e as [n a|n|s|n s p]; cbn [step]; [| |eauto|eauto].
  - unfold start_handler. destruct (attrs_dict_ok a rt_create wft_create) as (dict & -> & _). cbn [bind].
    destruct (check_attributes_ok (get_type n) dict) as (es & ->). cbn [bind]. rewrite (elem_valid_legit o _ n Hs). cbn [el_valid].
    destruct (legitb (n :: map fst o)) eqn:Ev; [exfalso; now apply Hl, legitb_iff|]. eauto.
  - unfold end_handler. rewrite (end_text st t Ht Ec). cbn [bind with_text ps_stack ps_opts ps_doc].
    inversion Hn; subst. cbn [map fst] in Hl.
    inversion Hs as [|n' a' o' el s' Hs' Et Ev Ea E4 E5]; subst. rewrite <- Et, etype_eqb_refl.
    destruct (legitb (n :: map fst o1)) eqn:Elb; [exfalso; now apply Hl, legitb_iff|]. rewrite Ev. cbn [bind]. eauto.
Qed.
Lemma body_total o0 es : o0 <> [] -> ~ legit (map fst o0) -> Forall inner es ->
  forall rel rel' t st, nested rel es rel' -> Forall (fun f => fst f <> S_ "comps") rel -> sim (rel ++ o0) t st -> exists st', run false st es = Ok st'.
Proof.
  intros Hne Hl Hin. induction Hin as [|e es He _ IH]; intros rel rel' t st Hn Hc Hsim; cbn [run]; inversion Hn as [|? ? r1 ? ? Hn1 Hn2]; subst; [eauto|].
  assert (Hc1 : Forall (fun f => fst f <> S_ "comps") r1).
  { destruct e; cbn [inner] in He; inversion Hn1; subst; auto; now inversion Hc. }
  destruct (sim_step_total _ _ e _ st Hsim (nested1_rel _ _ _ o0 Hn1) He) as (s1 & E1).
  { destruct e as [n a|n|s|n s p]; auto.
    - apply (not_legit_above ((n, a) :: rel) o0); [now constructor|exact Hl].
    - now apply not_legit_above. }
  rewrite E1. cbn [bind]. destruct (text1_total t e) as (t1 & Ht).
  eapply IH; [exact Hn2|exact Hc1|]. exact (step_sim false _ _ _ _ _ _ _ Hsim (nested1_rel _ _ _ o0 Hn1) Ht E1).
Qed.

Definition element (n : str) (a : list (str * str)) (body : list event) : list event := EStart n a :: body ++ [EEnd n].
Lemma element_bad strict o n a body st st' : sim o [] st -> ~ legit (n :: map fst o) -> nested [] body [] -> Forall inner body ->
  run strict st (element n a body) = Ok st' ->
  exists l, Forall noise l /\ st' = mkP (ps_stack st) [] 0 (ps_doc st) (ps_log st ++ perr E_NOPARENT [Some n] :: l) (ps_fatal st) (ps_doctype st) (ps_enc st) (ps_opts st).
Proof.
  intros Hsim Hl Hn Hi E. unfold element in E. cbn [run] in E. apply bind_ok in E. destruct E as (s1 & E1 & E).
  rewrite run_app in E. apply bind_ok in E. destruct E as (s2 & E2 & E). cbn [run] in E. apply bind_ok in E. destruct E as (s3 & E3 & E). inversion E; subst st'. clear E.
  destruct (start_bad strict _ _ _ _ _ _ Hsim Hl E1) as ((A1 & A2 & A3 & A4 & A5 & _) & el & Es1 & l1 & El1 & Hl1).
  assert (Hsim1 := step_sim strict _ _ _ _ _ _ _ Hsim (nest_start o n a) (text_start [] n a) E1).
  assert (Hne : (n, a) :: o <> []) by discriminate.
  destruct (body_bad strict ((n, a) :: o) (el :: ps_stack st) body Hne Hl Hi [] [] [] s1 s2 Hn) as (Hq & (t2 & Hsim2) & x & Ex & Elx).
  { constructor. } { exact Hsim1. } { exists []. split; [exact Es1|reflexivity]. } { exact E2. }
  destruct x; [|discriminate]. cbn [app] in *.
  destruct (end_bad strict _ _ _ _ _ _ Hsim2 Hl E3) as (Hq3 & Es3).
  assert (Hsim3 := step_sim strict _ _ _ _ _ _ _ Hsim2 (nest_end o n a) (text_end t2 n) E3).
  destruct Hq as (B1 & B2 & B3 & B4 & B5 & l2 & El2 & Hl2). destruct Hq3 as (C1 & C2 & C3 & C4 & C5 & l3 & El3 & Hl3).
  exists (l1 ++ l2 ++ l3). split; [apply Forall_app; split; [exact Hl1|apply Forall_app; auto]|].
  destruct s3 as [sk tx ln dc lg ft dt en op]. cbn in *.
  destruct Hsim3 as (_ & Ht & Ec). cbn in Ht, Ec.
  assert (tx = []).
  { destruct Ht as [Hf _]. destruct tx as [|c tx]; [reflexivity|]. inversion Hf as [|? ? Hc _]; subst. apply nonblank_ne in Hc. cbn in Ec. destruct c; [congruence|discriminate]. }
  subst tx. destruct Ht as [_ Hln]. cbn in Hln. subst ln.
  assert (sk = ps_stack st) by (rewrite Es3, Ex; reflexivity). subst sk.
  assert (lg = ps_log st ++ perr E_NOPARENT [Some n] :: l1 ++ l2 ++ l3) by (rewrite El3, El2, El1; cbn; now rewrite <- !app_assoc). subst lg.
  f_equal; congruence.
Qed.
Lemma element_total o n a body st : sim o [] st -> ~ legit (n :: map fst o) -> nested [] body [] -> Forall inner body ->
  n <> S_ "comps" -> exists st', run false st (element n a body) = Ok st'.
Proof.
  intros Hsim Hl Hn Hi Hc. unfold element. cbn [run].
  destruct (sim_step_total o [] (EStart n a) ((n, a) :: o) st Hsim) as (s1 & E1); [constructor|exact Hc|exact Hl|]. rewrite E1. cbn [bind]. rewrite run_app.
  assert (Hsim1 := step_sim false _ _ _ _ _ _ _ Hsim (nest_start o n a) (text_start [] n a) E1).
  assert (Hne : (n, a) :: o <> []) by discriminate.
  destruct (body_total ((n, a) :: o) body Hne Hl Hi [] [] [] s1 Hn) as (s2 & E2); [constructor|exact Hsim1|]. rewrite E2. cbn [bind run].
  assert (Hsim2 : exists t2, sim ((n, a) :: o) t2 s2).
  { assert (Hn' : nested ((n, a) :: o) body ((n, a) :: o)).
    { clear -Hn. assert (G : forall es r r', nested r es r' -> nested (r ++ (n, a) :: o) es (r' ++ (n, a) :: o)).
      { induction es as [|e es IH]; intros r r' H; inversion H; subst; [constructor|]. econstructor; [apply nested1_rel; eassumption|]. now apply IH. }
      exact (G body [] [] Hn). }
    exact (run_sim false body _ _ _ _ _ Hsim1 Hn' E2). }
  destruct Hsim2 as (t2 & Hsim2).
  destruct (sim_step_total _ t2 (EEnd n) o s2 Hsim2) as (s3 & ->); [constructor|exact I|exact Hl|]. cbn [bind]. eauto.
Qed.

(** Text that is pending after the events, when [t] was pending before. *)
Inductive pending : str -> list event -> str -> Prop :=
| pend_nil t : pending t [] t
| pend_cons t e t1 es t' : text1 t e t1 -> pending t1 es t' -> pending t (e :: es) t'.
Lemma run_sim2 strict es : forall o t o' t' st st', sim o t st -> nested o es o' -> pending t es t' -> run strict st es = Ok st' -> sim o' t' st'.
Proof.
  induction es as [|e es IH]; intros o t o' t' st st' Hs Hn Hp E; cbn [run] in E; inversion Hn as [|? ? o1 ? ? H1 H2]; subst; inversion Hp as [|? ? t1 ? ? P1 P2]; subst.
  - inversion E; subst. exact Hs.
  - apply bind_ok in E. destruct E as (st1 & E1 & E). eapply IH; [|exact H2|exact P2|exact E]. exact (step_sim strict _ _ _ _ _ _ _ Hs H1 P1 E1).
Qed.
Definition but_log (s s' : pst) : Prop :=
  ps_stack s' = ps_stack s /\ ps_text s' = ps_text s /\ ps_len s' = ps_len s /\ ps_doc s' = ps_doc s /\ ps_fatal s' = ps_fatal s /\
  ps_doctype s' = ps_doctype s /\ ps_enc s' = ps_enc s /\ ps_opts s' = ps_opts s.
Lemma ignored enc pre o n a body post :
  nested [] pre o -> pending [] pre [] -> ~ legit (n :: map fst o) -> nested [] body [] -> Forall inner body ->
  match run false (parsed_init enc) (pre ++ post), run false (parsed_init enc) (pre ++ element n a body ++ post) with
  | Ok s, Ok s' => but_log s s' /\ exists l1 l l2, ps_log s = l1 ++ l2 /\ ps_log s' = l1 ++ (perr E_NOPARENT [Some n] :: l) ++ l2 /\ Forall noise l
  | UB, UB => True
  | NoFuel, NoFuel => True
  | _, _ => False
  end.
Proof.
  intros Hn Hp Hl Hb Hi. assert (Hc : n <> S_ "comps") by (intros ->; apply Hl; constructor). rewrite !run_app. destruct (run false (parsed_init enc) pre) as [sp| |] eqn:Ep; cbn [bind]; [|exact I|exact I].
  rewrite run_app. assert (Hsim := run_sim2 false pre _ _ _ _ _ _ (sim_init enc) Hn Hp Ep).
  destruct (element_total o n a body sp Hsim Hl Hb Hi Hc) as (se & Ee). rewrite Ee. cbn [bind].
  destruct (element_bad false o n a body sp se Hsim Hl Hb Hi Ee) as (l & Hnl & Ese).
  assert (E1 : ps_text sp = [] /\ ps_len sp = 0).
  { destruct Hsim as (_ & Ht & Ect). assert (ps_text sp = []).
    { destruct Ht as [Hf _]. destruct (ps_text sp) as [|c tx]; [reflexivity|]. inversion Hf as [|? ? Hx _]; subst. apply nonblank_ne in Hx. cbn in Ect. destruct c; [congruence|discriminate]. }
    split; [assumption|]. destruct Ht as [_ ->]. now rewrite H. }
  assert (E2 : se = prelog (ps_log sp ++ perr E_NOPARENT [Some n] :: l) (nolog sp)).
  { rewrite Ese. unfold prelog, nolog. cbn. rewrite app_nil_r. destruct E1 as [-> ->]. reflexivity. }
  assert (E3 : run false sp post = rlift (prelog (ps_log sp)) (run false (nolog sp) post)) by (rewrite <- run_prelog, prelog_nolog; reflexivity).
  rewrite E2, run_prelog, E3.
  destruct (run false (nolog sp) post) as [s| |]; cbn [rlift]; [|exact I|exact I].
  split; [unfold but_log, prelog; cbn; auto 10|]. exists (ps_log sp), l, (ps_log s). cbn. rewrite <- !app_assoc. auto.
Qed.

(** ** Split texts *)
(** Log entries that differ at most in the text shown by "text between elements". *)
Definition alike_entry (e e' : pentry) : Prop := e = e' \/ (pe_warn e = pe_warn e' /\ pe_code e = E_TEXT_BETWEEN /\ pe_code e' = E_TEXT_BETWEEN).
Definition alike_log := Forall2 alike_entry.
Lemma alike_log_refl l : alike_log l l.
Proof. induction l; constructor; [now left|assumption]. Qed.
Definition rest_alike (s s' : pst) : Prop :=
  ps_stack s' = ps_stack s /\ ps_doc s' = ps_doc s /\ ps_fatal s' = ps_fatal s /\
  ps_doctype s' = ps_doctype s /\ ps_enc s' = ps_enc s /\ ps_opts s' = ps_opts s /\ alike_log (ps_log s) (ps_log s').
Definition alike (s s' : pst) : Prop :=
  rest_alike s s' /\ tcons (ps_text s) (ps_len s) /\ tcons (ps_text s') (ps_len s') /\ concat (ps_text s') = concat (ps_text s).
Definition ralike (x y : res pst) : Prop :=
  match x, y with Ok s, Ok s' => alike s s' | UB, UB => True | NoFuel, NoFuel => True | _, _ => False end.
Lemma alike_entry_trans a b c : alike_entry a b -> alike_entry b c -> alike_entry a c.
Proof. intros [->|(A & B & C)] [<-|(A' & B' & C')]; unfold alike_entry; auto; right; (split; [congruence|auto]). Qed.
Lemma alike_entry_sym a b : alike_entry a b -> alike_entry b a.
Proof. intros [->|(A & B & C)]; unfold alike_entry; auto. Qed.
Lemma alike_log_trans a : forall b c, alike_log a b -> alike_log b c -> alike_log a c.
Proof.
  induction a as [|x a IH]; intros b c H1 H2; inversion H1; subst; inversion H2; subst; constructor.
  - eapply alike_entry_trans; eassumption.
  - eapply IH; eassumption.
Qed.
Lemma alike_log_sym a b : alike_log a b -> alike_log b a.
Proof. induction 1; constructor; auto using alike_entry_sym. Qed.
Lemma alike_sym s s' : alike s s' -> alike s' s.
Proof.
  intros ((A1 & A2 & A3 & A4 & A5 & A6 & A7) & B & C & D). split; [|auto].
  do 6 (split; [congruence|]). now apply alike_log_sym.
Qed.
Lemma alike_trans a b c : alike a b -> alike b c -> alike a c.
Proof.
  intros ((A1 & A2 & A3 & A4 & A5 & A6 & A7) & B & C & D) ((A1' & A2' & A3' & A4' & A5' & A6' & A7') & B' & C' & D').
  split; [|split; [exact B|split; [exact C'|congruence]]]. do 6 (split; [congruence|]). eapply alike_log_trans; eassumption.
Qed.
Lemma ralike_sym x y : ralike x y -> ralike y x.
Proof. destruct x, y; cbn; auto using alike_sym. Qed.
Lemma ralike_trans x y z : ralike x y -> ralike y z -> ralike x z.
Proof. destruct x, y, z; cbn; try contradiction; auto. apply alike_trans. Qed.
Lemma tcons_hd c n : tcons c n -> (c = [] <-> concat c = []).
Proof.
  intros [H _]. split; [now intros ->|]. destruct c as [|x c]; [reflexivity|]. inversion H as [|? ? H1 _]; subst.
  apply nonblank_ne in H1. cbn. destruct x; [congruence|discriminate].
Qed.

Ltac fields := cbn [ps_stack ps_text ps_len ps_doc ps_log ps_fatal ps_doctype ps_enc ps_opts logged with_text with_stack with_doc with_doctype] in *.
Lemma alike_app a b c d : alike_log a b -> alike_log c d -> alike_log (a ++ c) (b ++ d).
Proof. apply Forall2_app. Qed.
Lemma step_alike strict s s' e : alike s s' -> ralike (step strict s e) (step strict s' e).
Proof.
  destruct s as [sk tx ln dc lg ft dt en op], s' as [sk' tx' ln' dc' lg' ft' dt' en' op'].
  intros ((A1 & A2 & A3 & A4 & A5 & A6 & A7) & B & C & D). fields. subst sk' dc' ft' dt' en' op'.
  assert (Hfin : forall ks dd l l' ft dt, alike_log l l' -> alike (mkP ks [] 0 dd l ft dt en op) (mkP ks [] 0 dd l' ft dt en op)).
  { intros ks dd l l' ft' dt' Hl. split; [|split; [apply tcons_nil|split; [apply tcons_nil|reflexivity]]]. unfold rest_alike. fields. auto 10. }
  destruct e as [n a|n|x|n x p]; cbn [step].
  - unfold start_handler. fields. destruct (attrs_dict rt_create a) as [dict| |]; [cbn [bind]|exact I|exact I].
    destruct (check_attributes strict (get_type n) dict) as [es| |]; [cbn [bind]|exact I|exact I].
    assert (HC : tx = [] <-> tx' = []) by (rewrite (tcons_hd _ _ B), (tcons_hd _ _ C), D; reflexivity).
    destruct tx as [|x r], tx' as [|x' r'].
    3: { destruct HC as [_ H]. discriminate (H eq_refl). } 2: { destruct HC as [H _]. discriminate (H eq_refl). }
    + assert (ln = 0) by (destruct B as [_ B]; exact B). assert (ln' = 0) by (destruct C as [_ C']; exact C'). subst ln ln'.
      destruct (elem_valid (get_type n) sk); cbn [el_valid]; fields.
      * destruct (preproc _ _ _ _ _) as [d| |]; cbn [bind ralike]; [|exact I|exact I]. unfold with_doc; fields.
        apply Hfin. apply alike_app; [exact A7|apply alike_log_refl].
      * cbn [ralike]. apply Hfin. apply alike_app; [|apply alike_log_refl]. apply alike_app; [exact A7|apply alike_log_refl].
    + destruct (elem_valid (get_type n) sk); cbn [el_valid]; fields.
      * destruct (preproc _ _ _ _ _) as [d| |]; cbn [bind ralike]; [|exact I|exact I]. unfold with_doc; fields.
        apply Hfin. apply alike_app; [|apply alike_log_refl].
        apply alike_app; [exact A7|]. constructor; [|constructor]. right. auto.
      * cbn [ralike]. apply Hfin. apply alike_app; [|apply alike_log_refl]. apply alike_app; [apply alike_app; [exact A7|apply alike_log_refl]|].
        constructor; [|constructor]. right. auto.
  - unfold end_handler. fields. rewrite (all_text_ok _ _ B), (all_text_ok _ _ C), D. cbn [bind]. fields.
    destruct sk as [|el anc]; [exact I|].
    destruct (etype_eqb (get_type n) (el_type el)); cbn [ralike].
    + destruct (if el_valid el then _ else _) as [[[d es] tmp']| |]; cbn [bind ralike]; [|exact I|exact I].
      apply Hfin. apply alike_app; [exact A7|apply alike_log_refl].
    + apply Hfin. exact A7.
  - cbn [ralike]. unfold chars_handler. destruct (forallb is_space x) eqn:Ex.
    + split; [unfold rest_alike; fields; auto 10|auto].
    + split; [unfold rest_alike; fields; auto 10|]. fields. rewrite !concat_app, D. split; [|split; [|reflexivity]].
      * destruct B as [B1 B2]. split; [apply Forall_app; split; [exact B1|]; constructor; [unfold nonblank; now rewrite Ex|constructor]|].
        rewrite concat_app, app_length, B2. cbn [concat]. now rewrite app_nil_r.
      * destruct C as [B1 B2]. split; [apply Forall_app; split; [exact B1|]; constructor; [unfold nonblank; now rewrite Ex|constructor]|].
        rewrite concat_app, app_length, B2. cbn [concat]. now rewrite app_nil_r.
  - cbn [ralike]. split; [unfold rest_alike, doctype_handler; fields; auto 10|auto].
Qed.
Lemma run_alike strict es : forall s s', alike s s' -> ralike (run strict s es) (run strict s' es).
Proof.
  induction es as [|e es IH]; intros s s' H; cbn [run]; [exact H|].
  assert (H1 := step_alike strict s s' e H).
  destruct (step strict s e) as [s1| |], (step strict s' e) as [s1'| |]; cbn [ralike bind] in *; try contradiction; auto.
Qed.
Lemma alike_refl s : tcons (ps_text s) (ps_len s) -> alike s s.
Proof. intros H. split; [|auto]. do 6 (split; [reflexivity|]). apply alike_log_refl. Qed.

(** What the events amount to: the tags, each with the text in front of it that
    is not made of white space pieces; and the text at the end. *)
Inductive digest : str -> list event -> list (str * event) -> str -> Prop :=
| dg_nil t : digest t [] [] t
| dg_blank t s es l r : blank s -> digest t es l r -> digest t (EChars s :: es) l r
| dg_text t s es l r : ~ blank s -> digest (t ++ s) es l r -> digest t (EChars s :: es) l r
| dg_start t n a es l r : digest [] es l r -> digest t (EStart n a :: es) ((t, EStart n a) :: l) r
| dg_end t n es l r : digest [] es l r -> digest t (EEnd n :: es) ((t, EEnd n) :: l) r
| dg_doctype t n x p es l r : digest t es l r -> digest t (EDoctype n x p :: es) (([], EDoctype n x p) :: l) r.
(** The run of a digest. *)
Definition hold (s : pst) (t : str) : pst := with_text s (match t with [] => [] | _ => [t] end) (length t).
Fixpoint arun (strict : bool) (s : pst) (l : list (str * event)) (r : str) : res pst :=
  match l with [] => Ok (hold s r) | (t, e) :: l' => bind (step strict (hold s t) e) (fun s1 => arun strict s1 l' r) end.
Lemma nonblank_not s : nonblank s = true <-> ~ blank s.
Proof. unfold nonblank. rewrite <- blank_iff. destruct (forallb is_space s); cbn; intuition congruence. Qed.
(** Texts that are concatenations of non-blank pieces are not blank themselves. *)
Definition solid (t : str) : Prop := t = [] \/ ~ blank t.
Lemma hold_alike s s' t : rest_alike s s' -> tcons (ps_text s) (ps_len s) -> concat (ps_text s) = t -> alike s (hold s' t).
Proof.
  intros H Ht Ec. split; [exact H|]. split; [exact Ht|]. unfold hold. fields. subst t.
  destruct (concat (ps_text s)) as [|c r] eqn:E; [split; [apply tcons_nil|reflexivity]|]. rewrite <- E.
  split; [|rewrite E; cbn; now rewrite app_nil_r].
  split; [|cbn; now rewrite app_nil_r]. constructor; [|constructor].
  destruct Ht as [Hf _]. destruct (ps_text s) as [|x xs]; [discriminate E|]. inversion Hf as [|? ? Hx _]; subst.
  cbn [concat]. apply nonblank_not. apply nonblank_not in Hx. intros Hb. apply Hx. unfold blank in Hb. apply Forall_app in Hb. apply Hb.
Qed.
Lemma digest_run strict t es l r : digest t es l r -> forall s s', rest_alike s s' -> tcons (ps_text s) (ps_len s) -> concat (ps_text s) = t ->
  ralike (run strict s es) (arun strict s' l r).
Proof.
  assert (Htag : forall e t' es' l' r' s s', rest_alike s s' -> tcons (ps_text s) (ps_len s) -> concat (ps_text s) = t' ->
    match e with EStart _ _ | EEnd _ => True | _ => False end ->
    (forall s s', rest_alike s s' -> tcons (ps_text s) (ps_len s) -> concat (ps_text s) = [] -> ralike (run strict s es') (arun strict s' l' r')) ->
    ralike (run strict s (e :: es')) (arun strict s' ((t', e) :: l') r')).
  { intros e t' es' l' r' s s' Hr Ht Ec He IH. cbn [run arun]. assert (Ha := step_alike strict _ _ e (hold_alike s s' t' Hr Ht Ec)).
    destruct (step strict s e) as [s1| |] eqn:E1, (step strict (hold s' t') e) as [s1'| |]; cbn [ralike bind] in *; try contradiction; auto.
    destruct Ha as (Hr1 & Ht1 & _ & _). apply IH; [exact Hr1|exact Ht1|].
    destruct e as [n a|n| |]; try contradiction; cbn [step] in E1.
    - unfold start_handler in E1. apply bind_ok in E1. destruct E1 as (dict & _ & E1). apply bind_ok in E1. destruct E1 as (es1 & _ & E1).
      destruct (el_valid _).
      + apply bind_ok in E1. destruct E1 as (d & _ & E1). inversion E1; subst s1. destruct (ps_text s) eqn:Ex; fields; rewrite ?Ex; reflexivity.
      + inversion E1; subst s1. fields. destruct (ps_text s) eqn:Ex; fields; rewrite ?Ex; reflexivity.
    - unfold end_handler in E1. apply bind_ok in E1. destruct E1 as (tmp & _ & E1). fields. destruct (ps_stack s) as [|el anc]; [discriminate|].
      destruct (etype_eqb _ _); [|inversion E1; subst; reflexivity].
      apply bind_ok in E1. destruct E1 as ([[d es1] tmp'] & _ & E1). inversion E1; subst. reflexivity. }
  induction 1 as [t|t x es l r Hb H IH|t x es l r Hb H IH|t n a es l r H IH|t n es l r H IH|t n x p es l r H IH]; intros s s' Hr Ht Ec.
  - cbn [run arun ralike]. now apply hold_alike.
  - cbn [run step bind]. unfold chars_handler. rewrite (proj2 (blank_iff x) Hb). now apply IH.
  - cbn [run step bind]. unfold chars_handler. destruct (forallb is_space x) eqn:Ex; [apply blank_iff in Ex; contradiction|].
    apply IH; fields.
    + unfold rest_alike in *. fields. exact Hr.
    + destruct Ht as [B1 B2]. split; [apply Forall_app; split; [exact B1|]; constructor; [unfold nonblank; now rewrite Ex|constructor]|].
      rewrite concat_app, app_length, B2. cbn [concat]. now rewrite app_nil_r.
    + rewrite concat_app, Ec. cbn [concat]. now rewrite app_nil_r.
  - apply Htag; auto.
  - apply Htag; auto.
  - cbn [run arun step bind]. apply IH; [|exact Ht|exact Ec]. unfold rest_alike, doctype_handler, hold in *. fields. intuition auto.
Qed.
Lemma chunking enc strict es es' l r : digest [] es l r -> digest [] es' l r ->
  ralike (run strict (parsed_init enc) es) (run strict (parsed_init enc) es').
Proof.
  intros H H'. assert (Hr : rest_alike (parsed_init enc) (parsed_init enc)).
  { do 6 (split; [reflexivity|]). constructor. }
  eapply ralike_trans; [apply (digest_run strict _ _ _ _ H _ _ Hr); [apply tcons_nil|reflexivity]|].
  apply ralike_sym. apply (digest_run strict _ _ _ _ H' _ _ Hr); [apply tcons_nil|reflexivity].
Qed.
Lemma run_tcons strict es : forall st st', tcons (ps_text st) (ps_len st) -> run strict st es = Ok st' -> tcons (ps_text st') (ps_len st').
Proof.
  intros st st' H E. assert (Ha := run_alike strict es st st (alike_refl st H)). rewrite E in Ha. apply Ha.
Qed.
Lemma splitting enc strict pre a b post : ~ blank a -> ~ blank b ->
  ralike (run strict (parsed_init enc) (pre ++ EChars (a ++ b) :: post)) (run strict (parsed_init enc) (pre ++ EChars a :: EChars b :: post)).
Proof.
  intros Ha Hb. rewrite !run_app. destruct (run strict (parsed_init enc) pre) as [s| |] eqn:E; cbn [bind]; [|exact I|exact I].
  assert (Ht : tcons (ps_text s) (ps_len s)) by (apply (run_tcons strict pre (parsed_init enc) s tcons_nil E)).
  cbn [run step bind]. unfold chars_handler.
  assert (Hab : ~ blank (a ++ b)) by (intros H; unfold blank in H; apply Forall_app in H; now apply Ha).
  destruct (forallb is_space a) eqn:Ea; [apply blank_iff in Ea; contradiction|].
  destruct (forallb is_space b) eqn:Eb; [apply blank_iff in Eb; contradiction|].
  destruct (forallb is_space (a ++ b)) eqn:Eab; [apply blank_iff in Eab; contradiction|].
  apply run_alike. split; [|split; [|split]]; fields.
  - do 6 (split; [reflexivity|]). apply alike_log_refl.
  - destruct Ht as [B1 B2]. split; [apply Forall_app; split; [exact B1|]; constructor; [unfold nonblank; now rewrite Eab|constructor]|].
    rewrite concat_app, B2. cbn [concat]. rewrite app_nil_r, !app_length. lia.
  - destruct Ht as [B1 B2]. split.
    + apply Forall_app. split; [apply Forall_app; split; [exact B1|]|]; (constructor; [|constructor]); unfold nonblank; now rewrite ?Ea, ?Eb.
    + rewrite !concat_app, B2. cbn [concat]. rewrite !app_nil_r, !app_length. lia.
  - rewrite !concat_app. cbn [concat]. now rewrite !app_nil_r, <- app_assoc.
Qed.
