(** The texts of the messages that loading and saving leave in the log. *)
From Coq Require Import NArith.
From Verif Require Import CStr CStrFacts HSListModel RTreeModel ObjModel Dec StrModel StrFacts DocModel ParseModel ParseFacts LogModel SpecE XmlModel XmlFacts DocFacts2 SpecG.

(** ** Statements *)
(** The log entry of a message of the parser at a place of the file; the calls are
    comps_elem.c:420-857, comps_parse.c:208-468.  The place comes first in the
    messages of expat. *)
Definition place_args (line col : Z) : list (option larg) := [Some (LNum line); Some (LNum col)].
Definition log_of (line col : Z) (e : pentry) : entry :=
  let args := map (fun s => Some (LStr s)) (pe_args e) in
  mkEn (pe_code e) (if pe_warn e then ENTRY_WAR else ENTRY_ERR)
    (if (pe_code e =? E_READFD)%Z then args else if (pe_code e =? E_PARSER)%Z then place_args line col ++ args else args ++ place_args line col).
(** What the user reads. *)
Inductive message (at_line at_col : str) : pentry -> str -> Prop :=
| M_required k : message at_line at_col (perr E_REQUIRED [Some k]) (S_ "Element " ++ k ++ S_ " is required at line:" ++ at_line ++ S_ " column :" ++ at_col ++ S_ " but missing" ++ NL)
| M_already_e k : message at_line at_col (perr E_ALREADYSET [Some k]) (S_ "WARNING: Element <" ++ k ++ S_ "> at line:" ++ at_line ++ S_ " col:" ++ at_col ++ S_ " has been already found" ++ NL)
| M_already_w : message at_line at_col (pwarn E_ALREADYSET [None]) (S_ "WARNING: Element <> at line:" ++ at_line ++ S_ " col:" ++ at_col ++ S_ " has been already found" ++ NL)
| M_value v : message at_line at_col (pwarn E_DEFAULT_PARAM [v]) (S_ "WARNING: Wrong default param value '" ++ str_tostr v ++ S_ "' at line:" ++ at_line ++ S_ " col:" ++ at_col ++ NL)
| M_empty n : message at_line at_col (perr E_LIST_EMPTY [Some n]) (n ++ S_ " is empty at line:" ++ at_line ++ S_ " column :" ++ at_col ++ NL)
| M_nocontent n : message at_line at_col (perr E_NOCONTENT [Some n]) (S_ "<" ++ n ++ S_ "> content missing at line:" ++ at_line ++ S_ " column:" ++ at_col ++ NL)
| M_between s : message at_line at_col (perr E_TEXT_BETWEEN [Some s]) (S_ "'" ++ s ++ S_ "' found between elements at line:" ++ at_line ++ S_ " column :" ++ at_col ++ NL)
| M_noparent n : message at_line at_col (perr E_NOPARENT [Some n]) (S_ "ERROR: <" ++ n ++ S_ "> found with no suitable parent at line:" ++ at_line ++ S_ " col:" ++ at_col ++ NL)
| M_attr a n : message at_line at_col (pwarn E_ATTR_UNKNOWN [Some a; Some n]) (S_ "WARNING: Unknown attribute '" ++ a ++ S_ "' in element '" ++ n ++ S_ "' at line:" ++ at_line ++ S_ " col: " ++ at_col ++ NL)
| M_parser m : message at_line at_col (perr E_PARSER [Some m]) (S_ "ERROR: Parser error at line:" ++ at_line ++ S_ " col:" ++ at_col ++ NL ++ S_ "    " ++ m ++ NL)
| M_readfd : message at_line at_col (perr E_READFD []) (S_ "Can't read file" ++ NL).
(** The message has a text at every place, which fits its buffer. *)
Definition readable (e : pentry) : Prop := forall line col, (0 <= line)%Z -> (0 <= col)%Z ->
  exists l c t, numeral_of (Z.to_N line) l /\ numeral_of (Z.to_N col) c /\ message l c e t /\ entry_str (log_of line col e) = Ok t /\ entry_print (log_of line col e) = Ok (t ++ NL).
(** The messages of saving. *)
Definition save_log (e : Z * list (option pval)) : option entry :=
  match snd e with
  | [] => Some (mkEn (fst e) ENTRY_ERR [])
  | [None] => Some (mkEn (fst e) ENTRY_ERR [None])
  | [Some (PStr s)] => Some (mkEn (fst e) ENTRY_ERR [Some (LStr s)])
  | _ => None
  end.

Definition reads_as (e : Z * list (option pval)) (t : str) : Prop := exists en, save_log e = Some en /\ entry_str en = Ok t /\ entry_print en = Ok (t ++ NL).
(** The id of an object is a text, if there is one; every operation of the library keeps it so. *)
Definition id_text (v : option pval) : str := match v with Some (PStr s) => str_tostr s | _ => [] end.
Definition text_id (b : base) : Prop := forall v, base_get b (S_ "id") = Ok (Some v) -> exists s, v = PStr s.
Definition text_ids (p : parts) : Prop :=
  Forall (fun g => text_id (g_base g)) (pt_groups p) /\ Forall (fun c => text_id (c_base c)) (pt_cats p) /\ Forall (fun e => text_id (e_base e)) (pt_envs p).
Definition left_out_text (v : option pval) : str := S_ "Group with id " ++ id_text v ++ S_ " has no packages.skipping xml output" ++ NL.

(** ** Proofs *)
Definition fine (e : pentry) : Prop := exists t, message [] [] e t.
Lemma text_at e fmt : log_format (pe_code e) = Some fmt -> forall line col args, en_args (log_of line col e) = args -> format_of_b fmt (length args) (pieces_of fmt []) = true -> length args <= 5 ->
  Forall SpecE.printable args -> exists ss, Forall2 arg_text args ss /\ entry_str (log_of line col e) = Ok (weave (pieces_of fmt []) ss) /\ entry_print (log_of line col e) = Ok (weave (pieces_of fmt []) ss ++ NL).
Proof. intros Hf line col args <- Hb H5 Hp. apply (entry_text (log_of line col e) fmt); [exact Hf|now apply format_of_b_ok|exact H5|exact Hp]. Qed.
Lemma str_arg s x : arg_text (Some (LStr s)) x -> x = str_tostr s.
Proof. destruct s; exact (fun H => H). Qed.
Lemma args3 s line col ss : Forall2 arg_text (Some (LStr s) :: place_args line col) ss -> exists l c, ss = [str_tostr s; l; c] /\ numeral_of (Z.to_N line) l /\ numeral_of (Z.to_N col) c.
Proof.
  intros H. inversion H as [|? x ? r Hx Hr]; subst. inversion Hr as [|? l ? r2 Hl Hr2]; subst. inversion Hr2 as [|? c ? r3 Hc Hr3]; subst. inversion Hr3; subst.
  apply str_arg in Hx. subst x. exists l, c. split; [reflexivity|]. split; [apply Hl|apply Hc].
Qed.
Lemma args4 s1 s2 line col ss : Forall2 arg_text (Some (LStr s1) :: Some (LStr s2) :: place_args line col) ss ->
  exists l c, ss = [str_tostr s1; str_tostr s2; l; c] /\ numeral_of (Z.to_N line) l /\ numeral_of (Z.to_N col) c.
Proof.
  intros H. inversion H as [|? x ? r Hx Hr]; subst. apply args3 in Hr. destruct Hr as (l & c & -> & N). apply str_arg in Hx. subst x. eauto.
Qed.
Lemma args_last s line col ss : Forall2 arg_text (place_args line col ++ [Some (LStr s)]) ss -> exists l c, ss = [l; c; str_tostr s] /\ numeral_of (Z.to_N line) l /\ numeral_of (Z.to_N col) c.
Proof.
  intros H. inversion H as [|? l ? r Hl Hr]; subst. inversion Hr as [|? c ? r2 Hc Hr2]; subst. inversion Hr2 as [|? x ? r3 Hx Hr3]; subst. inversion Hr3; subst.
  apply str_arg in Hx. subst x. exists l, c. split; [reflexivity|]. split; [apply Hl|apply Hc].
Qed.
Ltac msg e line col lem :=
  let ss := fresh in let F := fresh in let E1 := fresh in let E2 := fresh in
  edestruct (text_at e) with (line := line) (col := col) as (ss & F & E1 & E2);
    [reflexivity|reflexivity|vm_compute; reflexivity|cbn; lia|repeat constructor; assumption|];
  apply lem in F; destruct F as (l & c & -> & Nl & Nc); exists l, c; eexists; split; [exact Nl|split; [exact Nc|split; [constructor|split; [exact E1|exact E2]]]].
Lemma fine_readable e : fine e -> readable e.
Proof.
  intros (t0 & H) line col Hl Hc. destruct H as [k|k| |v|n|n|s|n|a n|m|].
  - msg (perr E_REQUIRED [Some k]) line col args3.
  - msg (perr E_ALREADYSET [Some k]) line col args3.
  - msg (pwarn E_ALREADYSET [None]) line col args3.
  - msg (pwarn E_DEFAULT_PARAM [v]) line col args3.
  - msg (perr E_LIST_EMPTY [Some n]) line col args3.
  - msg (perr E_NOCONTENT [Some n]) line col args3.
  - msg (perr E_TEXT_BETWEEN [Some s]) line col args3.
  - msg (perr E_NOPARENT [Some n]) line col args3.
  - msg (pwarn E_ATTR_UNKNOWN [Some a; Some n]) line col args4.
  - msg (perr E_PARSER [Some m]) line col args_last.
  - destruct (num_rendered line Hl) as (l & _ & Nl). destruct (num_rendered col Hc) as (c & _ & Nc). exists l, c. eexists. split; [exact Nl|]. split; [exact Nc|]. split; [constructor|]. split; reflexivity.
Qed.
(** *** The parser *)
Ltac inv_bind H := cbv beta in H; match type of H with bind ?m _ = Ok _ => let x := fresh "x" in let E := fresh "E" in apply bind_ok in H; destruct H as (x & E & H) end.
Lemma fine_ok e t : message [] [] e t -> fine e.
Proof. intros H. now exists t. Qed.
Ltac fine1 := constructor; [eexists; constructor|constructor].
Lemma upd_group_fine d f r : upd_last_group d f = Ok r -> (forall g x, f g = Ok x -> Forall fine (snd x)) -> Forall fine (snd r).
Proof. unfold upd_last_group. intros E H. do 4 inv_bind E. injection E as <-. cbn [snd]. eauto. Qed.
Lemma upd_cat_fine d f r : upd_last_cat d f = Ok r -> (forall g x, f g = Ok x -> Forall fine (snd x)) -> Forall fine (snd r).
Proof. unfold upd_last_cat. intros E H. do 4 inv_bind E. injection E as <-. cbn [snd]. eauto. Qed.
Lemma upd_env_fine d f r : upd_last_env d f = Ok r -> (forall g x, f g = Ok x -> Forall fine (snd x)) -> Forall fine (snd r).
Proof. unfold upd_last_env. intros E H. do 4 inv_bind E. injection E as <-. cbn [snd]. eauto. Qed.
Lemma upd_base_fine o d f r : upd_base o d f = Ok r -> (forall g x, f g = Ok x -> Forall fine (snd x)) -> Forall fine (snd r).
Proof.
  intros E H. destruct o; cbn [upd_base] in E; [eapply upd_group_fine in E|eapply upd_cat_fine in E|eapply upd_env_fine in E]; try exact E; intros g x Eg; inv_bind Eg; injection Eg as <-; cbn [snd]; eauto.
Qed.
Lemma required_fine b es : required b = Ok es -> Forall fine es.
Proof.
  assert (C : forall k s es, check_required b k s = Ok es -> Forall fine es) by (unfold check_required; intros k s es0 E; inv_bind E; injection E as <-; destruct x; [constructor|fine1]).
  unfold required. intros E. do 3 inv_bind E. injection E as <-. apply Forall_app. split; [eauto|]. apply Forall_app. split; eauto.
Qed.
Lemma already_fine {V} (v : option V) k : Forall fine (check_already v k).
Proof. destruct v; [fine1|constructor]. Qed.
Lemma set_bool_fine b k tmp x : set_bool b k tmp = Ok x -> Forall fine (snd x).
Proof.
  unfold set_bool. intros E. destruct (match tmp with Some s => streq s (S_ "false") | None => false end); [inv_bind E; injection E as <-; constructor|].
  destruct (match tmp with Some s => streq s (S_ "true") | None => false end); [inv_bind E; injection E as <-; constructor|]. injection E as <-. fine1.
Qed.
Lemma set_text_fine t attrs s b x : set_text t attrs s b = Ok x -> Forall fine (snd x).
Proof.
  unfold set_text. assert (P : forall k x, (v <- base_get b k ;; b' <- set_prop_str b k s ;; Ok (b', check_already v k)) = Ok x -> Forall fine (snd x)).
  { intros k y E. do 2 inv_bind E. injection E as <-. apply already_fine. }
  intros E. destruct t; try (now apply P in E); inv_bind E; (destruct x0; [inv_bind E; injection E as <-; constructor|now apply P in E]).
Qed.
Lemma set_order_fine tmp b x : set_order tmp b = Ok x -> Forall fine (snd x).
Proof.
  unfold set_order. intros E. do 3 inv_bind E. destruct x0 as [[|old|]|]; try discriminate; inv_bind E; injection E as <-; [fine1|constructor].
Qed.
Ltac stop E := injection E as _ <- _.
Lemma postproc_fine o el anc p tmp d es tmp' : postproc o el anc p tmp = Ok (d, es, tmp') -> Forall fine es.
Proof.
  unfold postproc. cbv zeta. destruct (el_type el) eqn:T; try (intros E; injection E as _ <- _; constructor); intros E.
  - do 2 inv_bind E. stop E. eapply upd_group_fine; [eassumption|]. intros g y Eg. do 4 inv_bind Eg. injection Eg as <-. cbn [snd]. eapply required_fine; eassumption.
  - do 2 inv_bind E. destruct tmp; inv_bind E; stop E; (eapply upd_base_fine; [eassumption|]); intros g y Eg; [eapply set_text_fine; exact Eg|injection Eg as <-; fine1].
  - do 2 inv_bind E. destruct tmp; inv_bind E; stop E; (eapply upd_base_fine; [eassumption|]); intros g y Eg; [eapply set_text_fine; exact Eg|injection Eg as <-; fine1].
  - do 2 inv_bind E. destruct tmp; inv_bind E; stop E; (eapply upd_base_fine; [eassumption|]); intros g y Eg; [eapply set_text_fine; exact Eg|injection Eg as <-; fine1].
  - do 2 inv_bind E. stop E. eapply upd_base_fine; [eassumption|]. intros g y Eg. eapply set_bool_fine; exact Eg.
  - do 2 inv_bind E. stop E. eapply upd_base_fine; [eassumption|]. intros g y Eg. do 2 inv_bind Eg. injection Eg as <-. apply already_fine.
  - do 3 inv_bind E. stop E. eapply upd_base_fine; [eassumption|]. intros g y Eg. eapply set_bool_fine; exact Eg.
  - do 3 inv_bind E. stop E. eapply upd_base_fine; [eassumption|]. intros g y Eg. eapply set_bool_fine; exact Eg.
  - do 2 inv_bind E. stop E. eapply upd_group_fine; [eassumption|]. intros g y Eg. injection Eg as <-. cbn [snd]. destruct (g_pkgs g); [fine1|constructor].
  - inv_bind E. destruct tmp; inv_bind E; stop E; [|fine1]. eapply upd_group_fine; [eassumption|]. intros g y Eg. inv_bind Eg. injection Eg as <-. constructor.
  - do 2 inv_bind E. stop E. eapply upd_base_fine; [eassumption|]. intros g y Eg. inv_bind Eg. injection Eg as <-. cbn [snd]. eapply required_fine; eassumption.
  - do 3 inv_bind E. stop E. destruct (etype_eqb x TEnv); [eapply upd_env_fine|eapply upd_cat_fine]; try eassumption; intros g y Eg; injection Eg as <-; cbn [snd]; [destruct (e_groups g)|destruct (c_gids g)]; first [fine1|constructor].
  - do 3 inv_bind E. stop E. destruct x0; [eapply upd_env_fine|eapply upd_env_fine|eapply upd_cat_fine]; try eassumption; intros g y Eg; inv_bind Eg; injection Eg as <-; constructor.
  - do 3 inv_bind E. stop E. eapply upd_base_fine; [eassumption|]. intros g y Eg. eapply set_order_fine; exact Eg.
  - do 2 inv_bind E. stop E. eapply upd_base_fine; [eassumption|]. intros g y Eg. inv_bind Eg. injection Eg as <-. cbn [snd]. eapply required_fine; eassumption.
Qed.
Lemma logged_fine st es : Forall fine (ps_log st) -> Forall fine es -> Forall fine (ps_log (logged st es)).
Proof. intros A B. destruct st. cbn in *. now apply Forall_app. Qed.
Lemma step_fine strict st e st' : step strict st e = Ok st' -> Forall fine (ps_log st) -> Forall fine (ps_log st').
Proof.
  intros E F. destruct e as [n a|n|s|n s p]; cbn [step] in E.
  - unfold start_handler in E. cbv zeta in E. inv_bind E. inv_bind E.
    set (st1 := if el_valid _ then st else _) in *. assert (F1 : Forall fine (ps_log st1)) by (subst st1; destruct (el_valid _); [exact F|apply logged_fine; [exact F|fine1]]).
    set (st2 := match ps_text st1 with [] => _ | _ => _ end) in *. assert (F2 : Forall fine (ps_log st2)).
    { subst st2. destruct (ps_text st1) as [|s r]; [exact F1|]. apply (logged_fine st1 [perr E_TEXT_BETWEEN [Some s]]) in F1; [|fine1]. destruct (logged st1 [perr E_TEXT_BETWEEN [Some s]]). exact F1. }
    clearbody st2. clear F st1 F1. assert (F3 : Forall fine (ps_log (logged (with_stack st2 (mkElem (get_type n) (elem_valid (get_type n) (ps_stack st)) x :: ps_stack st2)) x0))).
    { apply logged_fine; [destruct st2; exact F2|]. unfold check_attributes in E1. destruct (strict && unterminated (get_type n)); [discriminate|]. inv_bind E1. injection E1 as <-.
      apply Forall_forall. intros e He. apply in_map_iff in He. destruct He as (k & <- & _). eexists. constructor. }
    destruct (el_valid _); [inv_bind E; injection E as <-; destruct (logged _ _); exact F3|injection E as <-; exact F3].
  - unfold end_handler in E. inv_bind E. cbv zeta in E. assert (F1 : Forall fine (ps_log (with_text st [] 0))) by (destruct st; exact F). set (st1 := with_text st [] 0) in *. clearbody st1.
    destruct (ps_stack st1) as [|el anc]; [discriminate|]. destruct (etype_eqb (get_type n) (el_type el)); [|injection E as <-; exact F1]. inv_bind E. destruct x0 as [[d es] tmp']. injection E as <-.
    assert (F2 : Forall fine es) by (destruct (el_valid el); [eapply postproc_fine; exact E1|injection E1 as _ <- _; constructor]).
    match goal with |- Forall fine (ps_log (with_stack ?z _)) => assert (F3 : Forall fine (ps_log z)); [|destruct z; exact F3] end.
    apply logged_fine; [destruct st1; exact F1|]. apply Forall_app. split; [exact F2|]. destruct tmp'; [|constructor]. destruct (el_valid el); [fine1|constructor].
  - injection E as <-. unfold chars_handler. destruct (forallb is_space s); [exact F|]. destruct st. exact F.
  - injection E as <-. destruct st. exact F.
Qed.
Lemma run_fine strict es : forall st st', run strict st es = Ok st' -> Forall fine (ps_log st) -> Forall fine (ps_log st').
Proof. induction es as [|e r IH]; intros st st' E F; [injection E as <-; exact F|]. cbn in E. inv_bind E. eapply IH; [exact E|]. eapply step_fine; eassumption. Qed.
Lemma feeds_fine strict fs : forall st st', run_feeds strict st fs = Ok st' -> Forall fine (ps_log st) -> Forall fine (ps_log st').
Proof.
  induction fs as [|[es err] r IH]; intros st st' E F; [injection E as <-; exact F|]. cbn in E. inv_bind E. apply (run_fine strict es) in E0; [|exact F]. eapply IH; [exact E|]. destruct err as [m|]; [|exact E0].
  apply (logged_fine x [perr E_PARSER [Some m]]) in E0; [|fine1]. destruct (logged x _). exact E0.
Qed.
Lemma after_fine st st' : after_parse st = Ok st' -> ps_log st' = ps_log st.
Proof. unfold after_parse. destruct (ps_doctype st) as [[[n s] p]|]; [|now intros [= <-]]. destruct (ps_doc st) eqn:D; try discriminate; intros [= <-]; destruct st; reflexivity. Qed.
Lemma file_fine strict st f o st' z : parse_file strict st f o = Ok (st', z) -> Forall fine (ps_log st) -> Forall fine (ps_log st').
Proof.
  unfold parse_file. destruct f as [fs|]; intros E F.
  - do 3 inv_bind E. injection E as <- _. rewrite (after_fine _ _ E2). eapply feeds_fine; [exact E1|]. unfold reinit in E0. destruct (ps_doc st); try discriminate; injection E0 as <-; constructor.
  - injection E as <- _. apply (logged_fine st [perr E_READFD []]) in F; [|fine1]. destruct (logged st _). exact F.
Qed.
Lemma str_fine strict st f o st' z : parse_str strict st f o = Ok (st', z) -> Forall fine (ps_log st) -> Forall fine (ps_log st').
Proof.
  unfold parse_str. intros E F. do 2 inv_bind E. injection E as <- _. rewrite (after_fine _ _ E1). eapply feeds_fine; [exact E0|]. destruct st. exact F.
Qed.
(** *** Saving *)
Lemma text1 code fmt s : log_format code = Some fmt -> format_of_b fmt 1 (pieces_of fmt []) = true ->
  entry_str (mkEn code ENTRY_ERR [Some (LStr s)]) = Ok (weave (pieces_of fmt []) [str_tostr s]) /\ entry_print (mkEn code ENTRY_ERR [Some (LStr s)]) = Ok (weave (pieces_of fmt []) [str_tostr s] ++ NL).
Proof.
  intros Hf Hb. destruct (entry_text (mkEn code ENTRY_ERR [Some (LStr s)]) fmt (pieces_of fmt []) Hf (format_of_b_ok _ _ _ Hb)) as (ss & F & E1 & E2); [cbn [length en_args]; lia|constructor; [exact I|constructor]|].
  cbn [en_args] in F. inversion F as [|? y ? r Hy Hr]; subst. inversion Hr; subst. apply str_arg in Hy. subst y. split; [exact E1|exact E2].
Qed.
Lemma read_left_out v : (forall x, v = Some x -> exists s, x = PStr s) -> reads_as (E_PKGLIST_EMPTY, [v]) (left_out_text v).
Proof.
  intros H. destruct v as [x|]; [|exists (mkEn E_PKGLIST_EMPTY ENTRY_ERR [None]); repeat split; reflexivity].
  destruct (H x eq_refl) as (s & ->). exists (mkEn E_PKGLIST_EMPTY ENTRY_ERR [Some (LStr s)]). split; [reflexivity|].
  exact (text1 E_PKGLIST_EMPTY _ s eq_refl eq_refl).
Qed.
Lemma read_unwritten name : reads_as (E_WRITEF, [Some (PStr (Some name))]) (S_ "Can't write file " ++ name ++ NL).
Proof. exists (mkEn E_WRITEF ENTRY_ERR [Some (LStr (Some name))]). split; [reflexivity|]. exact (text1 E_WRITEF _ (Some name) eq_refl eq_refl). Qed.
Lemma left_texts {A} (out : A -> Prop) bs l vs : ids_left out bs l vs -> Forall (fun x => text_id (bs x)) l -> Forall2 reads_as (map (fun v => (E_PKGLIST_EMPTY, [v])) vs) (map left_out_text vs).
Proof.
  induction 1 as [|x l v r Ho Hg _ IH|x l r Ho _ IH]; intros F; [constructor| |]; inversion F as [|? ? F1 F2]; subst; [|now apply IH].
  constructor; [|now apply IH]. apply read_left_out. intros y ->. exact (F1 _ Hg).
Qed.
Lemma save_texts ac name saved x df d w' r : docwf d -> comps2xml_f ac name saved x df d w0 = Ok (w', r) -> Forall (fun c => snd c = true) (w_calls w') -> text_ids (doc_parts d) ->
  exists ig ic ie,
    ids_left (group_left_out (opt_xopts x)) g_base (pt_groups (doc_parts d)) ig /\
    ids_left (cat_left_out (opt_xopts x)) c_base (pt_cats (doc_parts d)) ic /\
    ids_left (env_left_out (opt_xopts x)) e_base (pt_envs (doc_parts d)) ie /\
    Forall2 reads_as (w_log w') (map left_out_text (ig ++ ic ++ ie) ++ (if saved then [] else [S_ "Can't write file " ++ name ++ NL])).
Proof.
  intros Hd E Ha (T1 & T2 & T3). destruct (save_result _ _ _ _ _ _ _ _ Hd E Ha) as (ig & ic & ie & H1 & H2 & H3 & -> & _).
  exists ig, ic, ie. split; [exact H1|]. split; [exact H2|]. split; [exact H3|]. rewrite !map_app. apply Forall2_app; [|destruct saved; constructor; [apply read_unwritten|constructor]].
  apply Forall2_app; [eapply left_texts; eassumption|]. apply Forall2_app; eapply left_texts; eassumption.
Qed.
