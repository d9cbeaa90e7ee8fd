(** Property theorems for the parser (C29-C33). *)
From Coq Require Import NArith Nnat.
From Verif Require Import CStr CStrFacts HSListModel HSListFacts RTreeModel RTreeFacts RTreeFacts2 RTreeFacts3 RTreeFacts4
  MRTreeModel MRTreeFacts MRTreeFacts2 ObjModel ObjFacts2 Dec StrModel DocModel DocFacts2 SpecA SpecC ParseModel ParseFacts
  SpecF SpecF2 SpecF3 SpecF4.

(** A small file: one group with two packages. *)
Definition st_ (n : string) (a : list (string * string)) : event := EStart (S_ n) (map (fun kv => (S_ (fst kv), S_ (snd kv))) a).
Definition en_ (n : string) : event := EEnd (S_ n).
Definition ch_ (s : string) : event := EChars (S_ s).
Definition file0 (mid : list event) : list event :=
  [st_ "comps" []; ch_ " "; st_ "group" []; st_ "id" []; ch_ "core"; en_ "id"; st_ "name" []; ch_ "Core"; en_ "name"]
  ++ mid ++
  [st_ "description" []; ch_ "all"; en_ "description"; st_ "uservisible" []; ch_ "true"; en_ "uservisible";
   st_ "packagelist" []; st_ "packagereq" [("type", "mandatory")]%string; ch_ "bash"; en_ "packagereq";
   st_ "packagereq" [("arch", "x86_64"); ("requires", "bash")]%string; ch_ "gl"; ch_ "ibc"; en_ "packagereq"; en_ "packagelist"; en_ "group"; en_ "comps"].
Definition outcome (es : list event) : res (list (list (option ostr * Z)) * list Z * nat) :=
  st <- run false (parsed_init None) es ;; d <- live (ps_doc st) ;; q <- doc_groups d ;;
  Ok (map (fun g => map (fun k => (p_name k, p_type k)) (g_pkgs g)) (snd q), map pe_code (ps_log st), length (ps_stack st)).
Lemma nested_dec_sound es : forall (o : list frame),
  match (fix go (o : list frame) es := match es with
    | [] => Some o
    | EStart n a :: r => go ((n, a) :: o) r
    | EEnd n :: r => match o with (m, _) :: o' => if streq n m then go o' r else None | [] => None end
    | _ :: r => go o r end) o es with Some o' => nested o es o' | None => True end.
Proof.
  induction es as [|e es IH]; intros o; [constructor|]. destruct e as [n a|n|s|n s p].
  - specialize (IH ((n, a) :: o)). match goal with |- match ?x with _ => _ end => destruct x eqn:E end; [|exact I]. econstructor; [constructor|exact IH].
  - destruct o as [|[m a] o]; [exact I|]. destruct (streq n m) eqn:Es; [|exact I]. apply streq_iff in Es. subst m. specialize (IH o).
    match goal with |- match ?x with _ => _ end => destruct x eqn:E end; [|exact I]. econstructor; [constructor|exact IH].
  - specialize (IH o). match goal with |- match ?x with _ => _ end => destruct x eqn:E end; [|exact I]. econstructor; [constructor|exact IH].
  - specialize (IH o). match goal with |- match ?x with _ => _ end => destruct x eqn:E end; [|exact I]. econstructor; [constructor|exact IH].
Qed.

(** * C29 *)
(** The stack mirrors the open elements: as many entries, of the same types, with
    the same attributes, and each marked valid exactly when it is in its place. *)
Definition mirrors (o : list frame) (s : list elem) : Prop :=
  length s = length o /\
  forall i n a el, nth_error o i = Some (n, a) -> nth_error s i = Some el ->
    el_type el = get_type n /\ (el_valid el = true <-> legit (map fst (skipn i o))) /\
    (nonempty_keys a -> no_late_prefix a -> forall k, rt_get (el_attrs el) k = Ok (latest a k)).
Lemma mirrors_sim o s : same_stack o s -> mirrors o s.
Proof.
  induction 1 as [|n a o el s H [IH1 IH2] Et Ev Ea]; (split; [|intros i n' a' el' H1 H2]).
  - reflexivity.
  - destruct i; discriminate.
  - cbn. now rewrite IH1.
  - destruct i as [|i]; cbn [nth_error skipn] in *; [|exact (IH2 i n' a' el' H1 H2)].
    inversion H1; subst n' a'. inversion H2; subst el'. split; [exact Et|]. split.
    + rewrite Ev. cbn [map fst]. apply legitb_iff.
    + intros H3 H4 k. exact (attrs_dict_latest a _ H3 H4 Ea k).
Qed.
Theorem C29_stack : forall strict enc es o st, nested [] es o -> run strict (parsed_init enc) es = Ok st -> mirrors o (ps_stack st).
Proof.
  intros strict enc es o st Hn E. destruct (run_sim strict es _ _ _ _ _ (sim_init enc) Hn E) as (t & Hs & _). now apply mirrors_sim.
Qed.
Print Assumptions C29_stack.
(** At the end of the file the stack is empty. *)
Theorem C29_empty_at_end : forall strict enc es st, nested [] es [] -> run strict (parsed_init enc) es = Ok st -> ps_stack st = [].
Proof.
  intros strict enc es st Hn E. destruct (C29_stack strict enc es [] st Hn E) as [H _]. now destruct (ps_stack st).
Qed.
Print Assumptions C29_empty_at_end.
(** The empty stack is never popped: up to the first undefined step everything
    is mirrored, and no end tag that matches an open element is undefined for
    lack of an entry. *)
Theorem C29_no_underflow : forall strict enc es n a o st, nested [] es ((n, a) :: o) -> run strict (parsed_init enc) es = Ok st ->
  exists el anc, ps_stack st = el :: anc /\ el_type el = get_type n /\ mirrors o anc.
Proof.
  intros strict enc es n a o st Hn E. destruct (run_sim strict es _ _ _ _ _ (sim_init enc) Hn E) as (t & Hs & _).
  inversion Hs as [|? ? ? el anc H1 H2 _ _]; subst. exists el, anc. split; [reflexivity|]. split; [exact H2|now apply mirrors_sim].
Qed.
Print Assumptions C29_no_underflow.
Example C29_case :
  nested [] (file0 [st_ "foo" []; st_ "group" []; en_ "group"; en_ "foo"]) [] /\
  outcome (file0 [st_ "foo" []; st_ "group" []; en_ "group"; en_ "foo"]) =
    Ok ([[(Some (Some (S_ "bash")), 3%Z); (Some (Some (S_ "glibc")), 3%Z)]], [E_NOPARENT; E_NOPARENT], 0).
Proof. split; [exact (nested_dec_sound (file0 [st_ "foo" []; st_ "group" []; en_ "group"; en_ "foo"]) [])|vm_compute; reflexivity]. Qed.

(** * C30 *)
(** An element out of its place -- unknown or known, with any content but a
    comps element -- put anywhere in any file where no text is pending: the parser
    goes wrong with it exactly when it does without it; the two results differ
    only in the log; and the log gets the complaint about the element, and
    otherwise only complaints about its content, at that place. *)
Theorem C30_ignored_partial : forall enc pre o n a body post,
  nested [] pre o -> pending [] pre [] -> ~ legit (n :: map fst o) -> nested [] body [] -> Forall inner body ->
  match run false (parsed_init enc) (pre ++ post), run false (parsed_init enc) (pre ++ element n a body ++ post) with
  | Ok s, Ok s' => but_log s s' /\ exists l1 l l2, ps_log s = l1 ++ l2 /\ ps_log s' = l1 ++ (perr E_NOPARENT [Some n] :: l) ++ l2 /\ Forall noise l
  | UB, UB => True
  | NoFuel, NoFuel => True
  | _, _ => False
  end.
Proof. exact ignored. Qed.
Print Assumptions C30_ignored_partial.
(** An unknown name is out of place everywhere. *)
Definition known_names : list string :=
  ["comps"; "group"; "id"; "name"; "description"; "default"; "langonly"; "uservisible"; "biarchonly"; "packagelist"; "packagereq"; "category";
   "grouplist"; "groupid"; "display_order"; "environment"; "optionlist"; "langpacks"; "match"; "blacklist"; "package"; "whiteout"; "ignoredep"]%string.
Theorem C30_unknown_names : forall n up, ~ In n (map S_ known_names) -> ~ legit (n :: up).
Proof.
  intros n up Hn Hl. apply (legit_known n up Hl). destruct (get_type n) eqn:E; [reflexivity|..]; exfalso; apply Hn;
    apply get_type_inv in E; try discriminate; subst n; vm_compute; tauto.
Qed.
Print Assumptions C30_unknown_names.
Definition odd : list event :=
  element (S_ "newfangled") [(S_ "x", S_ "y")] [ch_ "text"; st_ "group" []; st_ "id" []; ch_ "other"; en_ "id"; en_ "group"; ch_ "more"].
Example C30_case :
  outcome (file0 []) = Ok ([[(Some (Some (S_ "bash")), 3%Z); (Some (Some (S_ "glibc")), 3%Z)]], [], 0) /\
  outcome (file0 odd) = Ok ([[(Some (Some (S_ "bash")), 3%Z); (Some (Some (S_ "glibc")), 3%Z)]],
                            [E_NOPARENT; E_ATTR_UNKNOWN; E_NOPARENT; E_TEXT_BETWEEN; E_NOPARENT], 0).
Proof. split; vm_compute; reflexivity. Qed.
Definition name_of (es : list event) : res (option pval) :=
  st <- run false (parsed_init None) es ;; d <- live (ps_doc st) ;; q <- doc_groups d ;;
  match snd q with g :: _ => base_get (g_base g) (S_ "name") | [] => UB end.
(** Finding: an unknown element in the middle of a text loses the part of the
    text before it. *)
Theorem C30_inside_text_refuted : exists pre n a post, ~ In n (map S_ known_names) /\
  name_of (pre ++ post) = Ok (Some (PStr (Some (S_ "Core")))) /\
  name_of (pre ++ element n a [] ++ post) = Ok (Some (PStr (Some (S_ "re")))).
Proof.
  exists [st_ "comps" []; st_ "group" []; st_ "name" []; ch_ "Co"], (S_ "b"), [], [ch_ "re"; en_ "name"; en_ "group"; en_ "comps"].
  split; [vm_compute; intuition discriminate|]. split; vm_compute; reflexivity.
Qed.
Print Assumptions C30_inside_text_refuted.
(** Finding: a comps element starts the document over wherever it stands, so that
    an unknown element around one is not ignored. *)
Theorem C30_inner_comps_refuted : exists pre n a body post, ~ In n (map S_ known_names) /\ nested [] body [] /\
  outcome (pre ++ post) = Ok ([[]], [E_REQUIRED; E_REQUIRED; E_REQUIRED], 0) /\
  outcome (pre ++ element n a body ++ post) = Ok ([], [E_REQUIRED; E_REQUIRED; E_REQUIRED; E_NOPARENT], 0).
Proof.
  exists [st_ "comps" []; st_ "group" []; en_ "group"], (S_ "x"), [], [st_ "comps" []; en_ "comps"], [en_ "comps"].
  split; [vm_compute; intuition discriminate|]. split; [exact (nested_dec_sound [st_ "comps" []; en_ "comps"] [])|]. split; vm_compute; reflexivity.
Qed.
Print Assumptions C30_inner_comps_refuted.

(** * C31 *)
(** Two files with the same digest -- the same tags, and in front of each tag the
    same text, pieces of white space left out -- are read alike: the same stack,
    document and pending text, and logs that differ at most in the text shown in
    "text between elements". *)
Theorem C31_digest_partial : forall enc strict es es' l r, digest [] es l r -> digest [] es' l r ->
  match run strict (parsed_init enc) es, run strict (parsed_init enc) es' with
  | Ok s, Ok s' => ps_stack s' = ps_stack s /\ ps_doc s' = ps_doc s /\ concat (ps_text s') = concat (ps_text s) /\
                   ps_len s' = ps_len s /\ alike_log (ps_log s) (ps_log s')
  | UB, UB => True
  | NoFuel, NoFuel => True
  | _, _ => False
  end.
Proof.
  intros enc strict es es' l r H H'. assert (R := chunking enc strict es es' l r H H').
  destruct (run strict (parsed_init enc) es) as [s| |], (run strict (parsed_init enc) es') as [s'| |]; cbn [ralike] in R; auto.
  destruct R as ((A1 & A2 & _ & _ & _ & _ & A7) & [_ B] & [_ C] & D). rewrite B, C, D. auto 10.
Qed.
Print Assumptions C31_digest_partial.
(** In particular a text may be split wherever neither half is white space. *)
Theorem C31_split_partial : forall enc strict pre a b post, ~ blank a -> ~ blank b ->
  match run strict (parsed_init enc) (pre ++ EChars (a ++ b) :: post), run strict (parsed_init enc) (pre ++ EChars a :: EChars b :: post) with
  | Ok s, Ok s' => ps_stack s' = ps_stack s /\ ps_doc s' = ps_doc s /\ concat (ps_text s') = concat (ps_text s) /\ alike_log (ps_log s) (ps_log s')
  | UB, UB => True
  | NoFuel, NoFuel => True
  | _, _ => False
  end.
Proof.
  intros enc strict pre a b post Ha Hb. assert (R := splitting enc strict pre a b post Ha Hb).
  destruct (run strict (parsed_init enc) (pre ++ EChars (a ++ b) :: post)) as [s| |], (run strict (parsed_init enc) (pre ++ EChars a :: EChars b :: post)) as [s'| |];
    cbn [ralike] in R; auto.
  destruct R as ((A1 & A2 & _ & _ & _ & _ & A7) & _ & _ & D). auto.
Qed.
Print Assumptions C31_split_partial.
Definition named (cs : list string) : list event :=
  [st_ "comps" []; st_ "group" []; st_ "name" []] ++ map ch_ cs ++ [en_ "name"; en_ "group"; en_ "comps"].
Example C31_case : name_of (named ["Core"]%string) = Ok (Some (PStr (Some (S_ "Core")))) /\ name_of (named ["Co"; "r"; "e"]%string) = name_of (named ["Core"]%string).
Proof. split; vm_compute; reflexivity. Qed.
(** Finding: a piece that is all white space is dropped, wherever it stands in the
    text.  The same characters cut differently give different names; and expat
    hands out line ends as pieces of their own, so that a text of several lines
    loses its line ends. *)
Theorem C31_white_space_refuted : exists cs cs', concat (map S_ cs) = concat (map S_ cs') /\
  name_of (named cs) = Ok (Some (PStr (Some (S_ "a b")))) /\ name_of (named cs') = Ok (Some (PStr (Some (S_ "ab")))).
Proof. exists ["a b"]%string, ["a"; " "; "b"]%string. split; [reflexivity|]. split; vm_compute; reflexivity. Qed.
Print Assumptions C31_white_space_refuted.

(** * C32 *)
(** Properly nested events never make the handlers go wrong if they are [safe]:
    no comps inside of a group, category or environment; a match, package or
    ignoredep in its place carries its key attribute; uservisible, biarchonly and
    display_order in their place have a text, and a number in display_order fits an
    int.  The attribute table without its end is taken to be followed by NULL. *)
Theorem C32_safe_partial : forall enc es o, safe [] [] es o -> exists st, run false (parsed_init enc) es = Ok st.
Proof. intros enc es o H. destruct (run_ok es _ _ _ _ (fit_init enc) H) as (st & t & E & _). eauto. Qed.
Print Assumptions C32_safe_partial.
(** A parser that reads any number of files one after the other, each safe, with
    a comps element, and with no text left over; whether or not expat fails. *)
Theorem C32_session_partial : forall enc files, Forall (fun f => fine (fst f)) files ->
  exists st, session (parsed_init enc) files = Ok st /\ parsed_destroy st = Ok tt.
Proof.
  intros enc files H. destruct (session_ok files (parsed_init enc)) as (st & E & _ & Hd); [split; [reflexivity|discriminate]|exact H|].
  exists st. split; [exact E|]. unfold parsed_destroy. destruct (ps_doc st); congruence.
Qed.
Print Assumptions C32_session_partial.
(** The conditions can be met: [file0] above, with anything unknown inside. *)
Fixpoint safe_b (o : list frame) (t : str) (es : list event) : bool :=
  match es with
  | [] => true
  | EStart n a :: r =>
      (negb (streq n (S_ "comps")) || negb (existsb (fun x => existsb (streq x) (map fst o)) objects)) &&
      (negb (legitb (n :: map fst o)) ||
        (forallb (fun p => match fst p with [] => false | _ => true end) a && nlp_b [] a &&
         (negb (streq n (S_ "match") || streq n (S_ "package")) || match latest a (S_ "name") with Some _ => true | None => false end) &&
         (negb (streq n (S_ "ignoredep")) || match latest a (S_ "requires") with Some _ => true | None => false end))) &&
      safe_b ((n, a) :: o) [] r
  | EEnd n :: r =>
      match o with
      | [] => false
      | (m, _) :: o' =>
          streq n m &&
          (negb (legitb (map fst o)) ||
            (negb (streq n (S_ "uservisible") || streq n (S_ "biarchonly")) || match t with [] => false | _ => true end) &&
            (negb (streq n (S_ "display_order")))) &&
          safe_b o' [] r
      end
  | EChars s :: r => safe_b o (if forallb is_space s then t else t ++ s) r
  | EDoctype _ _ _ :: r => safe_b o t r
  end.
Lemma safe_b_sound es : forall o t, safe_b o t es = true -> exists o', safe o t es o'.
Proof.
  induction es as [|e es IH]; intros o t H; [eexists; constructor|]. destruct e as [n a|n|s|n s p]; cbn [safe_b] in H.
  - apply andb_true_iff in H. destruct H as [H H3]. apply andb_true_iff in H. destruct H as [H1 H2]. destruct (IH _ _ H3) as (o' & Ho).
    exists o'. econstructor; [constructor|constructor| |exact Ho]. constructor.
    + intros -> x Hx Hin. rewrite streq_refl in H1. cbn [negb orb] in H1. apply negb_true_iff in H1.
      assert (Ht : existsb (fun x => existsb (streq x) (map fst o)) objects = true).
      { apply existsb_exists. exists x. split; [exact Hx|]. apply existsb_exists. exists x. split; [exact Hin|apply streq_refl]. }
      congruence.
    + intros Hl. apply legitb_iff in Hl. rewrite Hl in H2. cbn [negb orb] in H2. rewrite !andb_true_iff in H2. destruct H2 as (((K1 & K2) & K3) & K4).
      apply nonempty_keys_b in K1. apply no_late_prefix_b in K2. split.
      * intros Hn. split; [exact K1|]. split; [exact K2|].
        assert (Hb : streq n (S_ "match") || streq n (S_ "package") = true) by (apply orb_true_iff; destruct Hn as [-> | ->]; [left|right]; apply streq_refl).
        rewrite Hb in K3. destruct (latest a (S_ "name")); [discriminate|discriminate].
      * intros ->. split; [exact K1|]. split; [exact K2|]. rewrite streq_refl in K4. destruct (latest a (S_ "requires")); discriminate.
  - destruct o as [|[m b] o]; [discriminate|]. apply andb_true_iff in H. destruct H as [H H3]. apply andb_true_iff in H. destruct H as [H1 H2].
    apply streq_iff in H1. subst m. destruct (IH _ _ H3) as (o' & Ho). exists o'. econstructor; [constructor|constructor| |exact Ho]. constructor.
    intros Hl. apply legitb_iff in Hl. rewrite Hl in H2. cbn [negb orb] in H2. apply andb_true_iff in H2. destruct H2 as [K1 K2].
    assert (Kd : n <> S_ "display_order") by (intros ->; rewrite streq_refl in K2; discriminate).
    split; [|congruence]. intros [Hn|[Hn|Hn]]; [| |congruence]; subst n; destruct t; discriminate.
  - destruct (IH _ _ H) as (o' & Ho). exists o'. destruct (forallb is_space s) eqn:Es.
    + econstructor; [constructor|apply text_blank; now apply blank_iff|constructor|exact Ho].
    + econstructor; [constructor|apply text_more; rewrite <- blank_iff; congruence|constructor|exact Ho].
  - destruct (IH _ _ H) as (o' & Ho). exists o'. econstructor; [constructor|constructor|constructor|exact Ho].
Qed.

Definition extras : list event :=
  [st_ "langpacks" []; st_ "match" [("name", "firefox"); ("install", "firefox-%s")]%string; en_ "match"; en_ "langpacks";
   st_ "whiteout" []; st_ "ignoredep" [("package", "a"); ("requires", "b")]%string; en_ "ignoredep"; en_ "whiteout";
   st_ "group" []; st_ "odd" []; st_ "match" []; en_ "match"; st_ "uservisible" []; en_ "uservisible"; en_ "odd"; en_ "group"].
Fixpoint pending_b (t : str) (es : list event) : bool :=
  match es with
  | [] => match t with [] => true | _ => false end
  | EStart _ _ :: r | EEnd _ :: r => pending_b [] r
  | EChars s :: r => pending_b (if forallb is_space s then t else t ++ s) r
  | EDoctype _ _ _ :: r => pending_b t r
  end.
Lemma pending_b_sound es : forall t, pending_b t es = true -> pending t es [].
Proof.
  induction es as [|e es IH]; intros t H.
  - destruct t; [constructor|discriminate].
  - destruct e as [n a|n|s|n s p]; cbn [pending_b] in H; try (econstructor; [constructor|exact (IH _ H)]).
    destruct (forallb is_space s) eqn:Es; (econstructor; [|exact (IH _ H)]).
    + apply text_blank. now apply blank_iff.
    + apply text_more. rewrite <- blank_iff. congruence.
Qed.
Example C32_case : (exists o, safe [] [] (file0 odd) o) /\ (exists o, safe [] [] ([st_ "comps" []] ++ extras ++ [en_ "comps"]) o) /\
  fine [(file0 odd, None); ([], Some (S_ "no element found"))] /\ fine [(file0 [], None)].
Proof.
  split; [apply safe_b_sound; vm_compute; reflexivity|]. split; [apply safe_b_sound; vm_compute; reflexivity|].
  split; (split; [apply safe_b_sound; vm_compute; reflexivity|]); (split; [apply pending_b_sound; vm_compute; reflexivity|]); exists []; now left.
Qed.
(** Findings: each condition is needed. *)
Theorem C32_refuted : exists bodies, length bodies = 8 /\
  Forall (fun es => nested [] es [] /\ run false (parsed_init None) es = UB) bodies.
Proof.
  exists (map (fun b => [st_ "comps" []] ++ b ++ [en_ "comps"])
    [ (* a comps inside of a group: the group is lost, and the next id has no group *)
      [st_ "group" []; st_ "comps" []; en_ "comps"; st_ "id" []; ch_ "x"; en_ "id"; en_ "group"];
      (* the key of a dictionary entry is missing: strlen(NULL) *)
      [st_ "langpacks" []; st_ "match" [("install", "x")]%string; en_ "match"; en_ "langpacks"];
      [st_ "blacklist" []; st_ "package" []; en_ "package"; en_ "blacklist"];
      [st_ "whiteout" []; st_ "ignoredep" [("package", "x")]%string; en_ "ignoredep"; en_ "whiteout"];
      (* an empty element: strcmp(NULL, ...), sscanf(NULL, ...) *)
      [st_ "group" []; st_ "uservisible" []; en_ "uservisible"; en_ "group"];
      [st_ "group" []; st_ "biarchonly" []; ch_ "  "; en_ "biarchonly"; en_ "group"];
      [st_ "category" []; st_ "display_order" []; en_ "display_order"; en_ "category"];
      (* a number that does not fit: undefined for %d *)
      [st_ "category" []; st_ "display_order" []; ch_ "2147483648"; en_ "display_order"; en_ "category"] ]).
  split; [reflexivity|].
  repeat (constructor; [split; [match goal with |- nested [] ?es [] => exact (nested_dec_sound es []) end|vm_compute; reflexivity]|]). constructor.
Qed.
Print Assumptions C32_refuted.
(** Finding: the attribute tables of name and description lack their end
    (comps_elem.c:60, 70), and comps_parse_check_attributes reads on behind them.  So
    every file with a name or a description makes the parser read behind the table. *)
Theorem C32_attribute_table_refuted : forall enc es, (exists a, In (EStart (S_ "name") a) es \/ In (EStart (S_ "description") a) es) ->
  forall st, run true (parsed_init enc) es <> Ok st.
Proof.
  intros enc es (a & H) st E. assert (Hn : exists n, In (EStart n a) es /\ unterminated (get_type n) = true).
  { destruct H as [H|H]; eexists; (split; [exact H|reflexivity]). }
  destruct Hn as (n & Hin & Hu). apply in_split in Hin. destruct Hin as (l1 & l2 & ->). rewrite run_app in E. apply bind_ok in E. destruct E as (s & _ & E).
  cbn [run step] in E. apply bind_ok in E. destruct E as (s1 & E & _). unfold start_handler in E. apply bind_ok in E. destruct E as (dict & _ & E).
  apply bind_ok in E. destruct E as (x & E & _). unfold check_attributes in E. rewrite Hu in E. discriminate.
Qed.
Print Assumptions C32_attribute_table_refuted.
(** Finding: a parser used again keeps pointing at the document it gave up.  If
    the second file has no comps element, the document is given up twice. *)
Theorem C32_reuse_refuted : exists f1 f2 st c st' c', fine f1 /\
  parse_file false (parsed_init None) (Some f1) None = Ok (st, c) /\ c = 0%Z /\
  parse_file false st (Some f2) None = Ok (st', c') /\ parsed_destroy st' = UB /\
  (* and with a doctype it is written to *)
  parse_file false st (Some [([EDoctype (Some (S_ "comps")) None None], Some (S_ "no element found"))]) None = UB.
Proof.
  exists [(file0 [], None)], [([], Some (S_ "no element found"))]. do 4 eexists.
  split; [apply C32_case|]. split; [vm_compute; reflexivity|]. split; [reflexivity|].
  split; [vm_compute; reflexivity|]. split; vm_compute; reflexivity.
Qed.
Print Assumptions C32_reuse_refuted.

(** * C33 *)
(** comps_parse_file, with a new parser or a used one. *)
Theorem C33_file : forall strict st f o st' c, parse_file strict st f o = Ok (st', c) ->
  (c = -1 <-> (f = None \/ exists fs, f = Some fs /\ failing fs))%Z /\
  (c = 0 <-> exists fs, f = Some fs /\ ~ failing fs /\ ps_log st' = [])%Z /\
  (c = 1 <-> exists fs, f = Some fs /\ ~ failing fs /\ ps_log st' <> [])%Z.
Proof. exact file_code. Qed.
Print Assumptions C33_file.
(** What the log of such a parse is: the complaints of this parse alone, those of
    each handler call in turn. *)
Theorem C33_log_grows : forall strict st e st', step strict st e = Ok st' -> exists l, ps_log st' = ps_log st ++ l.
Proof. exact step_log. Qed.
Print Assumptions C33_log_grows.
(** A file that is read with code 0 is as it should be: at each start tag, the
    element is in its place, there is no stray text in front of it, and it has only
    the attributes it may have; at each end tag, elements that take no text have none,
    and elements that need a text have one. *)
Theorem C33_clean : forall st fs o st', ps_len st = 0 -> parse_file false st (Some fs) o = Ok (st', 0%Z) ->
  forall pre e post op t, concat (map fst fs) = pre ++ e :: post -> nested [] pre op -> pending [] pre t ->
  match e with
  | EStart n a => legit (n :: map fst op) /\ t = [] /\ (nonempty_keys a -> no_late_prefix a -> forall k v, In (k, v) a -> may_have n k)
  | EEnd n => forall a op', op = (n, a) :: op' -> legit (map fst op) -> (In n (map S_ containers) -> t = []) /\ (In n (map S_ texts) -> t <> [])
  | _ => True
  end.
Proof. intros st fs o st' Hl. apply clean_file. split; [constructor|exact Hl]. Qed.
Print Assumptions C33_clean.
(** comps_parse_str with a new parser; a used one keeps its log and its failure
    (C33_str_again_refuted). *)
Theorem C33_str_partial : forall strict enc f o st' c, parse_str strict (parsed_init enc) f o = Ok (st', c) ->
  (c = -1 <-> snd f <> None)%Z /\ (c = 0 <-> snd f = None /\ ps_log st' = [])%Z.
Proof.
  intros strict enc f o st' c E. destruct (str_code _ _ _ _ _ _ E) as (l & L & C1 & C2). cbn [parsed_init ps_fatal ps_log app] in *. subst l. split.
  - rewrite C1. intuition discriminate.
  - rewrite C2. intuition auto.
Qed.
Print Assumptions C33_str_partial.
Example C33_case :
  (exists st, parse_file false (parsed_init None) (Some [(file0 [], None); ([], None)]) None = Ok (st, 0%Z)) /\
  (exists st, parse_file false (parsed_init None) (Some [(file0 odd, None)]) None = Ok (st, 1%Z)) /\
  (exists st, parse_file false (parsed_init None) (Some [(file0 [], Some (S_ "junk after document element"))]) None = Ok (st, (-1)%Z)) /\
  (exists st, parse_file false (parsed_init None) None None = Ok (st, (-1)%Z)) /\
  (exists st, parse_str false (parsed_init None) (file0 [], None) None = Ok (st, 0%Z)).
Proof. repeat (split; [eexists; vm_compute; reflexivity|]). eexists; vm_compute; reflexivity. Qed.
(** Finding: comps_parse_str does not start over.  A parser that has failed once,
    or has complained once, reports that for every later text. *)
Theorem C33_str_again_refuted : exists f1 f2 st st', snd f2 = None /\
  parse_str false (parsed_init None) f2 None = Ok (st, 0%Z) /\
  (exists st1, parse_str false (parsed_init None) f1 None = Ok (st1, (-1)%Z) /\ parse_str false st1 f2 None = Ok (st', (-1)%Z)).
Proof.
  exists ([st_ "comps" []; en_ "comps"], Some (S_ "syntax error")), (file0 [], None). do 2 eexists. split; [reflexivity|].
  split; [vm_compute; reflexivity|]. eexists. split; [vm_compute; reflexivity|]. vm_compute; reflexivity.
Qed.
Print Assumptions C33_str_again_refuted.
(** Finding: a file that breaks off inside of a text leaves the length of that
    text behind (text_buffer_len is not reset); the next file read by the same parser
    gets complaints about text that is not there. *)
Theorem C33_stale_length_refuted : exists f1 f2 st st1 c1 st2,
  parse_file false (parsed_init None) (Some f2) None = Ok (st, 0%Z) /\
  parse_file false (parsed_init None) (Some f1) None = Ok (st1, c1) /\
  parse_file false st1 (Some f2) None = Ok (st2, 1%Z) /\ map pe_args (ps_log st2) = [[Some []]].
Proof.
  exists [([st_ "comps" []; ch_ "x"], Some (S_ "no element found"))], [([st_ "comps" []; en_ "comps"], None)]. do 4 eexists.
  split; [vm_compute; reflexivity|]. split; [vm_compute; reflexivity|]. split; [vm_compute; reflexivity|]. vm_compute; reflexivity.
Qed.
Print Assumptions C33_stale_length_refuted.
