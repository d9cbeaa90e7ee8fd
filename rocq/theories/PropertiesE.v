(** Property theorems for text rendering, validation and the log (C35-C39). *)
From Coq Require Import NArith Nnat Sorted.
From Verif Require Import CStr CStrFacts HSListModel HSListFacts SetModel SetFacts RTreeModel RTreeFacts RTreeFacts2 RTreeFacts3
  RTreeFacts4 MRTreeModel SpecA ObjModel ObjFacts ObjFacts2 SpecC PropertiesC DocModel DocFacts DocFacts2 SpecD SpecD2 PropertiesD
  Dec StrModel StrFacts LogModel ValidateModel ValidateFacts SpecE.

(** * C35 *)
(** Numbers: full for non-negative ones; a negative number is undefined
    (C35_negative_refuted). *)
Theorem C35_num_partial : forall z, (0 <= z)%Z -> exists s, num_tostr z = Ok s /\ numeral_of (Z.to_N z) s.
Proof. exact num_rendered. Qed.
Print Assumptions C35_num_partial.
Example C35_num_case : num_tostr 0 = Ok (S_ "0") /\ num_tostr 1000 = Ok (S_ "1000") /\ num_tostr 999 = Ok (S_ "999") /\
  ~ numeral_of 10 (S_ "010") /\ ~ numeral_of 7 [].
Proof.
  split; [reflexivity|]. split; [reflexivity|]. split; [reflexivity|]. split.
  - intros (_ & _ & [H|H] & _); [discriminate|]. vm_compute in H. congruence.
  - intros (_ & _ & _ & H). congruence.
Qed.
(** Finding: comps_num_tostr takes log10 of the number. *)
Theorem C35_negative_refuted : forall z, (z < 0)%Z -> num_tostr z = UB.
Proof. exact num_tostr_neg. Qed.
Print Assumptions C35_negative_refuted.
(** Lists, packages and group ids: the buffer always suffices. *)
Theorem C35_list : forall items, list_tostr items = Ok (brackets items).
Proof. exact list_tostr_ok. Qed.
Print Assumptions C35_list.
Example C35_list_case : list_tostr [S_ "a"; []; S_ "bc"] = Ok (S_ "[a, , bc]") /\ list_tostr [] = Ok (S_ "[]").
Proof. split; reflexivity. Qed.
Theorem C35_members : (forall p, pkg_tostr p = Ok (pkg_shown p)) /\ (forall g, gid_tostr g = Ok (gid_shown g)).
Proof. split; [exact pkg_rendered|exact gid_rendered]. Qed.
Print Assumptions C35_members.
Example C35_members_case : pkg_tostr (mkp "x" 0) =
  Ok (S_ "<COMPS_DocGroupPackage name='x' type='default' requires='' basearchonly='False'>").
Proof. vm_compute. reflexivity. Qed.
(** Groups, categories and environments. *)
Theorem C35_group : forall g, numbers_ok (g_base g) group_keys ->
  exists ps, Forall2 (shown (g_base g)) group_keys ps /\
    group_tostr g = Ok (object_text (S_ "<COMPS_Group ") ps [brackets (map pkg_shown (g_pkgs g))]).
Proof. exact group_rendered. Qed.
Print Assumptions C35_group.
Theorem C35_category : forall c, numbers_ok (c_base c) other_keys ->
  exists ps, Forall2 (shown (c_base c)) other_keys ps /\
    category_tostr c = Ok (object_text (S_ "<COMPS_Category ") ps [brackets (map gid_shown (c_gids c))]).
Proof. exact category_rendered. Qed.
Print Assumptions C35_category.
Theorem C35_env : forall e, numbers_ok (e_base e) other_keys ->
  exists ps, Forall2 (shown (e_base e)) other_keys ps /\
    env_tostr e = Ok (object_text (S_ "<COMPS_Env ") ps
      [brackets (map gid_shown (e_groups e)); brackets (map gid_shown (e_options e))]).
Proof. exact env_rendered. Qed.
Print Assumptions C35_env.
Example C35_group_case :
  let g := mkG (named_base "core" [str_p "name" "Core"; (S_ "display_order", PNum 10); (S_ "def", PNum 1)]) [mkp "x" 0] in
  numbers_ok (g_base g) group_keys /\
  group_tostr g = Ok (S_ "<COMPS_Group core, Core, , 10, 1, , , , [<COMPS_DocGroupPackage name='x' type='default' requires='' basearchonly='False'>]>").
Proof.
  split; [|vm_compute; reflexivity].
  intros k z H. unfold group_keys in H. cbn [In] in H.
  decompose [or] H; subst; try contradiction; vm_compute; intros [= <-]; discriminate.
Qed.
(** The architecture attribute. *)
Theorem C35_arch : forall l, arch_str (Some l) = Ok (join (S_ " ") (map str_tostr l)).
Proof. exact arch_str_ok. Qed.
Print Assumptions C35_arch.
Example C35_arch_case : arch_str (Some [Some (S_ "i386"); None; Some (S_ "ppc")]) = Ok (S_ "i386  ppc").
Proof. reflexivity. Qed.
(** Validation messages: positions below 10^9 fit, a position from 10^9 on
    overflows the buffer (digits_count stops at nine digits). *)
Theorem C35_duplicate_message_partial : forall i x, (N.of_nat i < 10 ^ 9)%N -> (N.of_nat x < 10 ^ 9)%N ->
  dup_msg i x = Ok (S_ "Duplicate items at " ++ dec (N.of_nat i) ++ S_ " and " ++ dec (N.of_nat x)).
Proof. exact dup_msg_ok. Qed.
Print Assumptions C35_duplicate_message_partial.
Example C35_duplicate_message_case : dup_msg 9 10 = Ok (S_ "Duplicate items at 9 and 10").
Proof. vm_compute. reflexivity. Qed.
Theorem C35_duplicate_message_refuted : forall i x,
  (N.of_nat i < 10 ^ 9)%N -> (10 ^ 9 <= N.of_nat x)%N -> (N.of_nat x < 2 ^ 31)%N -> dup_msg i x = UB.
Proof. exact dup_msg_overflow. Qed.
Print Assumptions C35_duplicate_message_refuted.
Example C35_duplicate_message_refuted_case : exists x, (10 ^ 9 <= N.of_nat x)%N /\ (N.of_nat x < 2 ^ 31)%N.
Proof. exists (N.to_nat (10 ^ 9)). rewrite N2Nat.id. split; [apply N.le_refl|reflexivity]. Qed.
Theorem C35_prefix : forall p l, exists l', valgenres_prefix (VErr l) p = Ok (VErr l') /\
  Forall2 (fun e e' => fst e' = fst e /\ snd e' = p ++ snd e) l l'.
Proof.
  intros p l. exists (pfx p l). cbn [valgenres_prefix]. rewrite prefix_msgs_ok. split; [reflexivity|].
  induction l; constructor; auto.
Qed.
Print Assumptions C35_prefix.
Example C35_prefix_case : valgenres_prefix (VErr [(VGid (mki "a" true), S_ "attr empty")]) (S_ "GroupId name check: ")
  = Ok (VErr [(VGid (mki "a" true), S_ "GroupId name check: attr empty")]).
Proof. vm_compute. reflexivity. Qed.

(** * C36 *)
Theorem C36_arch_roundtrip : forall l, Forall word l ->
  exists s, arch_str (Some (map Some l)) = Ok s /\ split_arches s = map Some l.
Proof. exact arch_roundtrip. Qed.
Print Assumptions C36_arch_roundtrip.
Example C36_arch_roundtrip_case : Forall word [S_ "i386"; S_ "x86_64"] /\
  split_arches (S_ "i386 x86_64") = [Some (S_ "i386"); Some (S_ "x86_64")].
Proof.
  split; [|reflexivity].
  constructor; [|constructor; [|constructor]]; (split; [discriminate|]); split; intros H; cbn [In S_ list_ascii_of_string] in H;
    decompose [or] H; try discriminate; contradiction.
Qed.
(** What an arbitrary attribute splits into. *)
Theorem C36_split : forall s, exists l, split_arches s = map Some l /\ tokens s l /\
  forall l', tokens s l' -> l' = l.
Proof.
  intros s. destruct (arch_split s) as (l & E & T). exists l. split; [exact E|]. split; [exact T|].
  intros l' T'. pose proof (tokens_split s l' T') as E'. rewrite E in E'.
  clear -E'. revert l' E'. induction l as [|x l IH]; intros [|y l'] H; try discriminate; [reflexivity|].
  injection H as <- H. f_equal. now apply IH.
Qed.
Print Assumptions C36_split.
Example C36_split_case : split_arches (S_ ", i386,,x86_64 ") = [Some (S_ "i386"); Some (S_ "x86_64")].
Proof. reflexivity. Qed.
(** Without the hypothesis the round trip fails. *)
Theorem C36_any_name_refuted : exists l s, arch_str (Some l) = Ok s /\ split_arches s <> l.
Proof. exists [Some []; Some (S_ "x")], (S_ " x"). split; [reflexivity|discriminate]. Qed.
Print Assumptions C36_any_name_refuted.

(** * C37 *)
Theorem C37_messages : forall d, dreach d -> checkable (doc_parts d) ->
  exists out, doc_says (doc_parts d) out /\
    doc_validate d = Ok (match out with [] => VOk | _ => VErr out end).
Proof. intros d H. exact (doc_checked d (dreach_wf d H)). Qed.
Print Assumptions C37_messages.
Theorem C37_ok_iff : forall d, dreach d -> checkable (doc_parts d) ->
  (doc_validate d = Ok VOk <-> doc_valid (doc_parts d)).
Proof. intros d H. exact (doc_ok_iff d (dreach_wf d H)). Qed.
Print Assumptions C37_ok_iff.
(** Single objects. *)
Theorem C37_objects :
  (forall g, id_string (g_base g) -> small (g_pkgs g) -> exists ms, group_says g ms /\
     execute g group_rules = Ok (verdict (map (fun m => (VGroup g, m)) ms))) /\
  (forall c, id_string (c_base c) -> small (c_gids c) -> exists ms, category_says c ms /\
     execute c category_rules = Ok (verdict (map (fun m => (VCategory c, m)) ms))) /\
  (forall e, id_string (e_base e) -> small (e_groups e) -> small (e_options e) -> exists ms, env_says e ms /\
     execute e env_rules = Ok (verdict (map (fun m => (VEnv e, m)) ms))).
Proof. split; [exact group_checked|]. split; [exact category_checked|exact env_checked]. Qed.
Print Assumptions C37_objects.
Definition ex_bad : list dop :=
  [ OAddGroup (gr "a" [mkp "x" 0; mkp "y" 0; mkp "x" 0]); OAddGroup (gr "" [mkp "x" 0; mkp "x" 0; mkp "x" 0]);
    OAddCat (mkC base_create [mki "a" true]) ].
Lemma base_create_ok : breach base_create.
Proof. split; [constructor|split; constructor]. Qed.
Lemma ex_bad_ok : dreach (doc_of ex_bad).
Proof.
  apply doc_of_ok. unfold ex_bad. constructor; [apply named_base_ok|]. constructor; [apply named_base_ok|].
  constructor; [exact base_create_ok|constructor].
Qed.
Example C37_case : dreach (doc_of ex_bad) /\ checkable (doc_parts (doc_of ex_bad)) /\
  match doc_validate (doc_of ex_bad) with
  | Ok (VErr l) => map snd l =
      [ S_ "Groups check:0.Group unique package list check: Duplicate items at 0 and 2";
        S_ "Groups check:1.Group id check: attr empty";
        S_ "Groups check:1.Group unique package list check: Duplicate items at 0 and 1";
        S_ "Groups check:1.Group unique package list check: Duplicate items at 0 and 2";
        S_ "Categories check:0.Category id check: attr not set" ]
  | _ => False
  end.
Proof.
  split; [exact ex_bad_ok|]. split; [|vm_compute; reflexivity].
  assert (S3 : forall (A : Type) (l : list A), length l <= 3 -> small l) by (intros A l H; unfold small; lia).
  assert (E : pt_groups (doc_parts (doc_of ex_bad)) = [gr "a" [mkp "x" 0; mkp "y" 0; mkp "x" 0]; gr "" [mkp "x" 0; mkp "x" 0; mkp "x" 0]]
    /\ pt_cats (doc_parts (doc_of ex_bad)) = [mkC base_create [mki "a" true]] /\ pt_envs (doc_parts (doc_of ex_bad)) = [])
    by (vm_compute; auto).
  destruct E as (E1 & E2 & E3). unfold checkable. rewrite E1, E2, E3.
  split; [|split; [|split; [constructor|split; [|split]]]].
  - constructor; [|constructor; [|constructor]]; (split; [intros v H; vm_compute in H; injection H as <-; eauto|apply S3; cbn; lia]).
  - constructor; [|constructor]. split; [intros v H; discriminate|apply S3; cbn; lia].
  - apply S3; cbn; lia.
  - apply S3; cbn; lia.
  - apply S3; cbn; lia.
Qed.
Example C37_valid_case : dreach ex_d1 /\ doc_validate ex_d1 = Ok VOk /\ pt_groups (doc_parts ex_d1) <> [].
Proof. split; [apply ex_d1_ok|]. split; [vm_compute; reflexivity|vm_compute; discriminate]. Qed.
(** Finding: an id set to a string without text passes. *)
Theorem C37_null_id_refuted : exists g, rt_get (b_props (g_base g)) (S_ "id") = Ok (Some (PStr None)) /\ execute g group_rules = Ok VOk.
Proof.
  exists (mkG (match props_of [(S_ "id", PStr None)] with Ok b => b | _ => base_create end) []).
  split; vm_compute; reflexivity.
Qed.
Print Assumptions C37_null_id_refuted.
(** Finding: the rules of packages and group ids are never run, so members
    without a name pass. *)
Theorem C37_member_names_refuted : exists d, dreach d /\ doc_validate d = Ok VOk /\
  exists g p, In g (pt_groups (doc_parts d)) /\ In p (g_pkgs g) /\ execute p pkg_rules <> Ok VOk.
Proof.
  exists (doc_of [OAddGroup (gr "a" [mkPkg None None None 0 None])]). split.
  - apply doc_of_ok. constructor; [apply named_base_ok|constructor].
  - split; [vm_compute; reflexivity|]. exists (gr "a" [mkPkg None None None 0 None]), (mkPkg None None None 0 None).
    split; [vm_compute; auto|]. split; [now left|]. vm_compute. discriminate.
Qed.
Print Assumptions C37_member_names_refuted.

(** * C38 *)
(** Lists as (address, value), any transitive comparison: the objects reported do
    not depend on addresses; [consistent]: one value per address. *)
Theorem C38_unique_check : forall A (cmp : A -> A -> bool) o l, transitive cmp -> consistent l ->
  (N.of_nat (length l) <= 10 ^ 9)%N ->
  exists ps, dup_pairs cmp (map snd l) ps /\
    unique_check cmp o l = Ok (match ps with [] => VOk | _ =>
      VErr (map (fun p => (o, S_ "Duplicate items at " ++ dec (N.of_nat (fst p)) ++ S_ " and " ++ dec (N.of_nat (snd p)))) ps) end).
Proof.
  intros A cmp o l Ht Hc Hl. destruct (unique_reports cmp o l Ht Hc Hl) as (ps & H & E).
  exists ps. split; [exact H|]. rewrite E. now destruct ps.
Qed.
Print Assumptions C38_unique_check.
Theorem C38_ok_iff : forall A (cmp : A -> A -> bool) o l, transitive cmp -> consistent l ->
  (N.of_nat (length l) <= 10 ^ 9)%N -> (unique_check cmp o l = Ok VOk <-> distinct cmp (map snd l)).
Proof.
  intros A cmp o l Ht Hc Hl. destruct (unique_reports cmp o l Ht Hc Hl) as (ps & H & ->).
  rewrite <- (dup_pairs_none cmp _ ps H). destruct ps; cbn; split; congruence.
Qed.
Print Assumptions C38_ok_iff.
(** The pairs are determined by the list. *)
Theorem C38_pairs_unique : forall A (cmp : A -> A -> bool) vs ps qs, dup_pairs cmp vs ps -> dup_pairs cmp vs qs -> ps = qs.
Proof. intros A. exact dup_pairs_unique. Qed.
Print Assumptions C38_pairs_unique.
Example C38_case : transitive Nat.eqb /\ consistent [(5, 1); (7, 2); (5, 1); (9, 2); (8, 1)] /\
  let o := VGid (mki "a" true) in
  unique_check Nat.eqb o [(5, 1); (7, 2); (5, 1); (9, 2); (8, 1)] =
    Ok (VErr [(o, S_ "Duplicate items at 0 and 2"); (o, S_ "Duplicate items at 1 and 3"); (o, S_ "Duplicate items at 0 and 4")]).
Proof.
  split; [intros a b c H1 H2; apply Nat.eqb_eq in H1, H2; subst; apply Nat.eqb_refl|].
  split; [|vm_compute; reflexivity].
  intros p q Hp Hq. cbn in Hp, Hq. decompose [or] Hp; decompose [or] Hq; subst; cbn; try contradiction; congruence.
Qed.

(** * C39 *)
(** Any history of calls on a new log that does not echo to stderr succeeds and
    leaves exactly the calls' entries, in order; with echo the texts of the
    entries are written in the same order. *)
Theorem C39_history : forall cs, exists l, log_run (log_create false) cs = Ok l /\
  hitems (lg_entries l) = map entry_of cs /\ lg_err l = [].
Proof.
  intros cs. destruct (log_run_silent cs (log_create false) good_empty eq_refl) as (l & E).
  exists l. split; [exact E|]. destruct (log_run_spec cs (log_create _) _ good_empty E) as (_ & H & _ & He). auto.
Qed.
Print Assumptions C39_history.
Theorem C39_append : forall std cs l c l', log_run (log_create std) cs = Ok l -> log_do l c = Ok l' ->
  hitems (lg_entries l') = hitems (lg_entries l) ++ [entry_of c] /\
  (if std then exists s, entry_str (entry_of c) = Ok s /\ lg_err l' = lg_err l ++ [s] else lg_err l' = lg_err l).
Proof.
  intros std cs l c l' E Ec. destruct (log_run_spec cs (log_create _) _ good_empty E) as (Hg & _ & Hs & _).
  destruct (log_do_spec l c l' Hg Ec) as (_ & H & _ & He). split; [exact H|].
  rewrite Hs in He. exact He.
Qed.
Print Assumptions C39_append.
(** The text of an entry: the pieces of the format with the arguments between. *)
Theorem C39_text : forall e fmt pieces, log_format (en_code e) = Some fmt -> format_of fmt (length (en_args e)) pieces ->
  length (en_args e) <= 5 -> Forall printable (en_args e) ->
  exists ss, Forall2 arg_text (en_args e) ss /\ entry_str e = Ok (weave pieces ss) /\
    entry_print e = Ok (weave pieces ss ++ NL).
Proof. exact entry_text. Qed.
Print Assumptions C39_text.
(** Every call made by the library meets these conditions. *)
Theorem C39_call_sites : forall code n type args, In (code, n) call_sites -> length args = n -> Forall printable args ->
  exists fmt pieces ss, log_format code = Some fmt /\ format_of fmt n pieces /\ Forall2 arg_text args ss /\
    entry_str (mkEn code type args) = Ok (weave pieces ss).
Proof. exact call_site_text. Qed.
Print Assumptions C39_call_sites.
(** Printing the log prints the entries in order. *)
Theorem C39_print : forall l ts, Forall2 (fun e t => entry_print e = Ok t) (hitems (lg_entries l)) ts ->
  log_print l = Ok (concat ts).
Proof.
  intros l ts H. unfold log_print. induction H as [|e t es ts He _ IH]; [reflexivity|].
  cbn [print_entries concat]. rewrite He, IH. reflexivity.
Qed.
Print Assumptions C39_print.
Example C39_case :
  let cs := [LCall false true 24 [Some (LStr (Some (S_ "id"))); Some (LNum 3); Some (LNum 12)]; LCall true false 20 []] in
  In (24%Z, 3) call_sites /\
  rmap (fun l => lg_err l) (log_run (log_create true) cs)
    = Ok [S_ "<id> content missing at line:3 column:12" ++ NL; S_ "Can't generate xml" ++ NL] /\
  bind (log_run (log_create false) cs) log_print
    = Ok (S_ "<id> content missing at line:3 column:12" ++ NL ++ NL ++ S_ "Can't generate xml" ++ NL ++ NL).
Proof. split; [cbn; auto 20|]. split; vm_compute; reflexivity. Qed.
(** Finding: a negative argument makes the text undefined (a line number beyond
    2^31 is stored as a negative number). *)
Theorem C39_negative_refuted : exists e, In (en_code e, length (en_args e)) call_sites /\ entry_str e = UB.
Proof.
  exists (mkEn 24 ENTRY_ERR [Some (LStr (Some (S_ "id"))); Some (LNum (-2147483648)); Some (LNum 0)]).
  split; [cbn; auto 20|reflexivity].
Qed.
Print Assumptions C39_negative_refuted.
