(** Property theorems for saving (C27, C45).

    [docwf d] holds of every document built by the library's operations
    ([dreach_wf]) and of every document a parser builds. *)
From Verif Require Import CStr CStrFacts HSListModel HSListFacts RTreeModel RTreeFacts RTreeFacts2 RTreeFacts3 RTreeFacts4 MRTreeModel MRTreeFacts MRTreeFacts2
  ObjModel ObjFacts2 Dec StrModel StrFacts SpecA SpecB SpecC PropertiesC DocModel DocFacts DocFacts2 SpecD SpecD2 PropertiesD ParseModel XmlModel XmlFacts SpecG.

(** A document with translations, a package of every kind, an empty group. *)
Definition ex_pkg : pkg := mkPkg (Some (Some (S_ "bash"))) (Some (Some (S_ "glibc"))) (Some 1%Z) PK_CONDITIONAL (Some [Some (S_ "x86_64"); Some (S_ "arm")]).
Definition ex_group : group := mkG (named_base "core" [str_p "name" "Core"; str_p "desc" "all"; (S_ "uservisible", PNum 0); (S_ "display_order", PNum 12)]) [ex_pkg; mkp "sed" 3].
Definition ex_ops : list dop :=
  [OAddGroup ex_group; OAddGroup (gr "empty" []); OAddCat (ct "cat" [mki "core" true]); OAddEnv (en "env" [mki "core" false]); OAddEnv (en "none" [])].
Definition ex_doc : doc := doc_of ex_ops.
Lemma ex_doc_ok : dreach ex_doc.
Proof.
  apply doc_of_ok. repeat constructor; try (apply named_base_ok).
Qed.
Definition always_ok (_ : list (call * bool)) (_ : call) : bool := true.
(** Refuses the end tag of a package, nothing else. *)
Definition no_pkg_end (before : list (call * bool)) (c : call) : bool :=
  match c, rev before with WEnd, (WText s, _) :: _ => negb (streq s (S_ "bash")) | _, _ => true end.
Definition save_with ac d := comps2xml_f ac (S_ "f") true None None d w0.

(** * C27 *)
(** If the writer accepts every call, the calls form one document: the prolog,
    the DTD, one root element [comps] with every element inside it closed in
    order, attributes only in an open start tag and none twice, and the end. *)
Theorem C27_well_formed_partial : forall ac name saved x df d w' r,
  comps2xml_f ac name saved x df d w0 = Ok (w', r) -> Forall (fun c => snd c = true) (w_calls w') ->
  walk Fresh (calls w') = Some Complete.
Proof. exact well_formed. Qed.
Print Assumptions C27_well_formed_partial.
(** Saving never fails on a document whose printed properties are of the right
    kind, whatever the writer answers. *)
Theorem C27_saving_defined : forall ac name saved x df d, docwf d -> d_name d <> None -> d_pubid d <> None -> d_sysid d <> None ->
  doc_printable (opt_xopts x) (doc_parts d) -> exists w' r, comps2xml_f ac name saved x df d w0 = Ok (w', r).
Proof. intros ac name saved x df d H1 H2 H3 H4 H5. exact (save_total ac name saved x df d H1 H2 H3 H4 H5 w0). Qed.
Print Assumptions C27_saving_defined.
(** A successful save, by its return code, may still be unbalanced: the result
    of writing a package is dropped. *)
Theorem C27_return_code_refuted : exists ac d w', dreach d /\ save_with ac d = Ok (w', 0%Z) /\
  w_log w' = [(E_XMLGEN, [])] /\ walk Fresh (map fst (filter snd (w_calls w'))) = None.
Proof.
  exists no_pkg_end, (doc_of [OAddGroup ex_group]). eexists. split; [apply doc_of_ok; repeat constructor; apply named_base_ok|].
  split; [vm_compute; reflexivity|]. split; vm_compute; reflexivity.
Qed.
Print Assumptions C27_return_code_refuted.
(** A negative display order, which setters and parser accept, makes saving undefined. *)
Theorem C27_negative_refuted : exists d, dreach d /\ save_with always_ok d = UB.
Proof.
  exists (doc_of [OAddGroup (mkG (named_base "g" [(S_ "display_order", PNum (-1))]) [mkp "a" 0])]).
  split; [apply doc_of_ok; repeat constructor; apply named_base_ok|]. vm_compute. reflexivity.
Qed.
Print Assumptions C27_negative_refuted.
Example C27_case : exists w', save_with always_ok ex_doc = Ok (w', 2%Z) /\ Forall (fun c => snd c = true) (w_calls w') /\ length (calls w') = 56.
Proof. eexists. split; [vm_compute; reflexivity|]. split; [apply Forall_forall; apply forallb_forall; vm_compute; reflexivity|vm_compute; reflexivity]. Qed.

(** * C45 *)
(** One message per object left out, in order, with its id; the code is their
    number modulo 256, as a signed character. *)
Theorem C45_return_code_partial : forall ac name saved x df d w' r, docwf d ->
  comps2xml_f ac name saved x df d w0 = Ok (w', r) -> Forall (fun c => snd c = true) (w_calls w') ->
  exists ig ic ie, let n := length (ig ++ ic ++ ie) in
    ids_left (group_left_out (opt_xopts x)) g_base (pt_groups (doc_parts d)) ig /\
    ids_left (cat_left_out (opt_xopts x)) c_base (pt_cats (doc_parts d)) ic /\
    ids_left (env_left_out (opt_xopts x)) e_base (pt_envs (doc_parts d)) ie /\
    w_log w' = map (fun v => (E_PKGLIST_EMPTY, [v])) (ig ++ ic ++ ie) ++ (if saved then [] else [(E_WRITEF, [Some (PStr (Some name))])]) /\
    (exists q, r = Z.of_nat n + 256 * q)%Z /\ (-128 <= r <= 127)%Z.
Proof. exact save_result. Qed.
Print Assumptions C45_return_code_partial.
(** 256 groups left out: success is reported; 255: failure. *)
Theorem C45_wrap_refuted :
  (exists d w', dreach d /\ save_with always_ok d = Ok (w', 0%Z) /\ length (w_log w') = 256) /\
  (exists d w', dreach d /\ save_with always_ok d = Ok (w', (-1)%Z) /\ length (w_log w') = 255).
Proof.
  split; [exists (doc_of (repeat (OAddGroup (gr "g" [])) 256))|exists (doc_of (repeat (OAddGroup (gr "g" [])) 255))]; eexists;
   (split; [apply doc_of_ok; apply Forall_forall; intros y Hy; apply repeat_spec in Hy; subst y; apply named_base_ok|]);
   (split; [vm_compute; reflexivity|vm_compute; reflexivity]).
Qed.
Print Assumptions C45_wrap_refuted.
(** The code does not tell whether the file was written. *)
Theorem C45_unwritten_refuted : forall ac name x df d w' r, comps2xml_f ac name true x df d w0 = Ok (w', r) ->
  exists w2, comps2xml_f ac name false x df d w0 = Ok (w2, r) /\ w_calls w2 = w_calls w' /\
    w_log w2 = w_log w' ++ [(E_WRITEF, [Some (PStr (Some name))])].
Proof.
  intros ac name x df d w' r. unfold comps2xml_f, wbind, unless. intros E.
  repeat match type of E with
  | context [emit ?a ?b ?c] => destruct (emit a b c) as [[? []]| |] eqn:?; cbn [bind fst snd wret wlog] in *
  | context [doc_xml ?a ?b ?c ?e ?f] => destruct (doc_xml a b c e f) as [[? ?]| |] eqn:?; cbn [bind fst snd wret wlog] in *
  end; try discriminate; inversion E; subst; eexists; (split; [reflexivity|]); cbn [w_calls w_log]; split; reflexivity.
Qed.
Print Assumptions C45_unwritten_refuted.
Example C45_case : exists w', save_with always_ok ex_doc = Ok (w', 2%Z) /\
  w_log w' = [(25, [Some (PStr (Some (S_ "empty")))]); (25, [Some (PStr (Some (S_ "none")))])]%Z.
Proof. eexists. split; vm_compute; reflexivity. Qed.
