(** Queries of a Python document. *)
From Coq Require Import NArith.
From Verif Require Import CStr CStrFacts HSListModel HSListFacts SetModel RTreeModel RTreeFacts RTreeFacts2 RTreeFacts3 RTreeFacts4 MRTreeModel MRTreeFacts
  ObjModel ObjFacts ObjFacts2 SpecA SpecB SpecC DocModel DocFacts DocFacts2 SpecD SpecD2 ParseModel XmlModel
  ValidateModel PyObjModel PyDictModel PyDocModel PyDocFacts PyDocFacts2 PyDocFacts3 PyDocFacts4 PyDocFacts5 PyDocFacts6 PyDocFacts7 PyItemModel.

Section Queries.
Variable fnm : str -> str -> Z -> bool.
Context (w : world) (d : nat) (x : pydoc) (n : doc).
Hypothesis I : inv w.
Hypothesis S : Forall sound (w_heap w).
Hypothesis X : nth_error (w_docs w) d = Some x.
Hypothesis V : view w x = Ok n.
Lemma seen_wf : docwf n.
Proof. destruct (view_wf w d x I S X) as (n' & V' & W & _). now replace n with n' by congruence. Qed.
Lemma groups_found q : Forall (fun g => texts_proper (g_base g)) (pt_groups (doc_parts n)) ->
  exists want, (forall g, want g = true <-> wanted_either fnm (q_id q) (q_name q) (q_desc q) (q_lang q) (q_flags q) (g_base g)) /\
    groups_match fnm w x q = Ok (filter want (pt_groups (doc_parts n))).
Proof.
  intros T. unfold groups_match. rewrite V. cbn [bind]. unfold doc_get_groups.
  destruct (doc_groups_ok n seen_wf) as (d1 & -> & _). cbn [bind snd]. now apply query_either.
Qed.
Lemma categories_found q : Forall (fun c => texts_proper (c_base c)) (pt_cats (doc_parts n)) ->
  exists want, (forall c, want c = true <-> wanted fnm (q_id q) (q_name q) (q_desc q) (q_lang q) (q_flags q) (c_base c)) /\
    categories_match fnm w x q = Ok (filter want (pt_cats (doc_parts n))).
Proof.
  intros T. unfold categories_match. rewrite V. cbn [bind]. unfold doc_get_categories.
  destruct (doc_cats_ok n seen_wf) as (d1 & -> & _). cbn [bind snd]. apply query_wanted; auto. intros. now apply desc_matched_ok.
Qed.
Lemma environments_found q : Forall (fun e => texts_proper (e_base e)) (pt_envs (doc_parts n)) ->
  exists want, (forall e, want e = true <-> wanted fnm (q_id q) (q_name q) (q_desc q) (q_lang q) (q_flags q) (e_base e)) /\
    environments_match fnm w x q = Ok (filter want (pt_envs (doc_parts n))).
Proof.
  intros T. unfold environments_match. rewrite V. cbn [bind]. unfold doc_get_envs.
  destruct (doc_envs_ok n seen_wf) as (d1 & -> & _). cbn [bind snd]. apply query_wanted; auto. intros. now apply desc_matched_ok.
Qed.
Lemma groups_found_plain q : Forall (fun g => texts_proper (g_base g)) (pt_groups (doc_parts n)) -> q_lang q = None \/ q_desc q = None ->
  exists want, (forall g, want g = true <-> wanted fnm (q_id q) (q_name q) (q_desc q) (q_lang q) (q_flags q) (g_base g)) /\
    groups_match fnm w x q = Ok (filter want (pt_groups (doc_parts n))).
Proof.
  intros T L. destruct (groups_found q T) as (want & Hw & E). exists want. split; [|exact E].
  intros g. rewrite Hw. unfold wanted_either, wanted. destruct L as [-> | ->]; cbn; tauto.
Qed.
End Queries.
