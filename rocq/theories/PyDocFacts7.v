(** Facts about the Python document object: sums, filters, clearing. *)
From Coq Require Import Lia.
From Verif Require Import CStr CStrFacts HSListModel HSListFacts SetModel SetFacts
  RTreeModel RTreeFacts RTreeFacts2 RTreeFacts3 RTreeFacts4 MRTreeModel MRTreeFacts MRTreeFacts2
  SpecA SpecB ObjModel ObjFacts ObjFacts2 SpecC DocModel DocFacts DocFacts2 SpecD SpecD2
  ParseModel ParseFacts SpecF SpecF2 SpecF3 SpecF4 XmlModel SpecG ValidateModel ValidateFacts SpecE PyObjModel PyDictModel PyDocModel
  PyDocFacts PyDocFacts2 PyDocFacts3 PyDocFacts4 PyDocFacts5 PyDocFacts6.

Lemma wrap_shows w n w' r : inv w -> wrap_doc w n = Ok (w', r) ->
  let d := length (w_docs w) in
  r = DRet (VDoc d) /\ (exists x, nth_error (w_docs w') d = Some x /\ length (w_docs w') = S d /\ pd_log x = [] /\
    pd_enc x = d_enc n /\ pd_name x = d_name n /\ pd_sysid x = d_sysid n /\ pd_pubid x = d_pubid n) /\
  (forall p v, doc_shows w' d p v <-> doc_part n p = Ok v) /\
  (forall d' p v, d' <> d -> (doc_shows w' d' p v <-> doc_shows w d' p v)) /\
  (forall wr v, content w wr = Some v -> content w' wr = Some v).
Proof.
  intros I E d. unfold wrap_doc in E. destruct (adopt (w_heap w) n []) as [[h x]| |] eqn:A; cbn [bind fst snd] in E; try discriminate.
  injection E as Ew <-. split; [reflexivity|].
  destruct (adopt_all _ _ _ _ _ A) as ([ext Eh] & P & _ & C & Lg & H1 & H2 & H3 & H4).
  assert (I' : inv w').
  { apply (wrap_doc_inv w n w' (DRet (VDoc d)) I). unfold wrap_doc. rewrite A. cbn [bind fst snd]. rewrite Ew. reflexivity. }
  assert (X : nth_error (w_docs w') d = Some x) by (subst w'; cbn; unfold d; rewrite nth_error_app2, Nat.sub_diag by lia; reflexivity).
  split; [exists x; split; [exact X|]; split; [subst w'; cbn; rewrite app_length; cbn; unfold d; lia|]; auto 10|]. split; [|split].
  - intros p v. rewrite (doc_shows_iff _ _ _ _ _ I' X). unfold doc_part. rewrite rt_get_look. cbn [bind]. specialize (P p).
    unfold held. destruct (look _ _) as [u|].
    + destruct P as (l & -> & _ & U & _). subst w'. cbn. rewrite U. split; [intros ->; reflexivity|congruence].
    + rewrite P. split; [intros ->; reflexivity|congruence].
  - intros d' p v n'. destruct (nth_error (w_docs w) d') as [y|] eqn:Y.
    + assert (Y' : nth_error (w_docs w') d' = Some y) by (subst w'; cbn; apply nth_app_l, Y).
      apply (shows_kept _ _ _ _ _ _ _ I I' Y Y'); [|reflexivity]. subst w' h. intros l u. cbn. apply nth_app_l.
    + assert (Y' : nth_error (w_docs w') d' = None).
      { apply nth_error_None in Y. subst w'. cbn. apply nth_error_None. rewrite app_length. cbn. unfold d in n'. lia. }
      split; intros S; exfalso; revert S; apply shows_nodoc; assumption.
  - subst w' h. intros wr v. unfold content. cbn. destruct (nth_error (w_wraps w) wr) as [[t l]|]; [apply nth_app_l|discriminate].
Qed.

(** What the parts of two documents make of a third one. *)
Theorem union_calls w d e x y a b : inv w -> Forall sound (w_heap w) ->
  nth_error (w_docs w) d = Some x -> nth_error (w_docs w) e = Some y -> view w x = Ok a -> view w y = Ok b -> pd_enc x <> None ->
  exists w' n c, union w d e = Ok (w', DRet (VDoc (length (w_docs w)))) /\ doc_union a b = Ok n /\
    nth_error (w_docs w') (length (w_docs w)) = Some c /\ pd_log c = [] /\ pd_enc c = pd_enc x /\
    groups_merged (pt_groups (doc_parts a)) (pt_groups (doc_parts b)) (pt_groups (doc_parts n)) /\
    cats_merged (pt_cats (doc_parts a)) (pt_cats (doc_parts b)) (pt_cats (doc_parts n)) /\
    envs_merged (pt_envs (doc_parts a)) (pt_envs (doc_parts b)) (pt_envs (doc_parts n)) /\
    map_union (pt_langpacks (doc_parts a)) (pt_langpacks (doc_parts b)) (pt_langpacks (doc_parts n)) /\
    (forall p v, doc_shows w' (length (w_docs w)) p v <-> doc_part n p = Ok v) /\
    (forall d' p v, d' < length (w_docs w) -> (doc_shows w' d' p v <-> doc_shows w d' p v)) /\
    (forall wr v, content w wr = Some v -> content w' wr = Some v).
Proof.
  intros I F X Y Va Vb Ne. destruct (view_wf w d x I F X) as (a' & Va' & Wa & _ & He & _). replace a' with a in * by congruence.
  destruct (view_wf w e y I F Y) as (b' & Vb' & Wb & _). replace b' with b in * by congruence.
  destruct (pd_enc x) as [en|] eqn:Ee; [|congruence].
  destruct (doc_union_wf a b en Wa Wb He) as (n & U & Wn & Hh & H1 & H2 & H3 & H4 & _).
  destruct (adopt_wf (w_heap w) n [] Wn) as (h & c & A).
  assert (E : wrap_doc w n = Ok (mkWorld h (w_wraps w) (w_docs w ++ [c]), DRet (VDoc (length (w_docs w))))) by (unfold wrap_doc; rewrite A; reflexivity).
  destruct (wrap_shows w n _ _ I E) as (_ & (c' & C1 & _ & C2 & C3 & _) & S1 & S2 & S3).
  eexists. exists n, c'. split; [|split; [exact U|split; [exact C1|split; [exact C2|split]]]].
  - unfold union, at_. rewrite X, Y. cbn [bind]. rewrite Va, Vb. cbn [bind]. rewrite U. cbn [bind]. exact E.
  - rewrite C3. apply Hh.
  - split; [exact H1|]. split; [exact H2|]. split; [exact H3|]. split; [exact H4|]. split; [exact S1|]. split; [|exact S3].
    intros d' p v L. apply S2. lia.
Qed.
(** clear: every part is empty, whatever was there; the encoding stays. *)
Theorem clear_shows w d x : inv w -> nth_error (w_docs w) d = Some x ->
  exists w' y, clear w d = Ok (w', DRet VNone) /\ nth_error (w_docs w') d = Some y /\ pd_enc y = pd_enc x /\ pd_log y = [] /\
    (forall p v, doc_shows w' d p v <-> v = empty_of (part_type p)) /\
    (forall d' p v, d' <> d -> (doc_shows w' d' p v <-> doc_shows w d' p v)) /\
    (forall wr, content w' wr = content w wr).
Proof.
  intros I X. assert (E : exists w', clear w d = Ok (w', DRet VNone) /\ w_wraps w' = w_wraps w /\ w_heap w' = w_heap w /\
     exists y, w_docs w' = set_at (w_docs w) d y /\ pd_enc y = pd_enc x /\ pd_log y = [] /\ forall p, pd_objs y p = None).
  { unfold clear, at_. rewrite X. cbn [bind doc_create]. unfold adopt. cbn. eexists. split; [reflexivity|]. cbn. split; [reflexivity|]. split; [reflexivity|].
    eexists. split; [reflexivity|]. cbn. auto. }
  destruct E as (w' & E & Ew & Eh & y & Ed & H1 & H2 & H3). destruct (clear_inv _ _ _ _ I E) as [I' _].
  assert (Y : nth_error (w_docs w') d = Some y) by (rewrite Ed; apply set_at_same, nth_lt with x; exact X).
  exists w', y. split; [exact E|]. split; [exact Y|]. split; [exact H1|]. split; [exact H2|]. split; [|split].
  - intros p v. rewrite (doc_shows_iff _ _ _ _ _ I' Y). unfold held. rewrite H3. reflexivity.
  - intros d' p v n. apply (shows_others w w' d x y (fun _ => False) I I'); auto; [|tauto]. rewrite Eh. intros l u H. exact H.
  - intros wr. unfold content. now rewrite Ew, Eh.
Qed.
