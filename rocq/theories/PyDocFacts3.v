(** Facts about the Python document object: assigning, loading, sharing. *)
From Coq Require Import Lia.
From Verif Require Import CStr CStrFacts HSListModel HSListFacts SetModel SetFacts
  RTreeModel RTreeFacts RTreeFacts2 RTreeFacts3 RTreeFacts4 MRTreeModel MRTreeFacts MRTreeFacts2
  SpecA SpecB ObjModel ObjFacts ObjFacts2 SpecC DocModel DocFacts DocFacts2
  ParseModel ParseFacts SpecF SpecF2 SpecF3 SpecF4 XmlModel ValidateModel PyObjModel PyDictModel PyDocModel PyDocFacts PyDocFacts2.

(** * Values stay where they are *)
Definition heap_kept (h h' : list dval) : Prop := forall l v, nth_error h l = Some v -> nth_error h' l = Some v.
Lemma shows_kept w w' d d' x x' p : inv w -> inv w' -> nth_error (w_docs w) d = Some x -> nth_error (w_docs w') d' = Some x' ->
  heap_kept (w_heap w) (w_heap w') -> pd_objs x' p = pd_objs x p -> forall v, doc_shows w' d' p v <-> doc_shows w d p v.
Proof.
  intros I I' X X' K E v. rewrite (doc_shows_iff _ _ _ _ _ I' X'), (doc_shows_iff _ _ _ _ _ I X). unfold held. rewrite E.
  destruct (pd_objs x p) as [l|] eqn:P; [|reflexivity]. destruct (proj1 (good_at _ _ _ I X) p l P) as (u & U & _).
  now rewrite U, (K _ _ U).
Qed.
Lemma shows_nodoc w d p v : nth_error (w_docs w) d = None -> ~ doc_shows w d p v.
Proof. intros N (x & n & X & _). congruence. Qed.
Lemma set_at_none {A} (l : list A) i j x : nth_error l j = None -> nth_error (set_at l i x) j = None.
Proof. rewrite !nth_error_None, set_at_length. auto. Qed.
(** One document changed, in the parts [ps]; nothing else. *)
Lemma shows_others w w' d x x' (keepq : part -> Prop) : inv w -> inv w' -> heap_kept (w_heap w) (w_heap w') ->
  w_docs w' = set_at (w_docs w) d x' -> nth_error (w_docs w) d = Some x -> (forall q, keepq q -> pd_objs x' q = pd_objs x q) ->
  forall d' q v, d' <> d \/ keepq q -> (doc_shows w' d' q v <-> doc_shows w d' q v).
Proof.
  intros I I' K E X H d' q v C. destruct (Nat.eq_dec d' d) as [->|n].
  - destruct C as [C|C]; [congruence|].
    assert (X' : nth_error (w_docs w') d = Some x') by (rewrite E; apply set_at_same, nth_lt with x; exact X).
    exact (shows_kept _ _ _ _ _ _ _ I I' X X' K (H q C) v).
  - destruct (nth_error (w_docs w) d') as [y|] eqn:Y.
    + assert (Y' : nth_error (w_docs w') d' = Some y) by (rewrite E, set_at_other; [exact Y|congruence]).
      exact (shows_kept _ _ _ _ _ _ _ I I' Y Y' K eq_refl v).
    + split; intros S; exfalso; revert S; apply shows_nodoc; [rewrite E; now apply set_at_none|exact Y].
Qed.

(** * Assigning *)
Lemma assign_ok w d p wr l : inv w -> d < length (w_docs w) -> nth_error (w_wraps w) wr = Some (part_type p, l) ->
  exists w', set_attr w d p (AWrap wr) = Ok (w', DRet VNone) /\ get_attr w' d p = Ok (w', wr) /\
    (forall wr', content w' wr' = content w wr') /\
    (forall v, doc_shows w' d p v <-> content w wr = Some v) /\
    (forall d' q v, d' <> d \/ q <> p -> (doc_shows w' d' q v <-> doc_shows w d' q v)).
Proof.
  intros I L R. destruct (nth_error (w_docs w) d) as [x|] eqn:X; [|apply nth_error_None in X; lia].
  unfold set_attr, at_. rewrite X. cbn [bind]. rewrite R. cbn [bind fst snd].
  rewrite (proj2 (ptype_eqb_eq _ _) eq_refl).
  set (x' := with_cache _ _). eexists. split; [reflexivity|].
  assert (S : set_attr w d p (AWrap wr) = Ok (with_pd w d x', DRet VNone)).
  { unfold set_attr, at_. rewrite X. cbn [bind]. rewrite R. cbn [bind fst snd]. now rewrite (proj2 (ptype_eqb_eq _ _) eq_refl). }
  destruct (set_attr_inv _ _ _ _ _ _ I S) as [I' _].
  assert (X' : nth_error (w_docs (with_pd w d x')) d = Some x') by (cbn; apply set_at_same, L).
  split; [unfold get_attr, at_; rewrite X'; cbn [bind]; unfold x'; cbn; now rewrite upd_same|].
  split; [reflexivity|]. split.
  - intros v. rewrite (doc_shows_iff _ _ _ _ _ I' X'). unfold held, content, x'. cbn. rewrite upd_same, R.
    destruct I as [_ W]. destruct (W _ _ _ R) as (u & U & _). rewrite U. split; [intros ->; reflexivity|congruence].
  - apply (shows_others w (with_pd w d x') d x x' (fun q => q <> p) I I'); auto.
    + intros l' v' H. exact H.
    + intros q n. unfold x'. cbn. apply upd_other. congruence.
Qed.
Lemma assign_bad w d p a : d < length (w_docs w) ->
  match a with
  | ADel => set_attr w d p a = UB
  | AForeign => set_attr w d p a = Ok (w, DRaise EType)
  | AWrap wr => forall t l, nth_error (w_wraps w) wr = Some (t, l) -> t <> part_type p -> set_attr w d p a = Ok (w, DRaise EType)
  end.
Proof.
  intros L. destruct (nth_error (w_docs w) d) as [x|] eqn:X; [|apply nth_error_None in X; lia].
  destruct a as [wr| |]; unfold set_attr, at_; rewrite X; cbn [bind]; try reflexivity.
  intros t l R n. rewrite R. cbn [bind fst]. destruct (ptype_eqb t (part_type p)) eqn:E; [apply ptype_eqb_eq in E; contradiction|reflexivity].
Qed.

(** * Loading *)
(** The document a parse leaves, an empty one if there is none. *)
Definition left_by (st : pst) (n : doc) : Prop :=
  ps_doc st = PLive n \/ ps_doc st = PNull /\ doc_create (Some (Some (Some utf8_name))) = Ok n.
Lemma replace_shows w d st w' x0 : inv w -> nth_error (w_docs w) d = Some x0 -> replace_doc w d st = Ok w' ->
  exists n x, left_by st n /\ nth_error (w_docs w') d = Some x /\ pd_log x = map FromParser (ps_log st) /\
    (forall p v, doc_shows w' d p v <-> doc_part n p = Ok v) /\
    pd_enc x = d_enc n /\ pd_name x = d_name n /\ pd_sysid x = d_sysid n /\ pd_pubid x = d_pubid n /\
    (forall d' q v, d' <> d -> (doc_shows w' d' q v <-> doc_shows w d' q v)) /\
    (forall wr v, content w wr = Some v -> content w' wr = Some v).
Proof.
  intros I X0 E. destruct (replace_doc_inv _ _ _ _ I E (ex_intro _ _ X0)) as [I' _]. unfold replace_doc in E.
  match type of E with (bind ?m _) = _ => destruct m as [n| |] eqn:M end; cbn [bind] in E; try discriminate.
  destruct (adopt (w_heap w) n (map FromParser (ps_log st))) as [[h x]| |] eqn:A; cbn [bind fst snd] in E; try discriminate.
  assert (Ew : w' = with_pd (mkWorld h (w_wraps w) (w_docs w)) d x) by congruence. clear E.
  destruct (adopt_all _ _ _ _ _ A) as ([ext ->] & P & _ & _ & Lg & H1 & H2 & H3 & H4).
  assert (X : nth_error (w_docs w') d = Some x) by (subst w'; cbn; apply set_at_same, nth_lt with x0; exact X0).
  exists n, x. split; [|split; [exact X|split; [exact Lg|split]]].
  - unfold left_by. destruct (ps_doc st); [right; auto|discriminate|left; congruence].
  - intros p v. rewrite (doc_shows_iff _ _ _ _ _ I' X). unfold doc_part. rewrite rt_get_look. cbn [bind]. specialize (P p).
    unfold held. destruct (look _ _) as [u|].
    + destruct P as (l & -> & _ & U & _). subst w'. cbn. rewrite U. split; [intros ->; reflexivity|congruence].
    + rewrite P. split; [intros ->; reflexivity|congruence].
  - split; [exact H1|]. split; [exact H2|]. split; [exact H3|]. split; [exact H4|]. split.
    + intros d' q v n'. apply (shows_others w w' d x0 x (fun _ => False) I I'); auto; [|subst w'; reflexivity|tauto].
      subst w'. intros l u. cbn. apply nth_app_l.
    + subst w'. intros wr v. unfold content. cbn. destruct (nth_error (w_wraps w) wr) as [[t l]|]; [apply nth_app_l|discriminate].
Qed.

(** ** Texts and files *)
Section Load.
Variable strict : bool.
Lemma feeds_plain st fs : ~ failing fs -> run_feeds strict st fs = run strict st (concat (map fst fs)).
Proof.
  revert st. induction fs as [|[es er] fs IH]; intros st N; cbn [run_feeds map fst concat]; [reflexivity|].
  destruct er as [m|]; [exfalso; apply N; exists es, m; now left|].
  rewrite run_app. destruct (run strict st es); cbn [bind]; try reflexivity. apply IH.
  intros (x & m & H). apply N. exists x, m. now right.
Qed.
(** Reading a file without failure is reading its text. *)
Lemma file_is_text w d fs o : ~ failing fs ->
  load_file strict w d (Some fs) o = load_str strict w d (concat (map fst fs), None) o.
Proof.
  intros N. unfold load_file, load_str. destruct (at_ (w_docs w) d); cbn [bind]; try reflexivity.
  destruct (def_arg o) as [[df pending]|]; [|reflexivity]. unfold parse_file, parse_str. cbn [reinit parsed_init ps_doc bind].
  set (s0 := with_opts _ _).
  match goal with |- _ = bind (bind (run_feeds _ ?s _) _) _ => change s with s0 end. rewrite feeds_plain by exact N.
  rewrite feeds_plain by (intros (x & m & [H|[]]); discriminate).
  cbn [map fst concat]. rewrite app_nil_r. destruct (run strict s0 (concat (map fst fs))) as [s1| |] eqn:R; cbn [bind]; try reflexivity.
  destruct (after_parse s1) as [s2| |] eqn:A; cbn [bind fst snd]; try reflexivity.
  destruct (after_parse_same _ _ A) as (F & _). apply run_fatal in R. cbn in R.
  destruct (code_cases s2) as (C & _). assert (parse_code s2 =? -1 = false)%Z as ->.
  { apply Z.eqb_neq. intros H. apply C in H. congruence. }
  reflexivity.
Qed.
Lemma feeds_error fs : forall st st1, run_feeds strict st fs = Ok st1 -> failing fs -> exists e, In e (ps_log st1) /\ pe_warn e = false.
Proof.
  induction fs as [|[es er] fs IH]; intros st st1 E F; cbn [run_feeds] in E; [destruct F as (x & m & [])|].
  apply bind_ok in E. destruct E as (s & E1 & E). destruct er as [m|].
  - destruct (feeds_log strict _ _ _ E) as (l & L & _). cbn [with_fatal logged ps_log] in L. exists (perr E_PARSER [Some m]).
    split; [rewrite L; rewrite !in_app_iff; left; right; now left|reflexivity].
  - apply (IH _ _ E). destruct F as (x & m & [H|H]); [discriminate|]. exists x, m. exact H.
Qed.

(** ** What loading does *)
Definition loads (w : world) (d : nat) (o : optarg) (st : pst) (w' : world) : Prop :=
  exists n x, left_by st n /\ nth_error (w_docs w') d = Some x /\ pd_log x = map FromParser (ps_log st) /\
    (forall p v, doc_shows w' d p v <-> doc_part n p = Ok v) /\
    pd_enc x = d_enc n /\ pd_name x = d_name n /\ pd_sysid x = d_sysid n /\ pd_pubid x = d_pubid n /\
    (forall d' q v, d' <> d -> (doc_shows w' d' q v <-> doc_shows w d' q v)) /\
    (forall wr v, content w wr = Some v -> content w' wr = Some v).
Lemma load_str_cases w d f o w' r : inv w -> load_str strict w d f o = Ok (w', r) ->
  match def_arg o with
  | None => w' = w /\ r = DRaise EType
  | Some (df, pending) =>
      (snd f <> None /\ w' = w /\ r = DRaise EParser) \/
      (snd f = None /\ exists st c, parse_str strict (parsed_init (Some utf8_name)) f df = Ok (st, c) /\
         (c = 0 /\ ps_log st = [] \/ c = 1 /\ ps_log st <> [])%Z /\
         r = (if pending then DRetSet (VNum c) else DRet (VNum c)) /\ loads w d o st w')
  end.
Proof.
  intros I E. unfold load_str in E. destruct (at_ (w_docs w) d) as [x0| |] eqn:X; cbn [bind] in E; try discriminate. apply at_ok in X.
  destruct (def_arg o) as [[df pending]|]; [|injection E as <- <-; auto].
  destruct (parse_str strict (parsed_init (Some utf8_name)) f df) as [[st c]| |] eqn:P; cbn [bind fst snd] in E; try discriminate.
  destruct (str_code _ _ _ _ _ _ P) as (l & L & C1 & C2). cbn [parsed_init ps_fatal ps_log app] in L, C1, C2.
  assert (C : (c = -1 \/ c = 0 /\ ps_log st = [] \/ c = 1 /\ ps_log st <> [])%Z).
  { unfold parse_str in P. apply bind_ok in P. destruct P as (s2 & _ & P). apply bind_ok in P. destruct P as (s3 & _ & P).
    injection P as -> <-. unfold parse_code. destruct (ps_fatal st), (ps_log st); auto; right; right; split; try reflexivity; discriminate. }
  destruct (Z.eqb_spec c (-1)) as [->|n].
  - injection E as <- <-. left. destruct C1 as [C1 _]. destruct (C1 eq_refl) as [H|H]; [discriminate|]. auto.
  - right. destruct (snd f) eqn:F; [exfalso; apply n, C1; right; discriminate|]. split; [reflexivity|].
    destruct (replace_doc w d st) as [w1| |] eqn:R; cbn [bind] in E; try discriminate. injection E as <- <-.
    exists st, c. split; [reflexivity|]. split; [destruct C; [contradiction|assumption]|]. split; [reflexivity|].
    exact (replace_shows _ _ _ _ _ I X R).
Qed.
Lemma load_file_cases w d f o w' r : inv w -> load_file strict w d f o = Ok (w', r) ->
  match def_arg o, f with
  | None, _ => w' = w /\ r = DRaise EType
  | Some _, None => w' = w /\ r = DRaise EIO
  | Some (df, pending), Some fs =>
      exists st c, parse_file strict (parsed_init (Some utf8_name)) (Some fs) df = Ok (st, c) /\ loads w d o st w' /\
        ((failing fs /\ r = DRaise EParser /\ exists e, In e (ps_log st) /\ pe_warn e = false) \/
         (~ failing fs /\ (c = 0 /\ ps_log st = [] \/ c = 1 /\ ps_log st <> [])%Z /\
          r = if pending then DRetSet (VNum c) else DRet (VNum c)))
  end.
Proof.
  intros I E. unfold load_file in E. destruct (at_ (w_docs w) d) as [x0| |] eqn:X; cbn [bind] in E; try discriminate. apply at_ok in X.
  destruct (def_arg o) as [[df pending]|]; [|injection E as <- <-; auto].
  destruct f as [fs|]; [|injection E as <- <-; auto].
  destruct (parse_file strict (parsed_init (Some utf8_name)) (Some fs) df) as [[st c]| |] eqn:P; cbn [bind fst snd] in E; try discriminate.
  destruct (replace_doc w d st) as [w1| |] eqn:R; cbn [bind] in E; try discriminate. injection E as <- <-.
  exists st, c. split; [reflexivity|]. split; [exact (replace_shows _ _ _ _ _ I X R)|].
  destruct (file_code _ _ _ _ _ _ P) as (C1 & C2 & C3).
  assert (Hlog : failing fs -> exists e, In e (ps_log st) /\ pe_warn e = false).
  { intros F. unfold parse_file in P. apply bind_ok in P. destruct P as (s1 & _ & P). apply bind_ok in P. destruct P as (s2 & P2 & P).
    apply bind_ok in P. destruct P as (s3 & P3 & P). injection P as -> _. destruct (after_parse_same _ _ P3) as (_ & -> & _).
    exact (feeds_error _ _ _ P2 F). }
  destruct (Z.eqb_spec c (-1)) as [->|n].
  - left. destruct C1 as [C1 _]. destruct (C1 eq_refl) as [H|(fs' & H1 & H2)]; [discriminate|].
    replace fs' with fs in H2 by congruence. auto.
  - right. assert (N : ~ failing fs) by (intros F; apply n, C1; right; eauto). split; [exact N|]. split; [|reflexivity].
    destruct (ps_log st) as [|e l] eqn:L.
    + left. split; [|reflexivity]. apply C2. eauto.
    + right. split; [|discriminate]. apply C3. exists fs. split; [reflexivity|]. split; [exact N|]. discriminate.
Qed.
End Load.
