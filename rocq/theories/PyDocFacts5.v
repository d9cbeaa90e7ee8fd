(** Facts about the Python document object: well-formed histories, options,
    saving, questions. *)
From Coq Require Import Lia.
From Verif Require Import CStr CStrFacts HSListModel HSListFacts SetModel SetFacts
  RTreeModel RTreeFacts RTreeFacts2 RTreeFacts3 RTreeFacts4 MRTreeModel MRTreeFacts MRTreeFacts2
  SpecA SpecB ObjModel ObjFacts ObjFacts2 SpecC DocModel DocFacts DocFacts2 SpecD SpecD2
  ParseModel ParseFacts SpecF SpecF2 SpecF3 SpecF4 XmlModel ValidateModel ValidateFacts SpecE PyObjModel PyDictModel PyDocModel
  PyDocFacts PyDocFacts2 PyDocFacts3 PyDocFacts4.

(** * Well-formed values *)
Definition sound (v : dval) : Prop :=
  match v with
  | DGroups l => Forall gok l | DCats l => Forall cok l | DEnvs l => Forall eok l
  | DDict t => reach ostr_copy t | DMdict t => mreach t
  | DStr _ => False
  end.
Lemma typed_part p v : typed (part_key p) v <-> has_type (part_type p) v = true /\ sound v.
Proof.
  destruct p, v; cbn [typed part_key part_type has_type sound]; intuition (try discriminate; try congruence).
Qed.
Lemma doc_key_part k : In k doc_keys -> exists p, k = part_key p.
Proof.
  intros H. cbn in H.
  destruct H as [<-|[<-|[<-|[<-|[<-|[<-|[]]]]]]];
    [exists Groups|exists Categories|exists Environments|exists Langpacks|exists Blacklist|exists Whiteout]; reflexivity.
Qed.
Lemma sound_empty t : sound (empty_of t).
Proof. destruct t; cbn; try constructor. Qed.
Lemma view_wf w d x : inv w -> Forall sound (w_heap w) -> nth_error (w_docs w) d = Some x ->
  exists n, view w x = Ok n /\ docwf n /\ (forall p, look (troot (d_objs n)) (part_key p) = held w x p) /\
    d_enc n = pd_enc x /\ d_name n = pd_name x /\ d_sysid n = pd_sysid x /\ d_pubid n = pd_pubid x.
Proof.
  intros I F X. pose proof (proj1 (good_at _ _ _ I X)) as G. destruct (view_spec w x G) as (n & V & W & L & H).
  exists n. split; [exact V|]. split; [|split; [exact L|exact H]]. split; [exact W|]. intros k v K.
  destruct W as (_ & _ & W). destruct (doc_key_part k) as [p ->]; [apply W; congruence|].
  rewrite L in K. unfold held in K. destruct (pd_objs x p) as [l|] eqn:P; [|discriminate]. apply typed_part.
  destruct (G p l P) as (u & U & T). replace v with u in * by congruence. split; [exact T|].
  rewrite Forall_forall in F. apply F. exact (nth_error_In _ _ U).
Qed.
Lemma adopt_wf h d lg : docwf d -> exists h' x, adopt h d lg = Ok (h', x).
Proof. intros [_ T]. apply adopt_ok. intros p v H. apply T in H. now apply typed_part in H. Qed.
Lemma adopt_sound h d lg h' x : docwf d -> Forall sound h -> adopt h d lg = Ok (h', x) -> Forall sound h'.
Proof.
  intros [_ T] F E. unfold adopt in E. destruct (adopt_parts d all_parts h none) as [[h1 o1]| |] eqn:A; cbn in E; try discriminate.
  injection E as <- _. revert A. generalize (@none nat). generalize all_parts. intros ps. revert h F h1 o1.
  induction ps as [|p ps IH]; intros h F h1 o1 o A; cbn [adopt_parts] in A; [injection A as <- _; exact F|].
  rewrite rt_get_look in A. cbn [bind] in A. destruct (look (troot (d_objs d)) (part_key p)) as [v|] eqn:L; [|exact (IH _ F _ _ _ A)].
  destruct (has_type (part_type p) v); [|discriminate]. refine (IH _ _ _ _ _ A). apply Forall_app. split; [exact F|].
  constructor; [|constructor]. apply T in L. now apply typed_part in L.
Qed.
Lemma Forall_set {A} (P : A -> Prop) l i x : Forall P l -> P x -> Forall P (set_at l i x).
Proof. apply Forall_set_at. Qed.

(** What the parser leaves. *)
Lemma safe_pending es : forall o t o', safe o t es o' -> exists t', pending t es t'.
Proof.
  induction es as [|e es IH]; intros o t o' H; inversion H as [|? ? ? o1 t1 ? ? Hn Hx Hs H']; subst; [exists t; constructor|].
  destruct (IH _ _ _ H') as (t' & P). exists t'. econstructor; eassumption.
Qed.
Lemma after_wf st : plive (ps_doc st) -> ps_doc st <> PFreed -> exists st', after_parse st = Ok st' /\ plive (ps_doc st') /\ ps_doc st' <> PFreed.
Proof.
  intros H N. unfold after_parse. destruct (ps_doctype st) as [[[n s] p]|]; [|eauto].
  destruct (ps_doc st) as [| |d] eqn:D; [exists st; rewrite D; auto|congruence|].
  eexists. split; [reflexivity|]. cbn. split; [|discriminate]. exact H.
Qed.
Lemma parse_file_wf (fs : list feed) df o' : safe [] [] (concat (map fst fs)) o' ->
  exists st c, parse_file false (parsed_init (Some utf8_name)) (Some fs) df = Ok (st, c) /\ plive (ps_doc st) /\ ps_doc st <> PFreed.
Proof.
  intros Hs. destruct (safe_pending _ _ _ _ Hs) as (t' & Hp). unfold parse_file. cbn [reinit parsed_init ps_doc bind].
  set (s0 := with_opts _ _). assert (Hf : fit [] [] s0) by (apply (fit_same _ _ (parsed_init (Some utf8_name))); auto; apply fit_init).
  destruct (feeds_ok fs _ _ _ _ _ Hf Hs Hp) as (s2 & -> & Hf2 & D & _). cbn [bind].
  destruct (after_wf s2) as (s3 & -> & H1 & H2); [apply Hf2|destruct D as [D|(d & D)]; rewrite D; discriminate|].
  cbn [bind]. eauto.
Qed.
Lemma parse_str_wf (f : feed) df o' : safe [] [] (fst f) o' ->
  exists st c, parse_str false (parsed_init (Some utf8_name)) f df = Ok (st, c) /\ plive (ps_doc st) /\ ps_doc st <> PFreed.
Proof.
  intros Hs. assert (Hs1 : safe [] [] (concat (map fst [f])) o') by (cbn [map concat]; now rewrite app_nil_r).
  destruct (safe_pending _ _ _ _ Hs1) as (t' & Hp). unfold parse_str.
  set (s0 := with_opts _ _). assert (Hf : fit [] [] s0) by (apply (fit_same _ _ (parsed_init (Some utf8_name))); auto; apply fit_init).
  destruct (feeds_ok [f] _ _ _ _ _ Hf Hs1 Hp) as (s2 & -> & Hf2 & D & _). cbn [bind].
  destruct (after_wf s2) as (s3 & -> & H1 & H2); [apply Hf2|destruct D as [D|(d & D)]; rewrite D; discriminate|].
  cbn [bind]. eauto.
Qed.
Lemma replace_wf w d st x0 : Forall sound (w_heap w) -> nth_error (w_docs w) d = Some x0 -> plive (ps_doc st) -> ps_doc st <> PFreed ->
  exists w', replace_doc w d st = Ok w' /\ Forall sound (w_heap w').
Proof.
  intros F X H N. unfold replace_doc.
  assert (exists n, match ps_doc st with PLive n => Ok n | PNull => doc_create (Some (Some (Some utf8_name))) | PFreed => UB end = Ok n /\ docwf n) as (n & -> & W).
  { destruct (ps_doc st) as [| |n]; [|congruence|exists n; split; [reflexivity|apply H]].
    destruct (create_spec (Some utf8_name)) as (n & E & W & _). eauto. }
  cbn [bind]. destruct (adopt_wf (w_heap w) n (map FromParser (ps_log st)) W) as (h & x & A). rewrite A. cbn [bind fst snd].
  eexists. split; [reflexivity|]. cbn. exact (adopt_sound _ _ _ _ _ W F A).
Qed.

(** ** Histories *)
(** Calls with values that are what they should be: contents built by the
    library, texts the parser survives (C32). *)
Definition op_fine (op : dop) : Prop :=
  match op with
  | OMake _ v | OEdit _ v => sound v
  | OLoadStr _ f _ => exists o', safe [] [] (fst f) o'
  | OLoadFile _ (Some fs) _ => exists o', safe [] [] (concat (map fst fs)) o'
  | _ => True
  end.
(** The objects exist, nothing is deleted, and a document that is added to or
    filtered has an encoding and its arches are written as they should be. *)
Definition op_there (w : world) (op : dop) : Prop :=
  match op with
  | ONew _ => True
  | OMake t v => has_type t v = true
  | OEdit wr v => exists t l, nth_error (w_wraps w) wr = Some (t, l) /\ has_type t v = true
  | OTouch d _ | OGet d _ | OClear d | OLoadStr d _ _ | OLoadFile d _ _ => d < length (w_docs w)
  | OSet d _ a => d < length (w_docs w) /\ match a with AWrap wr => wr < length (w_wraps w) | AForeign => True | ADel => False end
  | OSaveFile _ _ _ _ _ | OSaveStr _ _ _ => False
  | OUnion d e => e < length (w_docs w) /\ exists x, nth_error (w_docs w) d = Some x /\ pd_enc x <> None
  | OFilter d _ => exists x n, nth_error (w_docs w) d = Some x /\ pd_enc x <> None /\ view w x = Ok n /\ doc_arches_proper n
  end.
Section Fine.
Variable accepts : list (call * bool) -> call -> bool.
Variable text : logitem -> str.
Notation step := (step_doc false accepts text).
Notation run := (run_docs false accepts text).
Lemma nth_ex {A} (l : list A) i : i < length l -> exists x, nth_error l i = Some x.
Proof. intros H. destruct (nth_error l i) eqn:E; [eauto|apply nth_error_None in E; lia]. Qed.
Lemma step_defined w op : inv w -> Forall sound (w_heap w) -> op_fine op -> op_there w op ->
  exists w' r, step w op = Ok (w', r).
Proof.
  intros I F Hf Ht. destruct op; cbn [op_fine op_there step_doc] in *; try contradiction.
  - unfold new_doc. cbn [doc_create bind]. match goal with |- context [adopt ?h ?n ?l] => destruct (adopt_wf h n l) as (h' & x & ->) end.
    + apply (create_wf None). reflexivity.
    + cbn [bind fst snd]. eauto.
  - rewrite Ht. eauto.
  - destruct Ht as (t & l & R & T). unfold at_. rewrite R. cbn [bind fst snd]. rewrite T. eauto.
  - destruct (nth_ex _ _ Ht) as (x & X). unfold touch, at_. rewrite X. cbn [bind]. destruct (pd_objs x p); cbn [bind]; eauto.
  - destruct (get_attr_ok w d p I Ht) as (w' & wr & ->). cbn [bind]. eauto.
  - destruct Ht as [Hd Ha]. destruct (nth_ex _ _ Hd) as (x & X). unfold set_attr, at_. rewrite X. cbn [bind].
    destruct a as [wr| |]; [|eauto|contradiction]. destruct (nth_ex _ _ Ha) as ([t l] & R). rewrite R. cbn [bind fst snd].
    destruct (ptype_eqb t (part_type p)); eauto.
  - destruct (nth_ex _ _ Ht) as (x & X). unfold clear, at_. rewrite X. cbn [bind doc_create].
    match goal with |- context [adopt ?h ?n ?l] => destruct (adopt_wf h n l) as (h' & y & ->) end.
    + apply (create_wf None). reflexivity.
    + cbn [bind fst snd]. eauto.
  - destruct (nth_ex _ _ Ht) as (x & X). unfold load_str, at_. rewrite X. cbn [bind]. destruct (def_arg o) as [[df pending]|]; [|eauto].
    destruct Hf as (o' & Hs). destruct (parse_str_wf f df o' Hs) as (st & c & -> & H1 & H2). cbn [bind fst snd].
    destruct (c =? -1)%Z; [eauto|]. destruct (replace_wf w d st x F X H1 H2) as (w' & -> & _). cbn [bind]. eauto.
  - destruct (nth_ex _ _ Ht) as (x & X). unfold load_file, at_. rewrite X. cbn [bind]. destruct (def_arg o) as [[df pending]|]; [|eauto].
    destruct f as [fs|]; [|eauto]. destruct Hf as (o' & Hs). destruct (parse_file_wf fs df o' Hs) as (st & c & -> & H1 & H2). cbn [bind fst snd].
    destruct (replace_wf w d st x F X H1 H2) as (w' & -> & _). cbn [bind]. eauto.
  - destruct Ht as (He & x & X & En). destruct (nth_ex _ _ He) as (y & Y). unfold union, at_. rewrite X, Y. cbn [bind].
    destruct (view_wf w d x I F X) as (a & -> & Wa & _ & Ea & _). destruct (view_wf w e y I F Y) as (b & -> & Wb & _). cbn [bind].
    destruct (pd_enc x) as [en|] eqn:Ex; [|congruence].
    destruct (doc_union_wf a b en Wa Wb Ea) as (n & -> & Wn & _). cbn [bind]. unfold wrap_doc.
    destruct (adopt_wf (w_heap w) n [] Wn) as (h & z & ->). cbn [bind]. eauto.
  - destruct Ht as (x & n & X & En & V & Ap). unfold filter_arches, at_. rewrite X. cbn [bind].
    destruct (view_wf w d x I F X) as (a & V' & Wa & _ & Ea & _). replace a with n in * by congruence. rewrite V. cbn [bind].
    destruct (pd_enc x) as [en|] eqn:Ex; [|congruence].
    destruct (doc_filter_wf n en arches Wa Ea Ap) as (m & -> & Wm & _). cbn [bind]. unfold wrap_doc.
    destruct (adopt_wf (w_heap w) m [] Wm) as (h & z & ->). cbn [bind]. eauto.
Qed.
Lemma wrap_sound w n w' r : docwf n -> Forall sound (w_heap w) -> wrap_doc w n = Ok (w', r) -> Forall sound (w_heap w').
Proof.
  intros W F E. unfold wrap_doc in E. destruct (adopt (w_heap w) n []) as [[h x]| |] eqn:A; cbn in E; try discriminate.
  injection E as <- _. exact (adopt_sound _ _ _ _ _ W F A).
Qed.
Lemma touch_sound w d p w' l : Forall sound (w_heap w) -> touch w d p = Ok (w', l) -> Forall sound (w_heap w').
Proof.
  intros F E. unfold touch in E. destruct (at_ (w_docs w) d) as [x| |]; cbn [bind] in E; try discriminate.
  destruct (pd_objs x p); [injection E as <- _; exact F|]. injection E as <- _. cbn. apply Forall_app. split; [exact F|].
  constructor; [apply sound_empty|constructor].
Qed.
Lemma step_sound w op w' r : inv w -> Forall sound (w_heap w) -> op_fine op -> step w op = Ok (w', r) -> Forall sound (w_heap w').
Proof.
  intros I F Hf E. destruct op; cbn [op_fine step_doc] in *.
  - unfold new_doc in E. cbn [doc_create bind] in E.
    match type of E with context [adopt ?h ?n ?l] => destruct (adopt h n l) as [[h' x]| |] eqn:A end; cbn [bind fst snd] in E; try discriminate.
    injection E as <- _. cbn. refine (adopt_sound _ _ _ _ _ _ F A). apply (create_wf None). reflexivity.
  - destruct (has_type t v); [|discriminate]. injection E as <- _. cbn. apply Forall_app. split; [exact F|]. constructor; [exact Hf|constructor].
  - destruct (at_ (w_wraps w) wr) as [[t l]| |]; cbn [bind fst snd] in E; try discriminate.
    destruct (has_type t v); [|discriminate]. injection E as <- _. cbn. now apply Forall_set_at.
  - destruct (touch w d p) as [[w1 l]| |] eqn:T; cbn [bind fst snd] in E; try discriminate. injection E as <- _. exact (touch_sound _ _ _ _ _ F T).
  - destruct (get_attr w d p) as [[w1 c]| |] eqn:G; cbn [bind fst snd] in E; try discriminate. injection E as <- _.
    unfold get_attr in G. destruct (at_ (w_docs w) d) as [x| |]; cbn [bind] in G; try discriminate.
    destruct (pd_cache x p); [injection G as <- _; exact F|].
    destruct (touch w d p) as [[w2 l]| |] eqn:T; cbn [bind fst snd] in G; try discriminate.
    destruct (at_ (w_docs w2) d) as [y| |]; cbn [bind] in G; try discriminate. injection G as <- _. exact (touch_sound _ _ _ _ _ F T).
  - unfold set_attr in E. destruct (at_ (w_docs w) d) as [x| |]; cbn [bind] in E; try discriminate.
    destruct a as [wr| |]; [|injection E as <- _; exact F|discriminate].
    destruct (at_ (w_wraps w) wr) as [[t l]| |]; cbn [bind fst snd] in E; try discriminate.
    destruct (ptype_eqb t (part_type p)); injection E as <- _; exact F.
  - unfold clear in E. destruct (at_ (w_docs w) d) as [x0| |] eqn:X; cbn [bind] in E; try discriminate.
    cbn [doc_create bind] in E.
    match type of E with context [adopt ?h ?n ?l] => destruct (adopt h n l) as [[h' x]| |] eqn:A end; cbn [bind fst snd] in E; try discriminate.
    injection E as <- _. cbn. refine (adopt_sound _ _ _ _ _ _ F A). apply (create_wf None). reflexivity.
  - unfold load_str in E. destruct (at_ (w_docs w) d) as [x| |] eqn:X; cbn [bind] in E; try discriminate. apply at_ok in X.
    destruct (def_arg o) as [[df pending]|]; [|injection E as <- _; exact F].
    destruct Hf as (o' & Hs). destruct (parse_str_wf f df o' Hs) as (st & c & P & H1 & H2). rewrite P in E. cbn [bind fst snd] in E.
    destruct (c =? -1)%Z; [injection E as <- _; exact F|].
    destruct (replace_wf w d st x F X H1 H2) as (w1 & R & F1). rewrite R in E. cbn [bind] in E. injection E as <- _. exact F1.
  - unfold load_file in E. destruct (at_ (w_docs w) d) as [x| |] eqn:X; cbn [bind] in E; try discriminate. apply at_ok in X.
    destruct (def_arg o) as [[df pending]|]; [|injection E as <- _; exact F].
    destruct f as [fs|]; [|injection E as <- _; exact F].
    destruct Hf as (o' & Hs). destruct (parse_file_wf fs df o' Hs) as (st & c & P & H1 & H2). rewrite P in E. cbn [bind fst snd] in E.
    destruct (replace_wf w d st x F X H1 H2) as (w1 & R & F1). rewrite R in E. cbn [bind] in E. injection E as <- _. exact F1.
  - unfold save_file in E. destruct (at_ (w_docs w) d) as [y| |] eqn:X; cbn [bind] in E; try discriminate.
    destruct (xml_arg x) as [xo|]; [|injection E as <- _; exact F].
    destruct (def_arg o) as [[df pending]|]; [|injection E as <- _; exact F].
    destruct (view w _) as [v| |]; cbn [bind] in E; try discriminate.
    match type of E with bind ?m _ = _ => destruct m as [[ws g]| |] end; cbn [bind fst snd] in E; try discriminate.
    match type of E with bind ?m _ = _ => destruct m as [ts| |] end; cbn [bind] in E; try discriminate.
    injection E as <- _. exact F.
  - unfold save_str in E. destruct (at_ (w_docs w) d) as [y| |] eqn:X; cbn [bind] in E; try discriminate.
    destruct (xml_arg x) as [xo|]; [|injection E as <- _; exact F].
    destruct (def_arg o) as [[df pending]|]; [|injection E as <- _; exact F].
    destruct (view w y) as [v| |]; cbn [bind] in E; try discriminate.
    match type of E with bind ?m _ = _ => destruct m as [[ws g]| |] end; cbn [bind fst snd] in E; try discriminate.
    injection E as <- _. exact F.
  - unfold union in E. destruct (at_ (w_docs w) d) as [x| |] eqn:X; cbn [bind] in E; try discriminate.
    destruct (at_ (w_docs w) e) as [y| |] eqn:Y; cbn [bind] in E; try discriminate. apply at_ok in X, Y.
    destruct (view_wf w d x I F X) as (a & Va & Wa & _). destruct (view_wf w e y I F Y) as (b & Vb & Wb & _).
    rewrite Va, Vb in E. cbn [bind] in E. destruct (doc_union a b) as [n| |] eqn:U; cbn [bind] in E; try discriminate.
    refine (wrap_sound _ _ _ _ _ F E). destruct (d_enc a) as [en|] eqn:En.
    + destruct (doc_union_wf a b en Wa Wb En) as (n' & U' & Wn & _). congruence.
    + destruct (no_encoding a b [] Wa En) as (U' & _). congruence.
  - unfold filter_arches in E. destruct (at_ (w_docs w) d) as [x| |] eqn:X; cbn [bind] in E; try discriminate. apply at_ok in X.
    destruct (view_wf w d x I F X) as (a & Va & Wa & _). rewrite Va in E. cbn [bind] in E.
    destruct (doc_arch_filter a arches) as [n| |] eqn:U; cbn [bind] in E; try discriminate.
    refine (wrap_sound _ _ _ _ _ F E). exact (filter_wf _ _ _ Wa U).
Qed.
Lemma run_sound ops : forall w w' outs, inv w -> Forall sound (w_heap w) -> Forall op_fine ops -> run w ops = Ok (w', outs) ->
  inv w' /\ Forall sound (w_heap w').
Proof.
  induction ops as [|op ops IH]; intros w w' outs I F H E; cbn [run_docs] in E; [injection E as <- _; auto|].
  inversion H as [|? ? H1 H2]; subst.
  destruct (step w op) as [[w1 r]| |] eqn:St; cbn [bind fst snd] in E; try discriminate.
  destruct (run w1 ops) as [[w2 rs]| |] eqn:R; cbn [bind fst snd] in E; try discriminate.
  injection E as <- _. refine (IH w1 w2 rs _ _ H2 R).
  - exact (proj1 (step_inv _ _ _ _ _ _ _ I St)).
  - exact (step_sound _ _ _ _ I F H1 St).
Qed.
Lemma run_step ops : forall w w' outs op, run w ops = Ok (w', outs) ->
  run w (ops ++ [op]) = bind (step w' op) (fun a => Ok (fst a, outs ++ [snd a])).
Proof.
  induction ops as [|o ops IH]; intros w w' outs op E; cbn [run_docs app] in *.
  - injection E as <- <-. destruct (step w op) as [[w1 r]| |]; reflexivity.
  - destruct (step w o) as [[w1 r]| |]; cbn [bind fst snd] in *; try discriminate.
    destruct (run w1 ops) as [[w2 rs]| |] eqn:R; cbn [bind fst snd] in E; try discriminate. injection E as <- <-.
    rewrite (IH _ _ _ _ R). destruct (step w2 op) as [[w3 r3]| |]; reflexivity.
Qed.
(** Every further call on such a history is defined. *)
Theorem calls_defined ops w outs op : run start ops = Ok (w, outs) -> Forall op_fine ops -> op_fine op -> op_there w op ->
  exists w' r, step w op = Ok (w', r).
Proof.
  intros R F Ho Ht. destruct (run_sound _ _ _ _ inv_start (Forall_nil _) F R) as [I S]. exact (step_defined w op I S Ho Ht).
Qed.
End Fine.
