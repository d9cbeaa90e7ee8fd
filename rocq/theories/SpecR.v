(** Reading back whatever was written: texts read in part, complaints, the texts of an object. *)
From Coq Require Import NArith Nnat Sorted.
From Verif Require Import CStr CStrFacts HSListModel HSListFacts RTreeModel RTreeFacts RTreeFacts2 RTreeFacts3 RTreeFacts4 MRTreeModel MRTreeFacts MRTreeFacts2
  ObjModel ObjFacts2 Dec StrModel StrFacts DocModel DocFacts2 SpecA SpecB SpecD SpecE ParseModel ParseFacts SpecF SpecF2 SpecF3 SpecF4 XmlModel XmlFacts SpecG SpecG2 SpecG3 SpecG4 SpecG5
  SpecG7 TextFacts5.

(** ** The handlers do not look at the messages *)
Definition pre (l : list pentry) (st : pst) : pst :=
  mkP (ps_stack st) (ps_text st) (ps_len st) (ps_doc st) (l ++ ps_log st) (ps_fatal st) (ps_doctype st) (ps_enc st) (ps_opts st).
Lemma pre_logged l st es : logged (pre l st) es = pre l (logged st es).
Proof. unfold logged, pre. cbn. now rewrite app_assoc. Qed.
Lemma step_pre s l st e st' : step s st e = Ok st' -> step s (pre l st) e = Ok (pre l st').
Proof.
  destruct e as [n a|n|t|n y p]; cbn [step].
  - unfold start_handler. intros E. apply bind_ok in E. destruct E as (dict & Ed & E). rewrite Ed. cbn [bind]. cbn zeta in *.
    change (ps_stack (pre l st)) with (ps_stack st). set (v := elem_valid (get_type n) (ps_stack st)) in *. cbn [el_valid] in *.
    set (s1 := if v then st else logged st [perr E_NOPARENT [Some n]]) in *.
    assert (E1 : (if v then pre l st else logged (pre l st) [perr E_NOPARENT [Some n]]) = pre l s1) by (unfold s1; destruct v; [reflexivity|apply pre_logged]).
    rewrite E1. clearbody s1. change (ps_text (pre l s1)) with (ps_text s1).
    set (s2 := match ps_text s1 with [] => s1 | x :: _ => with_text (logged s1 [perr E_TEXT_BETWEEN [Some x]]) [] 0 end) in *.
    assert (E2 : match ps_text s1 with [] => pre l s1 | x :: _ => with_text (logged (pre l s1) [perr E_TEXT_BETWEEN [Some x]]) [] 0 end = pre l s2).
    { unfold s2. destruct (ps_text s1); [reflexivity|]. rewrite pre_logged. reflexivity. }
    rewrite E2. clearbody s2. apply bind_ok in E. destruct E as (es & Ee & E). rewrite Ee. cbn [bind].
    change (with_stack (pre l s2) (mkElem (get_type n) v dict :: ps_stack (pre l s2))) with (pre l (with_stack s2 (mkElem (get_type n) v dict :: ps_stack s2))).
    rewrite pre_logged. destruct v.
    + apply bind_ok in E. destruct E as (d & Ep & E). injection E as <-.
      match goal with |- bind ?m _ = _ => replace m with (Ok d) by (symmetry; exact Ep) end. reflexivity.
    + now injection E as <-.
  - unfold end_handler. intros E. change (ps_text (pre l st)) with (ps_text st). change (ps_len (pre l st)) with (ps_len st).
    apply bind_ok in E. destruct E as (tmp & Et & E). rewrite Et. cbn [bind]. cbn zeta in *.
    change (ps_stack (with_text (pre l st) [] 0)) with (ps_stack (with_text st [] 0)). destruct (ps_stack (with_text st [] 0)) as [|el anc]; [discriminate|].
    destruct (etype_eqb (get_type n) (el_type el)); [|now injection E as <-].
    apply bind_ok in E. destruct E as ([[d es] tmp'] & Ep & E). injection E as <-.
    match goal with |- bind ?m _ = _ => replace m with (Ok (d, es, tmp')) by (symmetry; exact Ep) end. cbn [bind].
    change (with_doc (with_text (pre l st) [] 0) d) with (pre l (with_doc (with_text st [] 0) d)). now rewrite pre_logged.
  - intros E. injection E as <-. unfold chars_handler. destruct (forallb is_space t); reflexivity.
  - intros E. injection E as <-. reflexivity.
Qed.
Lemma run_pre s l es : forall st st', run s st es = Ok st' -> run s (pre l st) es = Ok (pre l st').
Proof.
  induction es as [|e es IH]; intros st st' E; cbn [run] in *; [now injection E as <-|].
  apply bind_ok in E. destruct E as (s1 & E1 & E). rewrite (step_pre _ l _ _ _ E1). cbn [bind]. now apply IH.
Qed.
Lemma plays_pre l st o cs st' o' cs' : plays st o cs st' o' cs' -> plays (pre l st) o cs (pre l st') o' cs'.
Proof. intros H es He. destruct (H es He) as (a & b & -> & R & Hb). exists a, b. split; [reflexivity|]. split; [now apply run_pre|exact Hb]. Qed.

(** ** Texts read in part *)
(** What a reader may make of the texts: it may lose white characters. *)
Class reader := { keeps : str -> str -> Prop; keeps_thinner : forall s s', keeps s s' -> thinner s s' }.
Definition thin_reader : reader := {| keeps := thinner; keeps_thinner := fun s s' H => H |}.
Section Reader.
Context {RD : reader}.
(** [seen s s']: of the text [s] the handlers collect [s']. *)
Definition seen (s s' : str) : Prop := keeps s s' /\ (s' = [] \/ ~ blank s').
Inductive thin : xml -> xml -> Prop :=
| TN_text s s' : seen s s' -> thin (Text s) (Text s')
| TN_elem n a b b' : Forall2 thin b b' -> thin (Elem n a b) (Elem n a b').
Lemma thin_elem n a b t : thin (Elem n a b) t -> exists b', t = Elem n a b' /\ Forall2 thin b b'.
Proof. intros H. inversion H; subst. eauto. Qed.
Lemma thin_text s t : thin (Text s) t -> exists s', t = Text s' /\ seen s s'.
Proof. intros H. inversion H; subst. eauto. Qed.
Lemma thin_leaf n a s t : thin (Elem n a [Text s]) t -> exists s', t = Elem n a [Text s'] /\ seen s s'.
Proof.
  intros H. apply thin_elem in H. destruct H as (b' & -> & H). inversion H as [|x y l l' Hx Hl]; subst. inversion Hl; subst. apply thin_text in Hx. destruct Hx as (s' & -> & Hs). eauto.
Qed.
Lemma retext_attrs_inv R a : forall cs c, Forall2 (retext R) (map attr_call a ++ cs) c -> exists cs', c = map attr_call a ++ cs' /\ Forall2 (retext R) cs cs'.
Proof.
  induction a as [|x a IH]; intros cs c H; cbn [map app] in *; [eauto|]. inversion H as [|? y ? l Hx Hl]; subst. destruct (IH _ _ Hl) as (cs' & -> & H'). exists cs'.
  split; [|exact H']. inversion Hx; subst. reflexivity.
Qed.
Lemma retext_thin t : forall cs c, Forall2 (retext seen) (ser t ++ cs) c -> exists t' cs', c = ser t' ++ cs' /\ thin t t' /\ Forall2 (retext seen) cs cs'.
Proof.
  induction t as [s|n a b IH] using xml_all; intros cs c H.
  - cbn [ser app] in H. inversion H as [|? y ? l Hx Hl]; subst. inversion Hx as [s1 s' Hs|? Hn]; subst; [|now elim (Hn s)].
    exists (Text s'), l. split; [reflexivity|]. split; [now constructor|exact Hl].
  - rewrite ser_elem in H. inversion H as [|? y ? l Hx Hl]; subst. inversion Hx; subst. apply retext_attrs_inv in Hl. destruct Hl as (c1 & -> & H1).
    assert (Hb : forall c1, Forall2 (retext seen) (sers b ++ WEnd :: cs) c1 -> exists b' cs', c1 = sers b' ++ WEnd :: cs' /\ Forall2 thin b b' /\ Forall2 (retext seen) cs cs').
    { clear -IH. induction IH as [|t b Ht _ IHb]; intros c1 H1; cbn [sers flat_map app] in *.
      - inversion H1 as [|? y ? l Hx Hl]; subst. inversion Hx; subst. exists [], l. split; [reflexivity|]. split; [constructor|exact Hl].
      - rewrite <- app_assoc in H1. destruct (Ht _ _ H1) as (t' & c2 & -> & Htt & H2). destruct (IHb _ H2) as (b' & cs' & -> & Hbb & H3).
        exists (t' :: b'), cs'. unfold sers. cbn [flat_map]. rewrite <- app_assoc. split; [reflexivity|]. split; [now constructor|exact H3]. }
    destruct (Hb _ H1) as (b' & cs' & -> & Hbb & H3). exists (Elem n a b'), cs'. rewrite ser_elem. split; [reflexivity|]. split; [now constructor|exact H3].
Qed.

(** What a text becomes: nothing if it is blank, otherwise a text that may lack
    some white characters. *)
Definition text_after (s : str) (x : option ostr) : Prop := blank s /\ x = None \/ exists s', keeps s s' /\ ~ blank s' /\ x = Some (Some s').
Lemma thinner_blank s s' : thinner s s' -> (blank s <-> blank s').
Proof.
  induction 1 as [|c s s' _ IH|c s s' Hc _ IH]; [tauto| |]; unfold blank in *; rewrite !Forall_cons_iff; tauto.
Qed.
Lemma heard_no_blanks o cs es : heard o cs es -> no_blanks cs.
Proof.
  induction 1; try exact IHheard; try (constructor; fail).
  - unfold no_blanks in *. cbn [texts_of flat_map app]. fold (texts_of (map (fun kv : str * str => WAttr (fst kv) (snd kv)) a ++ cs)). rewrite texts_app. apply Forall_app. split; [|exact IHheard].
    clear. induction a as [|x a IH]; [constructor|exact IH].
  - unfold no_blanks in *. cbn [texts_of flat_map app]. constructor; [|exact IHheard]. subst s. destruct ch as [|c ch]; [now left|right]. cbn [concat]. intros B.
    apply Forall_app in B. apply Forall_inv in H0. now apply H0.
Qed.
Lemma retext_seen cs : forall cs', Forall2 (retext keeps) cs cs' -> no_blanks cs' -> Forall2 (retext seen) cs cs'.
Proof.
  intros cs' H. induction H as [|c c' cs cs' Hc _ IH]; intros Hn; [constructor|]. inversion Hc as [s s' Hs|c0 Hs]; subst.
  - unfold no_blanks in Hn. cbn [texts_of flat_map app] in Hn. apply Forall_cons_iff in Hn. destruct Hn as [H1 Hn]. constructor; [|now apply IH]. constructor. now split.
  - constructor; [now constructor|]. apply IH. destruct c'; try exact Hn. now elim (Hs s).
Qed.
(** The text [s'] as the parser has it. *)
Definition told_text (s' : str) : option ostr := match s' with [] => None | _ => Some (Some s') end.

Lemma seen_after s s' : seen s s' -> text_after s (told_text s').
Proof.
  intros [H [->|Hb]]; [left; split; [|reflexivity]; apply (thinner_blank _ _ (keeps_thinner _ _ H)); constructor|]. right. exists s'. split; [exact H|]. split; [exact Hb|].
  destruct s'; [elim Hb; constructor|reflexivity].
Qed.
Lemma seen_solid s s' : seen s s' -> Forall (fun c => ~ white c) s -> s' = s.
Proof.
  intros [H _]. apply keeps_thinner in H. induction H as [|c s s' _ IH|c s s' Hc _ _]; intros Hf; [reflexivity| |]; apply Forall_cons_iff in Hf; destruct Hf as [H1 H2]; [now rewrite IH|contradiction].
Qed.
End Reader.

(** ** Playing calls to the parser, with complaints [es] *)
Section Play.
Variables (dt : option (ostr * ostr * ostr)) (en : ostr) (op : dopts).
Notation at_ := (at_ dt en op).
Definition plays2 (sk : list elem) (p : docptr) (o : list str) (cs : list call) (sk' : list elem) (p' : docptr) (o' : list str) (cs' : list call) (es : list pentry) : Prop :=
  plays (at_ sk p) o cs (pre es (at_ sk' p')) o' cs'.
Lemma plays2_of sk p o cs sk' p' o' cs' : plays (at_ sk p) o cs (at_ sk' p') o' cs' -> plays2 sk p o cs sk' p' o' cs' [].
Proof. intros H. exact H. Qed.
Lemma plays2_refl sk p o cs : plays2 sk p o cs sk p o cs [].
Proof. apply plays_refl. Qed.
Lemma plays2_trans k1 p1 o1 c1 k2 p2 o2 c2 k3 p3 o3 c3 e1 e2 : plays2 k1 p1 o1 c1 k2 p2 o2 c2 e1 -> plays2 k2 p2 o2 c2 k3 p3 o3 c3 e2 -> plays2 k1 p1 o1 c1 k3 p3 o3 c3 (e1 ++ e2).
Proof.
  intros H1 H2. unfold plays2 in *. eapply plays_trans; [exact H1|]. apply (plays_pre e1) in H2.
  replace (pre (e1 ++ e2) (at_ k3 p3)) with (pre e1 (pre e2 (at_ k3 p3))); [exact H2|]. unfold pre. cbn. now rewrite app_assoc.
Qed.
Lemma plays2_end n o el cs sk p p1 es : get_type n = el_type el -> el_valid el = true -> postproc op el sk p None = Ok (p1, es, None) ->
  plays2 (el :: sk) p (n :: o) (WEnd :: cs) sk p1 o cs es.
Proof.
  intros Et Ev Ep ev H. destruct (heard_close _ _ _ _ H) as (bl & es' & -> & Hb & He).
  exists (map EChars bl ++ [EEnd n]), es'. split; [now rewrite <- app_assoc|]. split; [|exact He].
  rewrite run_blanks by exact Hb. cbn [run step]. unfold end_handler. cbn [ps_text ps_len SpecG2.at_ all_text bind with_text ps_stack ps_opts ps_doc].
  rewrite Et, etype_eqb_refl, Ev, Ep. cbn [bind]. reflexivity.
Qed.
Lemma plays2_text_end n o el s cs sk p p1 es : get_type n = el_type el -> el_valid el = true -> postproc op el sk p (text_of s) = Ok (p1, es, None) ->
  plays2 (el :: sk) p (n :: o) (WText s :: WEnd :: cs) sk p1 o cs es.
Proof.
  intros Et Ev Ep ev H. destruct (heard_text _ _ _ _ H) as (bl & ch & es' & -> & Hb & Hc & Hch & He).
  destruct (heard_close _ _ _ _ He) as (bl2 & es2 & -> & Hb2 & He2).
  exists (map EChars bl ++ map EChars ch ++ map EChars bl2 ++ [EEnd n]), es2. split; [now rewrite <- !app_assoc|]. split; [|exact He2].
  rewrite run_blanks by exact Hb. unfold SpecG2.at_ at 1. rewrite run_chunks, run_blanks by assumption. cbn [run step app]. unfold end_handler.
  cbn [ps_text ps_len]. rewrite Hc. rewrite all_text_ok.
  - rewrite Hc. cbn [bind with_text ps_stack ps_opts ps_doc]. rewrite Et, etype_eqb_refl, Ev.
    match goal with |- context [postproc ?a ?b ?c ?d ?e] => change (postproc a b c d e) with (postproc op el sk p (text_of s)) end. rewrite Ep. cbn [bind]. reflexivity.
  - unfold tcons. rewrite Hc. split; [|reflexivity]. apply Forall_forall. intros x Hx. rewrite Forall_forall in Hch. specialize (Hch x Hx).
    unfold nonblank. destruct (forallb is_space x) eqn:E; [apply blank_iff in E; contradiction|reflexivity].
Qed.
End Play.
