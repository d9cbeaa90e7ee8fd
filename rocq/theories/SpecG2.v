(** Reading back what was written: events, single elements, packages, ids. *)
From Verif Require Import CStr CStrFacts HSListModel HSListFacts RTreeModel RTreeFacts RTreeFacts2 RTreeFacts3 RTreeFacts4 MRTreeModel MRTreeFacts MRTreeFacts2
  ObjModel ObjFacts2 Dec StrModel StrFacts DocModel DocFacts2 SpecA SpecB SpecE ParseModel ParseFacts SpecF SpecF2 SpecF3 XmlModel XmlFacts SpecG.

(** ** What a reader of the file reports *)
(** [heard o cs es]: with the elements [o] open, an expat parser fed with what
    libxml2 writes for the calls [cs] may report the events [es].  White space may
    be reported anywhere (the file is indented); a text may be reported in pieces,
    none of them blank; an empty text is not reported. *)
Definition no_attr (cs : list call) : Prop := match cs with WAttr _ _ :: _ => False | _ => True end.
Inductive heard : list str -> list call -> list event -> Prop :=
| H_end : heard [] [] []
| H_blank o cs s es : blank s -> heard o cs es -> heard o cs (EChars s :: es)
| H_startdoc e cs es : heard [] cs es -> heard [] (WStartDoc e :: cs) es
| H_enddoc cs es : heard [] cs es -> heard [] (WEndDoc :: cs) es
| H_dtd n p s cs es : heard [] cs es -> heard [] (WDTD n p s :: WEndDTD :: cs) (EDoctype n s p :: es)
| H_start o n a cs es : no_attr cs -> heard (n :: o) cs es -> heard o (WStart n :: map (fun kv => WAttr (fst kv) (snd kv)) a ++ cs) (EStart n a :: es)
| H_text o s ch cs es : concat ch = s -> Forall (fun c => ~ blank c) ch -> heard o cs es -> heard o (WText s :: cs) (map EChars ch ++ es)
| H_close o n cs es : heard o cs es -> heard (n :: o) (WEnd :: cs) (EEnd n :: es).

Definition blanks (bl : list str) : Prop := Forall blank bl.
Lemma attrs_split a : forall a' cs cs', no_attr cs -> no_attr cs' -> map attr_call a ++ cs = map attr_call a' ++ cs' -> a = a' /\ cs = cs'.
Proof.
  induction a as [|[k v] a IH]; intros [|[k' v'] a'] cs cs' H H' E; cbn [map app] in E.
  - auto.
  - subst cs. now elim H.
  - subst cs'. now elim H'.
  - injection E as E1 E2 E3. destruct (IH _ _ _ H H' E3) as [-> ->]. cbn in E1, E2. now subst.
Qed.
Lemma heard_start o n a cs es : heard o (WStart n :: map attr_call a ++ cs) es -> no_attr cs ->
  exists bl es', es = map EChars bl ++ EStart n a :: es' /\ blanks bl /\ heard (n :: o) cs es'.
Proof.
  intros H Hn. remember (WStart n :: map attr_call a ++ cs) as c eqn:Ec. revert Ec. induction H; intros Ec; try discriminate.
  - destruct (IHheard Ec) as (bl & es' & -> & Hb & He). exists (s :: bl), es'. split; [reflexivity|]. split; [now constructor|exact He].
  - injection Ec as -> E. apply (attrs_split a0 a) in E; [|assumption|assumption]. destruct E as [-> ->].
    exists [], es. split; [reflexivity|]. split; [constructor|assumption].
Qed.
Lemma heard_text o s cs es : heard o (WText s :: cs) es ->
  exists bl ch es', es = map EChars bl ++ map EChars ch ++ es' /\ blanks bl /\ concat ch = s /\ Forall (fun c => ~ blank c) ch /\ heard o cs es'.
Proof.
  intros H. remember (WText s :: cs) as c eqn:Ec. revert Ec. induction H; intros Ec; try discriminate.
  - destruct (IHheard Ec) as (bl & ch & es' & -> & Hb & He). exists (s0 :: bl), ch, es'. split; [reflexivity|]. split; [now constructor|exact He].
  - injection Ec as -> ->. exists [], ch, es. split; [reflexivity|]. split; [constructor|auto].
Qed.
Lemma heard_close n o cs es : heard (n :: o) (WEnd :: cs) es -> exists bl es', es = map EChars bl ++ EEnd n :: es' /\ blanks bl /\ heard o cs es'.
Proof.
  intros H. remember (WEnd :: cs) as c eqn:Ec. remember (n :: o) as oo eqn:Eo. revert Ec Eo. induction H; intros Ec Eo; try discriminate.
  - destruct (IHheard Ec Eo) as (bl & es' & -> & Hb & He). exists (s :: bl), es'. split; [reflexivity|]. split; [now constructor|exact He].
  - injection Ec as ->. injection Eo as -> ->. exists [], es. split; [reflexivity|]. split; [constructor|auto].
Qed.
Lemma run_blanks st bl es : blanks bl -> run false st (map EChars bl ++ es) = run false st es.
Proof.
  intros H. induction H as [|s bl Hs _ IH]; cbn [map app run]; [reflexivity|]. cbn [step]. unfold chars_handler.
  apply blank_iff in Hs. rewrite Hs. cbn [bind]. exact IH.
Qed.

(** ** Playing calls to the parser *)
Definition plays (st : pst) (o : list str) (cs : list call) (st' : pst) (o' : list str) (cs' : list call) : Prop :=
  forall es, heard o cs es -> exists es1 es2, es = es1 ++ es2 /\ run false st es1 = Ok st' /\ heard o' cs' es2.
Lemma plays_refl st o cs : plays st o cs st o cs.
Proof. intros es H. exists [], es. cbn. auto. Qed.
Lemma plays_trans s1 o1 c1 s2 o2 c2 s3 o3 c3 : plays s1 o1 c1 s2 o2 c2 -> plays s2 o2 c2 s3 o3 c3 -> plays s1 o1 c1 s3 o3 c3.
Proof.
  intros H1 H2 es H. destruct (H1 es H) as (a & b & -> & Ra & Hb). destruct (H2 b Hb) as (c & e & -> & Rc & He).
  exists (a ++ c), e. split; [now rewrite app_assoc|]. split; [|exact He]. rewrite run_app, Ra. exact Rc.
Qed.
Section Play.
Variables (dt : option (ostr * ostr * ostr)) (en : ostr) (op : dopts).
Definition at_ (sk : list elem) (p : docptr) : pst := mkP sk [] 0 p [] false dt en op.

Lemma plays_start n a dict cs o sk p p1 : no_attr cs -> attrs_dict rt_create a = Ok dict -> check_attributes false (get_type n) dict = Ok [] ->
  elem_valid (get_type n) sk = true -> preproc op en (mkElem (get_type n) true dict) sk p = Ok p1 ->
  plays (at_ sk p) o (WStart n :: map attr_call a ++ cs) (at_ (mkElem (get_type n) true dict :: sk) p1) (n :: o) cs.
Proof.
  intros Hn Ea Ec Ev Ep es H. destruct (heard_start _ _ _ _ _ H Hn) as (bl & es' & -> & Hb & He).
  exists (map EChars bl ++ [EStart n a]), es'. split; [now rewrite <- app_assoc|]. split; [|exact He].
  rewrite run_blanks by exact Hb. cbn [run step]. unfold start_handler. cbn [ps_stack at_]. rewrite Ea. cbn [bind el_valid]. rewrite Ev. cbn [ps_text at_].
  rewrite Ec. cbn [bind]. unfold logged, with_stack, with_doc. cbn [ps_opts ps_enc ps_doc at_ ps_stack ps_text ps_len ps_log ps_fatal ps_doctype app].
  rewrite Ep. reflexivity.
Qed.
Lemma plays_end n o el cs sk p p1 : get_type n = el_type el -> el_valid el = true -> postproc op el sk p None = Ok (p1, [], None) ->
  plays (at_ (el :: sk) p) (n :: o) (WEnd :: cs) (at_ sk p1) o cs.
Proof.
  intros Et Ev Ep es H. destruct (heard_close _ _ _ _ H) as (bl & es' & -> & Hb & He).
  exists (map EChars bl ++ [EEnd n]), es'. split; [now rewrite <- app_assoc|]. split; [|exact He].
  rewrite run_blanks by exact Hb. cbn [run step]. unfold end_handler. cbn [ps_text ps_len at_ all_text bind with_text ps_stack ps_opts ps_doc].
  rewrite Et, etype_eqb_refl, Ev, Ep. reflexivity.
Qed.
Lemma run_chunks ch : Forall (fun c => ~ blank c) ch -> forall sk t n p es,
  run false (mkP sk t n p [] false dt en op) (map EChars ch ++ es) = run false (mkP sk (t ++ ch) (n + length (concat ch)) p [] false dt en op) es.
Proof.
  induction 1 as [|c ch Hc _ IH]; intros sk t n p es; cbn [map app run concat length]; [now rewrite app_nil_r, Nat.add_0_r|].
  cbn [step]. unfold chars_handler. destruct (forallb is_space c) eqn:E; [apply blank_iff in E; contradiction|]. cbn [bind].
  unfold with_text. cbn [ps_text ps_len ps_stack ps_doc ps_log ps_fatal ps_doctype ps_enc ps_opts]. rewrite IH, app_length. f_equal. f_equal.
  - now rewrite <- app_assoc.
  - lia.
Qed.
Lemma plays_text_end n o el s cs sk p p1 : get_type n = el_type el -> el_valid el = true -> s <> [] -> postproc op el sk p (Some s) = Ok (p1, [], None) ->
  plays (at_ (el :: sk) p) (n :: o) (WText s :: WEnd :: cs) (at_ sk p1) o cs.
Proof.
  intros Et Ev Hs Ep es H. destruct (heard_text _ _ _ _ H) as (bl & ch & es' & -> & Hb & Hc & Hch & He).
  destruct (heard_close _ _ _ _ He) as (bl2 & es2 & -> & Hb2 & He2).
  exists (map EChars bl ++ map EChars ch ++ map EChars bl2 ++ [EEnd n]), es2. split; [now rewrite <- !app_assoc|]. split; [|exact He2].
  rewrite run_blanks by exact Hb. unfold at_ at 1. rewrite run_chunks, run_blanks by assumption. cbn [run step app]. unfold end_handler.
  cbn [ps_text ps_len]. rewrite Hc. rewrite all_text_ok.
  - rewrite Hc. rewrite (text_of_some s Hs). cbn [bind with_text ps_stack ps_opts ps_doc]. rewrite Et, etype_eqb_refl, Ev.
    match goal with |- context [postproc ?a ?b ?c ?d ?e] => change (postproc a b c d e) with (postproc op el sk p (Some s)) end. rewrite Ep. reflexivity.
  - unfold tcons. rewrite Hc. split; [|reflexivity]. apply Forall_forall. intros x Hx. rewrite Forall_forall in Hch. specialize (Hch x Hx).
    unfold nonblank. destruct (forallb is_space x) eqn:E; [apply blank_iff in E; contradiction|reflexivity].
Qed.
End Play.

(** ** Attributes *)
Lemma drop_key_in k l x : NoDup l -> In x (drop_key k l) -> In x l /\ x <> k.
Proof.
  induction 1 as [|y l Hy _ IH]; cbn [drop_key]; [intros []|]. destruct (streq y k) eqn:E.
  - apply streq_iff in E. subst y. intros Hx. split; [now right|]. intros ->. contradiction.
  - intros [->|Hx]; [split; [now left|]; intros ->; now rewrite streq_refl in E|]. destruct (IH Hx). split; [now right|assumption].
Qed.
Lemma drop_key_nodup k l : NoDup l -> NoDup (drop_key k l).
Proof.
  induction 1 as [|y l Hy Hl IH]; cbn [drop_key]; [constructor|]. destruct (streq y k); [exact Hl|]. constructor; [|exact IH].
  intros Hx. apply drop_key_in in Hx; [|exact Hl]. tauto.
Qed.
Lemma drop_all_nil at_ : forall l, NoDup l -> incl l at_ -> fold_left (fun l k => drop_key k l) at_ l = [].
Proof.
  induction at_ as [|k at_ IH]; intros l Hn Hi; cbn [fold_left].
  - destruct l as [|x l]; [reflexivity|]. elim (Hi x). now left.
  - apply IH; [now apply drop_key_nodup|]. intros x Hx. apply drop_key_in in Hx; [|exact Hn]. destruct Hx as [Hx Hk]. destruct (Hi x Hx) as [->|H']; [congruence|exact H'].
Qed.
Lemma latest_in {V} (a : list (str * V)) k v : latest a k = Some v -> In k (map fst a).
Proof.
  unfold latest. destruct (find _ (rev a)) as [[k' v']|] eqn:E; [|discriminate]. intros _. apply find_some in E. destruct E as [E1 E2].
  cbn in E2. apply streq_iff in E2. subst k'. apply in_map_iff. exists (k, v'). split; [reflexivity|]. now apply in_rev.
Qed.
Lemma attrs_ok t a : nonempty_keys a -> no_late_prefix a -> incl (map fst a) (attributes t) ->
  exists dict, attrs_dict rt_create a = Ok dict /\ (forall k, rt_get dict k = Ok (latest a k)) /\ check_attributes false t dict = Ok [].
Proof.
  intros Hne Hl Hi. destruct (attrs_dict_ok a rt_create (wft_create)) as (dict & E & Hw). exists dict. split; [exact E|].
  pose proof (attrs_dict_latest a dict Hne Hl E) as Hg. split; [exact Hg|]. unfold check_attributes. cbn [andb].
  rewrite attrs_dict_sets in E.
  destruct (reach_enum (fun x => x) dict (reach_sets (fun x => x) a dict E)) as (ps & _ & Hnd & Hin & Hk & _). rewrite Hk. cbn [bind].
  rewrite drop_all_nil; [reflexivity|exact Hnd|]. intros k Hk'. apply in_map_iff in Hk'. destruct Hk' as ((k' & v) & <- & Hp). apply Hin in Hp.
  apply Hi. rewrite Hg in Hp. injection Hp as Hp. now apply latest_in in Hp.
Qed.

(** ** Packages *)
Definition blank_free (s : str) : Prop := ~ blank s.
Lemma blank_free_ne s : blank_free s -> s <> [].
Proof. intros H ->. apply H. constructor. Qed.
(** Architectures that survive a round trip. *)
Definition arches_normal (l : option (list ostr)) : Prop := l = None \/ exists ws, ws <> [] /\ Forall word ws /\ l = Some (map Some ws).
Definition arches_back (o : xopts) (l : option (list ostr)) : option (list ostr) := if x_arch o then l else None.
Lemma arches_attr o l : (x_arch o = true -> arches_normal l) ->
  exists a, arch_attr o l = Ok a /\ (a = [] /\ arches_back o l = None \/ exists s, a = [(S_ "arch", s)] /\ arches_back o l = Some (split_arches s)).
Proof.
  intros H. unfold arch_attr, arches_back. destruct (x_arch o); [|exists []; auto]. destruct (H eq_refl) as [->|(ws & Hne & Hw & ->)].
  - exists []. auto.
  - destruct (arch_roundtrip ws Hw) as (s & Es & Esp). destruct ws as [|x ws]; [congruence|]. cbn [map] in *. rewrite Es. cbn [bind].
    exists [(S_ "arch", s)]. split; [reflexivity|]. right. exists s. split; [reflexivity|]. now rewrite Esp.
Qed.
Definition pkg_normal (o : xopts) (p : pkg) : Prop :=
  (exists s, p_name p = Some (Some s) /\ blank_free s) /\
  (p_requires p = None \/ exists s, p_requires p = Some (Some s) /\ s <> []) /\
  (p_bao p = None \/ p_bao p = Some 1%Z) /\
  In (p_type p) [PK_DEFAULT; PK_OPTIONAL; PK_CONDITIONAL; PK_MANDATORY] /\
  (x_arch o = true -> arches_normal (p_arches p)).
Definition pkg_back (o : xopts) (p : pkg) : pkg := mkPkg (p_name p) (p_requires p) (p_bao p) (p_type p) (arches_back o (p_arches p)).
Definition gid_normal (o : xopts) (g : gid) : Prop :=
  (exists s, gi_name g = Some (Some s) /\ blank_free s) /\ (x_arch o = true -> arches_normal (gi_arches g)).
Definition gid_back (o : xopts) (g : gid) : gid := mkGid (gi_name g) (gi_def g) (arches_back o (gi_arches g)).

Lemma incl_one {A} (x : A) l m : In x m -> incl l m -> incl (x :: l) m.
Proof. intros Hx Hl y [<-|Hy]; auto. Qed.
Ltac incl_tac := repeat (apply incl_one; [cbn [attributes In]; tauto|]); intros ? [].
Ltac attrs_tac T A :=
  destruct (attrs_ok T A) as (dict & Ead & Eg & Ec);
  [apply nonempty_keys_b; vm_compute; reflexivity | apply no_late_prefix_b; vm_compute; reflexivity | cbn [map fst app]; incl_tac | ].
Lemma pkg_attrs o op p : pkg_normal o p ->
  exists a s dict, pkg_tree o p = Ok (Elem (S_ "packagereq") a [Text s]) /\ p_name p = Some (Some s) /\ s <> [] /\
    attrs_dict rt_create a = Ok dict /\ check_attributes false TPackagereq dict = Ok [] /\
    pkg_of_attrs op dict = Ok (mkPkg None (p_requires p) (p_bao p) (p_type p) (arches_back o (p_arches p))).
Proof.
  intros ((s & Es & Hs) & Hr & Hb & Ht & Ha). destruct (arches_attr o (p_arches p) Ha) as (a & Ea & Hback).
  unfold pkg_tree. rewrite Ea. cbn [bind]. rewrite Es. cbn [ostr_tostr str_tostr].
  unfold pkg_of_attrs.
  assert (Hty : package_get_type (pkg_type_str (p_type p)) = p_type p).
  { cbn [In] in Ht. destruct Ht as [<-|[<-|[<-|[<-|[]]]]]; reflexivity. }
  assert (Hreq : match p_requires p with Some s => match str_tostr s with [] => [] | c :: l => [(S_ "requires", c :: l)] end | None => [] end
     = match p_requires p with Some (Some s) => [(S_ "requires", s)] | _ => [] end).
  { destruct Hr as [->|(q & -> & Hq)]; [reflexivity|]. cbn [str_tostr]. destruct q; [congruence|reflexivity]. }
  rewrite Hreq. clear Hreq.
  set (y := pkg_type_str (p_type p)) in *. clearbody y.
  destruct Hback as [[-> Hk]|(z & -> & Hk)]; rewrite Hk; cbn [app];
   (destruct Hr as [->|(q & -> & Hq)]); (destruct Hb as [->| ->]); cbn [Z.eqb]; destruct (x_bao o); cbn [app];
   match goal with |- exists _ _ _, Ok (Elem _ ?A _) = _ /\ _ => attrs_tac TPackagereq A; exists A, s, dict end;
   (split; [reflexivity|]); (split; [reflexivity|]); (split; [now apply blank_free_ne|]); (split; [eassumption|]); (split; [eassumption|]);
   rewrite !Eg, <- Hty; reflexivity.
Qed.
Lemma gid_attrs o p : gid_normal o p ->
  exists a s dict, gid_tree o p = Ok (Elem (S_ "groupid") a [Text s]) /\ gi_name p = Some (Some s) /\ s <> [] /\
    attrs_dict rt_create a = Ok dict /\ check_attributes false TGroupid dict = Ok [] /\
    gid_of_attrs dict = Ok (mkGid None (gi_def p) (arches_back o (gi_arches p))).
Proof.
  intros ((s & Es & Hs) & Ha). destruct (arches_attr o (gi_arches p) Ha) as (a & Ea & Hback).
  unfold gid_tree. rewrite Ea. cbn [bind]. rewrite Es. cbn [ostr_tostr str_tostr].
  unfold gid_of_attrs.
  destruct Hback as [[-> Hk]|(z & -> & Hk)]; rewrite Hk; cbn [app]; destruct (x_gid_default o), (gi_def p); cbn [app orb bool_str];
   match goal with |- exists _ _ _, Ok (Elem _ ?A _) = _ /\ _ => attrs_tac TGroupid A; exists A, s, dict end;
   (split; [reflexivity|]); (split; [reflexivity|]); (split; [now apply blank_free_ne|]); (split; [eassumption|]); (split; [eassumption|]);
   rewrite !Eg; reflexivity.
Qed.
