(** Reading back what was written: a reader for every saved document, readers that
    cut texts anywhere, checking the normal form of a given document. *)
From Verif Require Import CStr CStrFacts HSListModel HSListFacts RTreeModel RTreeFacts RTreeFacts2 RTreeFacts3 RTreeFacts4 MRTreeModel MRTreeFacts MRTreeFacts2
  ObjModel ObjFacts ObjFacts2 Dec StrModel StrFacts DocModel DocFacts2 SpecA SpecB SpecC SpecD SpecD2 SpecE ParseModel ParseFacts SpecF SpecF2 SpecF3 SpecF4 XmlModel XmlFacts
  SpecG SpecG2 SpecG3 SpecG4 SpecG5 SpecG6.

(** ** Readers *)
Definition texts_of (cs : list call) : list str := flat_map (fun c => match c with WText s => [s] | _ => [] end) cs.
(** No text is blank unless empty. *)
Definition no_blanks (cs : list call) : Prop := Forall (fun s => s = [] \/ ~ blank s) (texts_of cs).
Lemma texts_app a b : texts_of (a ++ b) = texts_of a ++ texts_of b.
Proof. apply flat_map_app. Qed.
Lemma no_blanks_app a b : no_blanks (a ++ b) <-> no_blanks a /\ no_blanks b.
Proof. unfold no_blanks. rewrite texts_app. apply Forall_app. Qed.
Section XmlInd.
Variable P : xml -> Prop.
Hypothesis (HT : forall s, P (Text s)) (HE : forall n a b, Forall P b -> P (Elem n a b)).
Fixpoint xml_all (t : xml) : P t :=
  match t with
  | Text s => HT s
  | Elem n a b => HE n a b ((fix go (l : list xml) : Forall P l := match l with [] => Forall_nil P | x :: r => Forall_cons x (xml_all x) (go r) end) b)
  end.
End XmlInd.
(** As [heard], but a text may be cut into any pieces. *)
Inductive heard_any : list str -> list call -> list event -> Prop :=
| A_end : heard_any [] [] []
| A_blank o cs s es : blank s -> heard_any o cs es -> heard_any o cs (EChars s :: es)
| A_startdoc e cs es : heard_any [] cs es -> heard_any [] (WStartDoc e :: cs) es
| A_enddoc cs es : heard_any [] cs es -> heard_any [] (WEndDoc :: cs) es
| A_dtd n p s cs es : heard_any [] cs es -> heard_any [] (WDTD n p s :: WEndDTD :: cs) (EDoctype n s p :: es)
| A_start o n a cs es : no_attr cs -> heard_any (n :: o) cs es -> heard_any o (WStart n :: map (fun kv => WAttr (fst kv) (snd kv)) a ++ cs) (EStart n a :: es)
| A_text o s ch cs es : concat ch = s -> Forall (fun c => c <> []) ch -> heard_any o cs es -> heard_any o (WText s :: cs) (map EChars ch ++ es)
| A_close o n cs es : heard_any o cs es -> heard_any (n :: o) (WEnd :: cs) (EEnd n :: es).
Definition no_white (cs : list call) : Prop := Forall (fun s => forall c, In c s -> ~ white c) (texts_of cs).
Lemma heard_any_heard o cs es : heard_any o cs es -> no_white cs -> heard o cs es.
Proof.
  induction 1; intros Hn; try (constructor; auto; fail).
  - constructor; [assumption|]. apply IHheard_any. unfold no_white in *. cbn [texts_of flat_map app] in Hn. fold (texts_of (map (fun kv : str * str => WAttr (fst kv) (snd kv)) a ++ cs)) in Hn.
    rewrite texts_app in Hn. apply Forall_app in Hn. apply Hn.
  - unfold no_white in *. cbn [texts_of flat_map app] in Hn. apply Forall_cons_iff in Hn. destruct Hn as [Hs Hn]. constructor; [assumption| |now apply IHheard_any].
    apply Forall_forall. intros c Hc Hb. rewrite Forall_forall in H0. specialize (H0 c Hc). destruct c as [|x c]; [congruence|]. apply Forall_inv in Hb.
    apply (Hs x); [|exact Hb]. subst s. apply in_concat. exists (x :: c). split; [exact Hc|now left].
Qed.
(** The events for a tree when texts are cut by [cut]. *)
Section Cut.
Variable cut : str -> list str.
Fixpoint tree_events (t : xml) : list event :=
  match t with Text s => map EChars (cut s) | Elem n a b => EStart n a :: flat_map tree_events b ++ [EEnd n] end.
Definition doc_events (n p s : ostr) (t : xml) : list event := EDoctype n s p :: tree_events t.
Lemma tree_heard (hrd : list str -> list call -> list event -> Prop) (okt : str -> Prop)
  (Hs : forall o n a cs es, no_attr cs -> hrd (n :: o) cs es -> hrd o (WStart n :: map attr_call a ++ cs) (EStart n a :: es))
  (Ht : forall o s cs es, okt s -> hrd o cs es -> hrd o (WText s :: cs) (map EChars (cut s) ++ es))
  (Hc : forall o n cs es, hrd o cs es -> hrd (n :: o) (WEnd :: cs) (EEnd n :: es)) t :
  forall o cs es, Forall okt (texts_of (ser t)) -> no_attr cs -> hrd o cs es -> hrd o (ser t ++ cs) (tree_events t ++ es).
Proof.
  induction t as [s|n a b IH] using xml_all; intros o cs es Hn Ha H.
  - cbn [ser app tree_events]. apply Ht; [|exact H]. cbn in Hn. now apply Forall_inv in Hn.
  - rewrite ser_elem. cbn [tree_events app]. apply Hs; [apply no_attr_sers|]. rewrite <- app_assoc. cbn [app].
    assert (Hb : Forall okt (texts_of (sers b))).
    { cbn [ser] in Hn. change (WStart n :: map attr_call a ++ flat_map ser b ++ [WEnd]) with ([WStart n] ++ map attr_call a ++ sers b ++ [WEnd]) in Hn.
      rewrite !texts_app in Hn. apply Forall_app in Hn. destruct Hn as [_ Hn]. apply Forall_app in Hn. destruct Hn as [_ Hn]. apply Forall_app in Hn. apply Hn. }
    assert (He : hrd (n :: o) (WEnd :: cs) (EEnd n :: es)) by now apply Hc.
    revert IH Hb. generalize b. clear Hn b. induction b as [|x b IHb]; intros IH Hb; cbn [sers flat_map app]; [exact He|].
    apply Forall_cons_iff in IH. destruct IH as [Hx IH]. cbn [sers flat_map] in Hb. rewrite texts_app in Hb. apply Forall_app in Hb. destruct Hb as [Hbx Hb].
    rewrite <- !app_assoc. apply Hx; [exact Hbx|apply no_attr_sers|]. now apply IHb.
Qed.
End Cut.
Lemma doc_heard cut e n p s t : (forall x, concat (cut x) = x) -> (forall x, In x (texts_of (ser t)) -> Forall (fun c => ~ blank c) (cut x)) ->
  heard [] (WStartDoc e :: dtd_calls n p s ++ ser t ++ [WEndDoc]) (doc_events cut n p s t).
Proof.
  intros Hc Hx. apply H_startdoc. unfold dtd_calls, doc_events. cbn [app]. apply H_dtd. rewrite <- (app_nil_r (tree_events cut t)).
  apply tree_heard with (okt := fun x => Forall (fun c => ~ blank c) (cut x)); [| | | |exact I|repeat constructor].
  - intros. now apply H_start.
  - intros. now apply H_text.
  - intros. now apply H_close.
  - now apply Forall_forall.
Qed.
Lemma doc_heard_any cut e n p s t : (forall x, concat (cut x) = x) -> (forall x, Forall (fun c => c <> []) (cut x)) ->
  heard_any [] (WStartDoc e :: dtd_calls n p s ++ ser t ++ [WEndDoc]) (doc_events cut n p s t).
Proof.
  intros Hc Hx. apply A_startdoc. unfold dtd_calls, doc_events. cbn [app]. apply A_dtd. rewrite <- (app_nil_r (tree_events cut t)).
  apply tree_heard with (okt := fun x => True); [| | | |exact I|repeat constructor].
  - intros. now apply A_start.
  - intros. now apply A_text.
  - intros. now apply A_close.
  - now apply Forall_forall.
Qed.
(** Whole texts. *)
Definition whole (s : str) : list str := match s with [] => [] | _ => [s] end.
Lemma whole_concat s : concat (whole s) = s.
Proof. destruct s; cbn; [reflexivity|now rewrite app_nil_r]. Qed.
Lemma whole_ne s : Forall (fun c => c <> []) (whole s).
Proof. destruct s; repeat constructor. discriminate. Qed.
Lemma whole_blank s : s = [] \/ ~ blank s -> Forall (fun c => ~ blank c) (whole s).
Proof. destruct s; repeat constructor. destruct H; [discriminate|assumption]. Qed.
(** Cut before and after every line break, as expat does. *)
Fixpoint lines (s : str) : list str :=
  match s with
  | [] => []
  | c :: r => if Ascii.eqb c "010"%char then [c] :: lines r
              else match lines r with
                   | (x :: l) :: ls => if Ascii.eqb x "010"%char then [c] :: (x :: l) :: ls else (c :: x :: l) :: ls
                   | ls => [c] :: ls
                   end
  end.
Lemma lines_concat s : concat (lines s) = s /\ Forall (fun c => c <> []) (lines s).
Proof.
  induction s as [|c s [IH1 IH2]]; [split; [reflexivity|constructor]|]. cbn [lines]. destruct (Ascii.eqb c "010").
  - cbn [concat]. rewrite IH1. split; [reflexivity|]. constructor; [discriminate|exact IH2].
  - destruct (lines s) as [|[|x l] ls]; cbn [concat app] in *.
    + rewrite <- IH1. split; [reflexivity|]. repeat constructor. discriminate.
    + apply Forall_inv in IH2. congruence.
    + destruct (Ascii.eqb x "010"); cbn [concat app]; rewrite IH1; (split; [reflexivity|]); [constructor; [discriminate|exact IH2]|].
      apply Forall_cons_iff in IH2. constructor; [discriminate|apply IH2].
Qed.
Lemma saved_heard ac name saved x df d w' r : comps2xml_f ac name saved x df d w0 = Ok (w', r) -> Forall (fun c => snd c = true) (w_calls w') ->
  no_blanks (calls w') -> exists es, heard [] (calls w') es.
Proof.
  intros E Ha Hn. destruct (xml_f_calls _ _ _ _ _ _ _ _ E Ha) as (n & p & s & t & _ & _ & _ & _ & Ec & _). rewrite Ec in *.
  change (WStartDoc (enc_str d) :: dtd_calls n p s ++ ser (fst t) ++ [WEndDoc]) with ([WStartDoc (enc_str d)] ++ dtd_calls n p s ++ ser (fst t) ++ [WEndDoc]) in Hn.
  apply no_blanks_app in Hn. destruct Hn as [_ Hn]. apply no_blanks_app in Hn. destruct Hn as [_ Hn]. apply no_blanks_app in Hn. destruct Hn as [Hn _].
  eexists. apply (doc_heard whole); [apply whole_concat|]. intros y Hy. apply whole_blank. unfold no_blanks in Hn. rewrite Forall_forall in Hn. auto.
Qed.

(** ** Checking the normal form *)
Definition blankb (s : str) : bool := forallb is_space s.
Lemma blankb_free s : negb (blankb s) = true -> blank_free s.
Proof. intros H B. apply blank_iff in B. unfold blankb in H. now rewrite B in H. Qed.
Definition propb (b : base) (k : str) (f : option pval -> bool) : bool := match base_get b k with Ok v => f v | _ => false end.
Lemma propb_prop b k f (P : option pval -> Prop) : (forall v, f v = true -> P v) -> propb b k f = true -> prop b k P.
Proof. intros H. unfold propb, prop. intros E v Ev. rewrite Ev in E. auto. Qed.
Definition lineb (v : option pval) : bool := match v with Some (PStr (Some s)) => negb (blankb s) | _ => false end.
Lemma lineb_line v : lineb v = true -> line v.
Proof. destruct v as [[[s|]| |]|]; try discriminate. intros H. exists s. split; [reflexivity|now apply blankb_free]. Qed.
Definition orderb (v : option pval) : bool := match v with None => true | Some (PNum z) => (0 <=? z)%Z && (z <=? 2147483647)%Z | _ => false end.
Lemma orderb_order v : orderb v = true -> order_normal v.
Proof.
  destruct v as [[| |]|]; try discriminate; [|now left]. intros H. right. eexists. split; [reflexivity|]. cbn in H. apply andb_true_iff in H. destruct H as [H1 H2].
  apply Z.leb_le in H1, H2. lia.
Qed.
Definition numberb (v : option pval) : bool := match v with None | Some (PNum _) => true | _ => false end.
Lemma numberb_number v : numberb v = true -> number v.
Proof. destruct v as [[| |]|]; try discriminate; intros _; [right; eauto|now left]. Qed.
Definition textsb (t : rtree ostr) : bool := match rt_pairs t with Ok ps => forallb (fun kv => match snd kv with Some s => negb (blankb s) | None => false end) ps | _ => false end.
Lemma textsb_texts t : reach ostr_copy t -> textsb t = true -> texts t.
Proof.
  intros Hr. destruct (reach_enum _ _ Hr) as (ps & E & _ & Hin & _). unfold textsb. rewrite E. intros H k v Hv. apply Hin in Hv.
  rewrite forallb_forall in H. specialize (H _ Hv). cbn [snd] in H. destruct v as [s|]; [|discriminate]. exists s. split; [reflexivity|now apply blankb_free].
Qed.
Definition textsnb (b : base) : bool :=
  propb b (S_ "id") lineb && propb b (S_ "name") lineb && propb b (S_ "desc") lineb && propb b (S_ "display_order") orderb && textsb (b_names b) && textsb (b_descs b).
Lemma textsnb_normal b : breach b -> textsnb b = true -> texts_normal b.
Proof.
  intros Hb H. unfold textsnb in H. rewrite !andb_true_iff in H. destruct H as (((((H1 & H2) & H3) & H4) & H5) & H6). split; [exact Hb|].
  split; [exact (propb_prop _ _ _ _ lineb_line H1)|]. split; [exact (propb_prop _ _ _ _ lineb_line H2)|]. split; [exact (propb_prop _ _ _ _ lineb_line H3)|].
  split; [exact (propb_prop _ _ _ _ orderb_order H4)|]. destruct Hb as (_ & R1 & R2). split; now apply textsb_texts.
Qed.
Definition gtextsnb (b : base) : bool :=
  textsnb b && propb b (S_ "langonly") (fun v => match v with None => true | _ => lineb v end) && propb b (S_ "def") numberb && propb b (S_ "uservisible") numberb && propb b (S_ "biarchonly") numberb.
Lemma gtextsnb_normal b : breach b -> gtextsnb b = true -> group_texts_normal b.
Proof.
  intros Hb H. unfold gtextsnb in H. rewrite !andb_true_iff in H. destruct H as ((((H1 & H2) & H3) & H4) & H5). split; [now apply textsnb_normal|].
  split; [eapply propb_prop; [|exact H2]; intros [v|] Hv; [right; now apply lineb_line|now left]|].
  split; [exact (propb_prop _ _ _ _ numberb_number H3)|]. split; [exact (propb_prop _ _ _ _ numberb_number H4)|exact (propb_prop _ _ _ _ numberb_number H5)].
Qed.
Definition wordb (s : str) : bool := match s with [] => false | _ => forallb (fun c => negb (Ascii.eqb c " ") && negb (Ascii.eqb c ",")) s end.
Lemma wordb_word s : wordb s = true -> word s.
Proof.
  intros H. assert (Hs : s <> []) by (intros ->; discriminate). assert (Hc : forall c, In c s -> c <> " "%char /\ c <> ","%char).
  { intros c Hc. destruct s as [|x s]; [contradiction|]. unfold wordb in H. rewrite forallb_forall in H. specialize (H c Hc). apply andb_true_iff in H.
    destruct H as [H1 H2]. split; intros ->; discriminate. }
  split; [exact Hs|]. split; intros Hi; destruct (Hc _ Hi); congruence.
Qed.
Definition wordsb (l : list ostr) : bool := match l with [] => false | _ => forallb (fun v => match v with Some s => wordb s | None => false end) l end.
Lemma wordsb_words l : wordsb l = true -> exists ws, ws <> [] /\ Forall word ws /\ l = map Some ws.
Proof.
  intros H. assert (Hl : forallb (fun v : ostr => match v with Some s => wordb s | None => false end) l = true) by (destruct l; [discriminate|exact H]).
  assert (Hne : l <> []) by (intros ->; discriminate). clear H. assert (Hw : exists ws, Forall word ws /\ l = map Some ws).
  { clear Hne. induction l as [|v l IH]; [now exists []|]. cbn in Hl. apply andb_true_iff in Hl. destruct Hl as [H1 H2]. destruct (IH H2) as (ws & F & ->).
    destruct v as [s|]; [|discriminate]. exists (s :: ws). split; [constructor; [now apply wordb_word|exact F]|reflexivity]. }
  destruct Hw as (ws & F & ->). exists ws. split; [intros ->; now elim Hne|auto].
Qed.
Definition archb (o : xopts) (b : base) : bool := negb (x_arch o) || propb b (S_ "arches") (fun v => match v with None => true | Some (PList l) => wordsb l | _ => false end).
Lemma archb_normal o b : archb o b = true -> arch_normal o b.
Proof.
  unfold archb. intros H Hx. rewrite Hx in H. eapply propb_prop; [|exact H]. intros [[| |l]|] Hv; try discriminate; [right|now left].
  destruct (wordsb_words _ Hv) as (ws & H1 & H2 & ->). eauto.
Qed.
Definition archesb (o : xopts) (l : option (list ostr)) : bool := negb (x_arch o) || match l with None => true | Some l => wordsb l end.
Lemma archesb_normal o l : archesb o l = true -> x_arch o = true -> arches_normal l.
Proof.
  unfold archesb. intros H Hx. rewrite Hx in H. destruct l as [l|]; [right|now left]. destruct (wordsb_words _ H) as (ws & H1 & H2 & ->). eauto.
Qed.
Definition pkgnb (o : xopts) (p : pkg) : bool :=
  match p_name p with Some (Some s) => negb (blankb s) | _ => false end &&
  match p_requires p with None => true | Some (Some (_ :: _)) => true | _ => false end &&
  match p_bao p with None => true | Some z => (z =? 1)%Z end &&
  existsb (Z.eqb (p_type p)) [PK_DEFAULT; PK_OPTIONAL; PK_CONDITIONAL; PK_MANDATORY] && archesb o (p_arches p).
Lemma pkgnb_normal o p : pkgnb o p = true -> pkg_normal o p.
Proof.
  unfold pkgnb. rewrite !andb_true_iff. intros ((((H1 & H2) & H3) & H4) & H5). split; [|split; [|split; [|split]]].
  - destruct (p_name p) as [[s|]|]; try discriminate. exists s. split; [reflexivity|now apply blankb_free].
  - destruct (p_requires p) as [[[|c s]|]|]; try discriminate; [right|now left]. eexists. split; [reflexivity|discriminate].
  - destruct (p_bao p) as [z|]; [right|now left]. apply Z.eqb_eq in H3. now subst.
  - apply existsb_exists in H4. destruct H4 as (y & Hy & E). apply Z.eqb_eq in E. now rewrite E.
  - now apply archesb_normal.
Qed.
Definition gidnb (o : xopts) (g : gid) : bool := match gi_name g with Some (Some s) => negb (blankb s) | _ => false end && archesb o (gi_arches g).
Lemma gidnb_normal o g : gidnb o g = true -> gid_normal o g.
Proof.
  unfold gidnb. rewrite andb_true_iff. intros (H1 & H2). split; [|now apply archesb_normal].
  destruct (gi_name g) as [[s|]|]; try discriminate. exists s. split; [reflexivity|now apply blankb_free].
Qed.
Definition someb {A} (l : list A) : bool := match l with [] => false | _ => true end.
Lemma someb_ne {A} (l : list A) x : someb l || negb x = true -> l <> [] \/ x = false.
Proof. destruct l; [right; now destruct x|left; discriminate]. Qed.
Lemma forallb_Forall {A} (f : A -> bool) (P : A -> Prop) l : (forall x, f x = true -> P x) -> forallb f l = true -> Forall P l.
Proof. intros H Hf. apply Forall_forall. intros x Hx. apply H. rewrite forallb_forall in Hf. auto. Qed.
Definition groupnb (o : xopts) (g : group) : bool :=
  gtextsnb (g_base g) && archb o (g_base g) && forallb (pkgnb o) (g_pkgs g) && (someb (g_pkgs g) || negb (x_empty_packages o)).
Lemma groupnb_normal o g : gok g -> groupnb o g = true -> group_normal o g.
Proof.
  intros Hg. unfold groupnb. rewrite !andb_true_iff. intros (((H1 & H2) & H3) & H4). split; [now apply gtextsnb_normal|]. split; [now apply archb_normal|].
  split; [eapply forallb_Forall; [|exact H3]; apply pkgnb_normal|now apply someb_ne].
Qed.
Definition catnb (o : xopts) (c : category) : bool :=
  textsnb (c_base c) && archb o (c_base c) && forallb (gidnb o) (c_gids c) && (someb (c_gids c) || negb (x_empty_grouplist o)).
Lemma catnb_normal o c : cok c -> catnb o c = true -> cat_normal o c.
Proof.
  intros Hg. unfold catnb. rewrite !andb_true_iff. intros (((H1 & H2) & H3) & H4). split; [now apply textsnb_normal|]. split; [now apply archb_normal|].
  split; [eapply forallb_Forall; [|exact H3]; apply gidnb_normal|now apply someb_ne].
Qed.
Definition envnb (o : xopts) (e : env) : bool :=
  textsnb (e_base e) && archb o (e_base e) && forallb (gidnb o) (e_groups e) && forallb (gidnb o) (e_options e) && (someb (e_groups e) || negb (x_empty_grouplist o)).
Lemma envnb_normal o c : eok c -> envnb o c = true -> env_normal o c.
Proof.
  intros Hg. unfold envnb. rewrite !andb_true_iff. intros ((((H1 & H2) & H3) & H4) & H5). split; [now apply textsnb_normal|]. split; [now apply archb_normal|].
  split; [eapply forallb_Forall; [|exact H3]; apply gidnb_normal|]. split; [eapply forallb_Forall; [|exact H4]; apply gidnb_normal|now apply someb_ne].
Qed.
Definition dictnb (t : rtree ostr) : bool :=
  match rt_pairs t with Ok ps => forallb (fun kv => match snd kv with Some _ => true | None => false end) ps && (negb (tlen t =? 0) || negb (someb ps)) | _ => false end.
Lemma dictnb_normal t : reach ostr_copy t -> dictnb t = true -> dict_normal t.
Proof.
  intros Hr. destruct (reach_enum _ _ Hr) as (ps & E & _ & Hin & _). unfold dictnb. rewrite E, andb_true_iff. intros [H1 H2]. split.
  - intros k v Hv. apply Hin in Hv. rewrite forallb_forall in H1. specialize (H1 _ Hv). cbn [snd] in H1. destruct v; [eauto|discriminate].
  - intros Ht k. rewrite Ht in H2. cbn in H2. destruct ps; [|discriminate]. destruct (rt_get t k) as [[v|]| |] eqn:El; rewrite rt_get_look in El; try discriminate; [|reflexivity].
    elim (proj2 (Hin k v)). rewrite rt_get_look. exact El.
Qed.
Definition mdictnb (t : mtree ostr) : bool :=
  match mt_pairs t with
  | Ok ps => forallb (fun kl => forallb (fun v => match v with MV (Some _) => true | _ => false end) (snd kl) && someb (snd kl)) ps && (negb (mlen t =? 0)%Z || negb (someb ps))
  | _ => false end.
Lemma mdictnb_normal t : mreach t -> mdictnb t = true -> mdict_normal t.
Proof.
  intros Hr. destruct (md_enum _ Hr) as (ps & E & _ & Hin & _). unfold mdictnb. rewrite E, andb_true_iff. intros [H1 H2]. split.
  - intros k l Hl. apply Hin in Hl. rewrite forallb_forall in H1. specialize (H1 _ Hl). cbn [snd] in H1. apply andb_true_iff in H1. destruct H1 as [H1 H3]. split.
    + eapply forallb_Forall; [|exact H1]. intros [[s|]|] Hv; try discriminate. eauto.
    + intros ->. discriminate.
  - intros Ht k. rewrite Ht in H2. cbn in H2. destruct ps; [|discriminate]. destruct (mt_get t k) as [[v|]| |] eqn:El; rewrite mt_get_mlook in El; try discriminate; [|reflexivity].
    elim (proj2 (Hin k v)). rewrite mt_get_mlook. exact El.
Qed.
Definition partsnb (o : xopts) (p : parts) : bool :=
  forallb (fun g => group_left_outb o g || groupnb o g) (pt_groups p) && forallb (fun g => cat_left_outb o g || catnb o g) (pt_cats p) &&
  forallb (fun g => env_left_outb o g || envnb o g) (pt_envs p) && dictnb (pt_langpacks p) && mdictnb (pt_blacklist p) && mdictnb (pt_whiteout p).
Lemma forallb_Forall2 {A} (f : A -> bool) (Q P : A -> Prop) l : (forall x, Q x -> f x = true -> P x) -> Forall Q l -> forallb f l = true -> Forall P l.
Proof. intros H HQ Hf. rewrite Forall_forall in *. rewrite forallb_forall in Hf. auto. Qed.
Lemma partsnb_normal o d : docwf d -> partsnb o (doc_parts d) = true -> parts_normal o (doc_parts d).
Proof.
  intros Hd. destruct (parts_wf d Hd) as (W1 & W2 & W3 & W4 & W5 & W6). unfold partsnb. rewrite !andb_true_iff. intros (((((H1 & H2) & H3) & H4) & H5) & H6).
  split; [|split; [|split; [|split; [|split]]]].
  - eapply forallb_Forall2; [|exact W1|exact H1]. intros g Hg Hx. apply orb_true_iff in Hx. destruct Hx as [Hx|Hx]; [left; now apply group_left_outb_iff|right; now apply groupnb_normal].
  - eapply forallb_Forall2; [|exact W2|exact H2]. intros g Hg Hx. apply orb_true_iff in Hx. destruct Hx as [Hx|Hx]; [left; now apply cat_left_outb_iff|right; now apply catnb_normal].
  - eapply forallb_Forall2; [|exact W3|exact H3]. intros g Hg Hx. apply orb_true_iff in Hx. destruct Hx as [Hx|Hx]; [left; now apply env_left_outb_iff|right; now apply envnb_normal].
  - now apply dictnb_normal.
  - now apply mdictnb_normal.
  - now apply mdictnb_normal.
Qed.

(** ** Checking that nothing is lost *)
Definition onlyb (ks : list string) (b : base) : bool :=
  match rt_pairs (b_props b) with Ok ps => forallb (fun kv => existsb (streq (fst kv)) (map S_ ks)) ps | _ => false end.
Lemma onlyb_only ks b : breach b -> onlyb ks b = true -> only ks b.
Proof.
  intros (Hr & _). destruct (reach_enum _ _ Hr) as (ps & E & _ & Hin & _). unfold onlyb. rewrite E. intros H k Hk.
  rewrite base_get_ok. f_equal. destruct (look (troot (b_props b)) k) as [v|] eqn:El; [|reflexivity]. elim Hk.
  assert (Hi : In (k, v) ps) by (apply Hin; now rewrite rt_get_look, El). rewrite forallb_forall in H. specialize (H _ Hi). apply existsb_exists in H.
  destruct H as (y & Hy & Ey). cbn [fst] in Ey. apply streq_iff in Ey. now subst.
Qed.
Definition exactbb (b : base) (k : string) : bool := match base_get b (S_ k) with Ok (Some (PNum z)) => (z =? 0)%Z || (z =? 1)%Z | _ => false end.
Lemma exactbb_exact b k : exactbb b k = true -> exact_bool b k.
Proof.
  unfold exactbb, exact_bool. destruct (base_get b (S_ k)) as [[[| |]|]| |]; try discriminate. intros H. apply orb_true_iff in H.
  destruct H as [H|H]; apply Z.eqb_eq in H; subst; auto.
Qed.
Definition partsxb (o : xopts) (p : parts) : bool :=
  x_arch o &&
  forallb (fun g => negb (group_left_outb o g) && onlyb group_props (g_base g) && exactbb (g_base g) "def" && exactbb (g_base g) "uservisible" && exactbb (g_base g) "biarchonly") (pt_groups p) &&
  forallb (fun c => negb (cat_left_outb o c) && onlyb common_props (c_base c)) (pt_cats p) &&
  forallb (fun e => negb (env_left_outb o e) && onlyb common_props (e_base e)) (pt_envs p).
Lemma partsxb_exact o d : docwf d -> partsxb o (doc_parts d) = true -> parts_exact o (doc_parts d).
Proof.
  intros Hd. destruct (parts_wf d Hd) as (W1 & W2 & W3 & _). unfold partsxb. rewrite !andb_true_iff. intros (((H0 & H1) & H2) & H3).
  split; [exact H0|]. split; [|split].
  - eapply forallb_Forall2; [|exact W1|exact H1]. intros g Hg Hx. cbv beta in Hx. rewrite !andb_true_iff in Hx. destruct Hx as ((((X1 & X2) & X3) & X4) & X5).
    split; [intros Ho; apply group_left_outb_iff in Ho; now rewrite Ho in X1|]. split; [now apply onlyb_only|]. auto using exactbb_exact.
  - eapply forallb_Forall2; [|exact W2|exact H2]. intros g Hg Hx. cbv beta in Hx. rewrite !andb_true_iff in Hx. destruct Hx as (X1 & X2).
    split; [intros Ho; apply cat_left_outb_iff in Ho; now rewrite Ho in X1|now apply onlyb_only].
  - eapply forallb_Forall2; [|exact W3|exact H3]. intros g Hg Hx. cbv beta in Hx. rewrite !andb_true_iff in Hx. destruct Hx as (X1 & X2).
    split; [intros Ho; apply env_left_outb_iff in Ho; now rewrite Ho in X1|now apply onlyb_only].
Qed.
