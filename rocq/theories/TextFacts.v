(** The reader of TextModel on what the writer of TextModel prints. *)
From Verif Require Import CStr CStrFacts ParseModel XmlModel XmlFacts SpecF SpecG SpecG2 SpecG7 Utf8Facts TextModel.

(** ** Trees from calls *)
Lemma build_attrs a : forall n a0 st cs, build ((n, a0, []) :: st) (map attr_call a ++ cs) = build ((n, a0 ++ a, []) :: st) cs.
Proof.
  induction a as [|[k v] a IH]; intros n a0 st cs; cbn [map app]; [now rewrite app_nil_r|]. cbn [attr_call fst snd build].
  rewrite IH. now rewrite <- app_assoc.
Qed.
Lemma build_end n a b st cs : st <> [] -> build ((n, a, b) :: st) (WEnd :: cs) = build (put (Elem n a b) st) cs.
Proof. destruct st; [congruence|reflexivity]. Qed.
Lemma put_ne x st : st <> [] -> put x st <> [].
Proof. destruct st as [|[[n a] b] st]; [congruence|discriminate]. Qed.
Lemma build_tree t : forall st cs, st <> [] -> build st (ser t ++ cs) = build (put t st) cs.
Proof.
  induction t as [s|n a b IH] using xml_all; intros st cs Hs.
  - cbn [ser app]. destruct st; [congruence|reflexivity].
  - cbn [ser app]. cbn [build]. rewrite <- !app_assoc, build_attrs. cbn [app].
    assert (Hb : forall b0, build ((n, a, b0) :: st) (flat_map ser b ++ WEnd :: cs) = build ((n, a, b0 ++ b) :: st) (WEnd :: cs)).
    { induction IH as [|x b Hx _ IHb]; intros b0; cbn [flat_map app]; [now rewrite app_nil_r|].
      rewrite <- app_assoc, Hx by discriminate. cbn [put]. rewrite IHb. now rewrite <- app_assoc. }
    rewrite Hb. now apply build_end.
Qed.
Lemma build_root n a b cs : build [] (ser (Elem n a b) ++ cs) = Some (Elem n a b, cs).
Proof.
  cbn [ser app]. cbn [build]. rewrite <- !app_assoc, build_attrs. cbn [app].
  assert (Hb : forall b0, build [(n, a, b0)] (flat_map ser b ++ WEnd :: cs) = build [(n, a, b0 ++ b)] (WEnd :: cs)).
  { induction b as [|x b IHb]; intros b0; cbn [flat_map app]; [now rewrite app_nil_r|].
    rewrite <- app_assoc, build_tree by discriminate. cbn [put]. rewrite IHb. now rewrite <- app_assoc. }
  rewrite Hb. reflexivity.
Qed.

(** ** Runs *)
Definition bytes (l : list (option ascii)) : str := flat_map (fun x => match x with Some c => [c] | None => [] end) l.
Lemma bytes_app a b : bytes (a ++ b) = bytes a ++ bytes b.
Proof. apply flat_map_app. Qed.
Lemma bytes_some s : bytes (map Some s) = s.
Proof. induction s as [|c s IH]; cbn; [reflexivity|now f_equal]. Qed.
Lemma bytes_split a : forall l b, bytes l = a ++ b -> exists l1 l2, l = l1 ++ l2 /\ bytes l1 = a /\ bytes l2 = b.
Proof.
  induction a as [|c a IH]; intros l b E; [exists [], l; auto|]. induction l as [|[x|] l IHl]; [discriminate| |].
  - cbn in E. injection E as -> E. destruct (IH l b E) as (l1 & l2 & -> & <- & <-). now exists (Some c :: l1), l2.
  - destruct (IHl E) as (l1 & l2 & -> & E1 & E2). now exists (None :: l1), l2.
Qed.
(** Up to the first byte of the rest. *)
Lemma bytes_split1 a c : forall l b, bytes l = a ++ c :: b -> exists l1 l2, l = l1 ++ Some c :: l2 /\ bytes l1 = a /\ bytes l2 = b.
Proof.
  induction a as [|x a IH]; intros l b E; (induction l as [|[y|] l IHl]; [discriminate| |]).
  - cbn in E. injection E as -> E. now exists [], l.
  - destruct (IHl E) as (l1 & l2 & -> & E1 & E2). now exists (None :: l1), l2.
  - cbn in E. injection E as -> E. destruct (IH l b E) as (l1 & l2 & -> & <- & <-). now exists (Some x :: l1), l2.
  - destruct (IHl E) as (l1 & l2 & -> & E1 & E2). now exists (None :: l1), l2.
Qed.
Lemma run_app a : forall st b, r_run st (a ++ b) =
  match r_run st a with Some (st1, e1) => match r_run st1 b with Some (st2, e2) => Some (st2, e1 ++ e2) | None => None end | None => None end.
Proof.
  induction a as [|x a IH]; intros st b; cbn [r_run app]; [destruct (r_run st b) as [[? ?]|]; reflexivity|].
  destruct (r_symbol st x) as [[st1 e1]|]; [|reflexivity]. rewrite IH. destruct (r_run st1 a) as [[st2 e2]|]; [|reflexivity].
  destruct (r_run st2 b) as [[st3 e3]|]; [|reflexivity]. now rewrite app_assoc.
Qed.
Lemma run_two a b st st1 st2 e1 e2 : r_run st a = Some (st1, e1) -> r_run st1 b = Some (st2, e2) -> r_run st (a ++ b) = Some (st2, e1 ++ e2).
Proof. intros E1 E2. now rewrite run_app, E1, E2. Qed.

(** Where the end of a block changes nothing. *)
Definition calm (st : rs) : Prop := match r_mode st with MText (_ :: _) => False | _ => True end.
Lemma calm_end st : calm st -> r_end st = Some (st, []).
Proof. destruct st as [[[|]| | | | | | | | | | | |] o r d]; cbn; intros []; reflexivity. Qed.
Inductive calms : rs -> str -> rs -> list event -> Prop :=
| K_nil st : calm st -> calms st [] st []
| K_cons st c s st1 st2 e1 e2 : calm st -> r_step st c = Some (st1, e1) -> calms st1 s st2 e2 -> calms st (c :: s) st2 (e1 ++ e2).
Lemma calms_calm st s st' es : calms st s st' es -> calm st.
Proof. now destruct 1. Qed.
Lemma calms_run st s st' es l : calms st s st' es -> bytes l = s -> r_run st l = Some (st', es).
Proof.
  intros H. revert l. induction H as [st Hc|st c s st1 st2 e1 e2 Hc E H IH]; intros l; induction l as [|[x|] l IHl]; intros El; try discriminate.
  - reflexivity.
  - cbn [r_run r_symbol]. rewrite calm_end by exact Hc. rewrite (IHl El). reflexivity.
  - cbn in El. injection El as -> El. cbn [r_run r_symbol]. now rewrite E, (IH l El).
  - cbn [r_run r_symbol]. rewrite calm_end by exact Hc. rewrite (IHl El). reflexivity.
Qed.
Lemma calms_app st a st1 e1 b st2 e2 : calms st a st1 e1 -> calms st1 b st2 e2 -> calms st (a ++ b) st2 (e1 ++ e2).
Proof.
  induction 1 as [|st c s st' st1 e e' Hc E H IH]; intros H2; [exact H2|]. cbn [app]. rewrite <- app_assoc. eapply K_cons; eauto.
Qed.
Lemma calms_step st c st1 e1 : calm st -> r_step st c = Some (st1, e1) -> calm st1 -> calms st [c] st1 e1.
Proof. intros H E H1. rewrite <- (app_nil_r e1). eapply K_cons; eauto. now constructor. Qed.
Lemma calms_cons st c s st1 st2 e2 : calm st -> r_step st c = Some (st1, []) -> calms st1 s st2 e2 -> calms st (c :: s) st2 e2.
Proof. intros H E H1. change e2 with ([] ++ e2). eapply K_cons; eauto. Qed.

(** *** Names *)
Definition okname (n : str) : Prop := n <> [] /\ Forall (fun c => name_char c = true) n.
Lemma in_in m1 m2 st : in_mode m1 (in_mode m2 st) = in_mode m1 st.
Proof. reflexivity. Qed.
Ltac st_simpl := cbn [r_mode r_open r_root r_dtd in_mode].
Lemma calms_name n : forall n0 st, Forall (fun c => name_char c = true) n -> calms (in_mode (MName n0) st) n (in_mode (MName (n0 ++ n)) st) [].
Proof.
  induction n as [|c n IH]; intros n0 st H; [rewrite app_nil_r; now constructor|]. apply Forall_cons_iff in H. destruct H as [Hc H].
  apply calms_cons with (st1 := in_mode (MName (n0 ++ [c])) st); [exact I| |].
  - unfold r_step. st_simpl. now rewrite Hc.
  - change (c :: n) with ([c] ++ n). rewrite app_assoc. now apply IH.
Qed.
Lemma calms_key n a k : forall k0 st, Forall (fun c => name_char c = true) k -> calms (in_mode (MKey n a k0) st) k (in_mode (MKey n a (k0 ++ k)) st) [].
Proof.
  induction k as [|c k IH]; intros k0 st H; [rewrite app_nil_r; now constructor|]. apply Forall_cons_iff in H. destruct H as [Hc H].
  apply calms_cons with (st1 := in_mode (MKey n a (k0 ++ [c])) st); [exact I| |].
  - unfold r_step. st_simpl. now rewrite Hc.
  - change (c :: k) with ([c] ++ k). rewrite app_assoc. now apply IH.
Qed.
Lemma calms_closing n : forall n0 st, Forall (fun c => name_char c = true) n -> calms (in_mode (MClose n0) st) n (in_mode (MClose (n0 ++ n)) st) [].
Proof.
  induction n as [|c n IH]; intros n0 st H; [rewrite app_nil_r; now constructor|]. apply Forall_cons_iff in H. destruct H as [Hc H].
  apply calms_cons with (st1 := in_mode (MClose (n0 ++ [c])) st); [exact I| |].
  - unfold r_step. st_simpl. destruct (Ascii.eqb_spec c ">") as [->|_]; [discriminate|]. now rewrite Hc.
  - change (c :: n) with ([c] ++ n). rewrite app_assoc. now apply IH.
Qed.

(** *** Attributes *)
Lemma calms_refs n a k q v st : forall r r0 s, ~ In ";"%char r -> resolve (r0 ++ r) = Some s ->
  calms (in_mode (MVRef n a k q v r0) st) (r ++ [";"%char]) (in_mode (MVal n a k q (v ++ s)) st) [].
Proof.
  induction r as [|c r IH]; intros r0 s Hr E; cbn [app].
  - rewrite app_nil_r in E. apply calms_cons with (st1 := in_mode (MVal n a k q (v ++ s)) st); [exact I| |now constructor].
    unfold r_step. st_simpl. cbn [Ascii.eqb Bool.eqb]. now rewrite E.
  - apply calms_cons with (st1 := in_mode (MVRef n a k q v (r0 ++ [c])) st); [exact I| |].
    + unfold r_step. st_simpl. destruct (Ascii.eqb_spec c ";") as [->|_]; [elim Hr; now left|]. reflexivity.
    + apply IH; [intros Hi; apply Hr; now right|]. now rewrite <- app_assoc.
Qed.
Lemma calms_vref n a k v st r s : ~ In ";"%char r -> resolve r = Some s ->
  calms (in_mode (MVal n a k DQ v) st) ("&"%char :: r ++ [";"%char]) (in_mode (MVal n a k DQ (v ++ s)) st) [].
Proof.
  intros Hr E. apply calms_cons with (st1 := in_mode (MVRef n a k DQ v []) st); [exact I|reflexivity|]. now apply calms_refs.
Qed.
Ltac in_dec := cbn [In list_ascii_of_string]; intros Hi; repeat (destruct Hi as [Hi|Hi]; [discriminate Hi|]); exact Hi.
Lemma calms_attr_char n a k v st c : calms (in_mode (MVal n a k DQ v) st) (esc_attr c) (in_mode (MVal n a k DQ (v ++ [c])) st) [].
Proof.
  unfold esc_attr.
  destruct (Ascii.eqb_spec c "<") as [->|H1]; [exact (calms_vref n a k v st (! "lt") _ ltac:(in_dec) eq_refl)|].
  destruct (Ascii.eqb_spec c ">") as [->|H2]; [exact (calms_vref n a k v st (! "gt") _ ltac:(in_dec) eq_refl)|].
  destruct (Ascii.eqb_spec c "&") as [->|H3]; [exact (calms_vref n a k v st (! "amp") _ ltac:(in_dec) eq_refl)|].
  destruct (Ascii.eqb_spec c DQ) as [->|H4]; [exact (calms_vref n a k v st (! "quot") _ ltac:(in_dec) eq_refl)|].
  destruct (Ascii.eqb_spec c LF) as [->|H5]; [exact (calms_vref n a k v st (! "#10") _ ltac:(in_dec) eq_refl)|].
  destruct (Ascii.eqb_spec c CR) as [->|H6]; [exact (calms_vref n a k v st (! "#13") _ ltac:(in_dec) eq_refl)|].
  destruct (Ascii.eqb_spec c TAB) as [->|H7]; [exact (calms_vref n a k v st (! "#9") _ ltac:(in_dec) eq_refl)|].
  apply calms_cons with (st1 := in_mode (MVal n a k DQ (v ++ [c])) st); [exact I| |now constructor].
  unfold r_step. st_simpl. apply Ascii.eqb_neq in H1, H3, H4, H5, H6, H7. rewrite H4, H1, H3. unfold xml_space. rewrite H5, H6, H7, !orb_false_r.
  destruct (Ascii.eqb_spec c " ") as [->|_]; reflexivity.
Qed.
Lemma calms_value n a k w : forall v st, calms (in_mode (MVal n a k DQ v) st) (flat_map esc_attr w) (in_mode (MVal n a k DQ (v ++ w)) st) [].
Proof.
  induction w as [|c w IH]; intros v st; cbn [flat_map]; [rewrite app_nil_r; now constructor|].
  change (@nil event) with (@nil event ++ []). eapply calms_app; [apply calms_attr_char|]. change (c :: w) with ([c] ++ w). rewrite app_assoc. apply IH.
Qed.
Lemma not_name c : In c (! " />=") -> name_char c = false.
Proof. cbn. intros H. repeat (destruct H as [<-|H]; [reflexivity|]). elim H. Qed.
(** The states from which a space leads into the attributes. *)
Definition tag_mode (n : str) (a : list (str * str)) (m : mode) : Prop := (m = MName n /\ a = []) \/ exists g, m = MTag n a g.
Lemma tag_space n a m st : tag_mode n a m -> r_step (in_mode m st) " " = Some (in_mode (MTag n a true) st, []).
Proof. intros [[-> ->]|[g ->]]; reflexivity. Qed.
Lemma tag_slash n a m st : tag_mode n a m -> r_step (in_mode m st) "/" = Some (in_mode (MEmpty n a) st, []).
Proof. intros [[-> ->]|[g ->]]; reflexivity. Qed.
Lemma tag_gt n a m st : tag_mode n a m -> r_step (in_mode m st) ">" = Some (started n st, [EStart n a]).
Proof. intros [[-> ->]|[g ->]]; reflexivity. Qed.
Lemma tag_calm n a m st : tag_mode n a m -> calm (in_mode m st).
Proof. intros [[-> ->]|[g ->]]; exact I. Qed.
Lemma calms_attr n a m k v st : tag_mode n a m -> okname k -> dup k a = false ->
  calms (in_mode m st) (attr_bytes (k, v)) (in_mode (MTag n (a ++ [(k, v)]) false) st) [].
Proof.
  intros Hm [Hk Hn] Hd. unfold attr_bytes. cbn [fst snd].
  apply calms_cons with (st1 := in_mode (MTag n a true) st); [now apply (tag_calm n a)|now apply tag_space|].
  destruct k as [|c k]; [congruence|]. apply Forall_cons_iff in Hn. destruct Hn as [Hc Hn]. cbn [app].
  apply calms_cons with (st1 := in_mode (MKey n a [c]) st); [exact I| |].
  { unfold r_step. st_simpl. assert (Hs : xml_space c = false /\ Ascii.eqb c "/" = false /\ Ascii.eqb c ">" = false).
    { unfold xml_space. destruct (Ascii.eqb_spec c " ") as [->|_]; [discriminate|]. destruct (Ascii.eqb_spec c TAB) as [->|_]; [discriminate|].
      destruct (Ascii.eqb_spec c LF) as [->|_]; [discriminate|]. destruct (Ascii.eqb_spec c CR) as [->|_]; [discriminate|].
      destruct (Ascii.eqb_spec c "/") as [->|_]; [discriminate|]. destruct (Ascii.eqb_spec c ">") as [->|_]; [discriminate|]. auto. }
    destruct Hs as (-> & -> & ->). now rewrite Hc. }
  change (@nil event) with (@nil event ++ []). eapply calms_app; [now apply calms_key|]. cbn [app].
  apply calms_cons with (st1 := in_mode (MEq n a (c :: k)) st); [exact I| |].
  { unfold r_step. st_simpl. cbn [app]. now rewrite Hd. }
  apply calms_cons with (st1 := in_mode (MVal n a (c :: k) DQ []) st); [exact I|reflexivity|].
  change (@nil event) with (@nil event ++ []). eapply calms_app; [apply calms_value|]. cbn [app].
  apply calms_cons with (st1 := in_mode (MTag n (a ++ [(c :: k, v)]) false) st); [exact I|reflexivity|now constructor].
Qed.
Lemma calms_attrs n st a : forall a0 m, tag_mode n a0 m -> Forall (fun kv => okname (fst kv)) a -> NoDup (map fst (a0 ++ a)) ->
  exists m', tag_mode n (a0 ++ a) m' /\ calms (in_mode m st) (flat_map attr_bytes a) (in_mode m' st) [].
Proof.
  induction a as [|[k v] a IH]; intros a0 m Hm Hk Hn; cbn [flat_map].
  - exists m. rewrite app_nil_r. split; [exact Hm|]. constructor. now apply (tag_calm n a0).
  - apply Forall_cons_iff in Hk. destruct Hk as [Hk Ha]. cbn [fst] in Hk.
    assert (Hd : dup k a0 = false).
    { unfold dup. destruct (existsb (streq k) (map fst a0)) eqn:E; [|reflexivity]. apply existsb_exists in E. destruct E as (x & Hx & Ex). apply streq_iff in Ex. subst x.
      rewrite map_app in Hn. cbn [map fst] in Hn. apply NoDup_remove_2 in Hn. elim Hn. apply in_or_app. now left. }
    destruct (IH (a0 ++ [(k, v)]) (MTag n (a0 ++ [(k, v)]) false)) as (m' & Hm' & C); [right; eauto|exact Ha|now rewrite <- app_assoc|].
    exists m'. rewrite <- app_assoc in Hm'. split; [exact Hm'|]. change (@nil event) with (@nil event ++ []). eapply calms_app; [apply calms_attr; [exact Hm|exact Hk|exact Hd]|exact C].
Qed.
(** A start tag without its end, after the opening bracket. *)
Lemma calms_tag n a o r d : okname n -> Forall (fun kv => okname (fst kv)) a -> NoDup (map fst a) -> o <> [] \/ r = false ->
  exists m, tag_mode n a m /\ calms (mkR MOpen o r d) (n ++ flat_map attr_bytes a) (mkR m o r d) [].
Proof.
  intros [Hn Hc] Ha Hd Ho. destruct n as [|c n]; [congruence|]. pose proof Hc as Hc'. apply Forall_cons_iff in Hc. destruct Hc as [H0 Hc].
  destruct (calms_attrs (c :: n) (mkR MOpen o r d) a [] (MName (c :: n))) as (m & Hm & C); [now left|exact Ha|exact Hd|].
  exists m. split; [exact Hm|]. cbn [app].
  apply calms_cons with (st1 := mkR (MName [c]) o r d); [exact I| |].
  { unfold r_step. st_simpl. destruct (Ascii.eqb_spec c "/") as [->|_]; [discriminate|]. destruct (Ascii.eqb_spec c "?") as [->|_]; [discriminate|].
    destruct (Ascii.eqb_spec c "!") as [->|_]; [discriminate|]. rewrite H0. destruct o; [|reflexivity]. destruct Ho as [Ho| ->]; [congruence|reflexivity]. }
  change (@nil event) with (@nil event ++ []). eapply calms_app; [apply (calms_name n [c] (mkR MOpen o r d)); exact Hc|]. exact C.
Qed.

(** ** Character data *)
Definition special (c : ascii) : bool := Ascii.eqb c "<" || Ascii.eqb c ">" || Ascii.eqb c "&" || Ascii.eqb c CR || Ascii.eqb c LF.
Definition left_over (acc : str) : list str := match acc with [] => [] | _ => [acc] end.
(** The pieces of a text, given where blocks end. *)
Fixpoint chop (acc : str) (m : list (option ascii)) : list str :=
  match m with
  | [] => left_over acc
  | None :: r => left_over (fst (held acc)) ++ chop (snd (held acc)) r
  | Some c :: r => if special c then left_over acc ++ [c] :: chop [] r else chop (acc ++ [c]) r
  end.
(** The same ends of blocks in the escaped text; those inside a reference do not count. *)
Inductive escd : list (option ascii) -> list (option ascii) -> Prop :=
| X_nil : escd [] []
| X_none l m : escd l m -> escd (None :: l) (None :: m)
| X_plain c l m : esc_text c = [c] -> escd l m -> escd (Some c :: l) (Some c :: m)
| X_ref c x la l m : bytes (Some x :: la) = esc_text c -> esc_text c <> [c] -> escd l m -> escd (Some x :: la ++ l) (Some c :: m).
Lemma esc_cases c : (esc_text c = [c] /\ (special c = true -> c = LF)) \/
  (special c = true /\ esc_text c <> [c] /\ exists r, esc_text c = "&"%char :: r ++ [";"%char] /\ ~ In ";"%char r /\ resolve r = Some [c]).
Proof.
  unfold esc_text, special.
  destruct (Ascii.eqb_spec c "<") as [->|H1]; [right; split; [reflexivity|]; split; [discriminate|]; exists (! "lt"); split; [reflexivity|]; split; [in_dec|reflexivity]|].
  destruct (Ascii.eqb_spec c ">") as [->|H2]; [right; split; [reflexivity|]; split; [discriminate|]; exists (! "gt"); split; [reflexivity|]; split; [in_dec|reflexivity]|].
  destruct (Ascii.eqb_spec c "&") as [->|H3]; [right; split; [reflexivity|]; split; [discriminate|]; exists (! "amp"); split; [reflexivity|]; split; [in_dec|reflexivity]|].
  destruct (Ascii.eqb_spec c CR) as [->|H4]; [right; split; [reflexivity|]; split; [discriminate|]; exists (! "#13"); split; [reflexivity|]; split; [in_dec|reflexivity]|].
  left. split; [reflexivity|]. cbn [orb]. intros H5. now apply Ascii.eqb_eq in H5.
Qed.
Lemma calms_tref st : forall r r0 s, ~ In ";"%char r -> resolve (r0 ++ r) = Some s ->
  calms (in_mode (MRef r0) st) (r ++ [";"%char]) (in_mode (MText []) st) [EChars s].
Proof.
  induction r as [|c r IH]; intros r0 s Hr E; cbn [app].
  - rewrite app_nil_r in E. apply calms_step; [exact I| |exact I]. unfold r_step. st_simpl. cbn [Ascii.eqb Bool.eqb]. now rewrite E.
  - apply calms_cons with (st1 := in_mode (MRef (r0 ++ [c])) st); [exact I| |].
    + unfold r_step. st_simpl. destruct (Ascii.eqb_spec c ";") as [->|_]; [elim Hr; now left|]. reflexivity.
    + apply IH; [intros Hi; apply Hr; now right|]. now rewrite <- app_assoc.
Qed.
Lemma flush_open acc x o : flush acc (x :: o) = Some (map EChars (left_over acc)).
Proof. now destruct acc. Qed.
(** Inside an element, a text up to the next tag. *)
Lemma data_run k : forall l s acc o x r d, length l <= k -> bytes l = flat_map esc_text s -> 
  exists m, escd l m /\ bytes m = s /\
    r_run (mkR (MText acc) (x :: o) r d) (l ++ [Some "<"%char]) = Some (mkR MOpen (x :: o) r d, map EChars (chop acc m)).
Proof.
  induction k as [|k IH]; intros l s acc o x r d Hl E.
  - destruct l; [|cbn in Hl; lia]. destruct s as [|c s].
    + exists []. split; [constructor|]. split; [reflexivity|]. cbn [app r_run r_symbol]. unfold r_step. st_simpl. cbn [Ascii.eqb Bool.eqb].
      rewrite flush_open. cbn [option_map in_mode r_open r_root r_dtd chop]. now rewrite app_nil_r.
    + cbn [bytes flat_map] in E. exfalso. destruct (esc_cases c) as [[Ec _]|(_ & _ & rr & Ec & _)]; rewrite Ec in E; discriminate.
  - destruct l as [|[y|] l].
    + apply IH; [cbn; lia|exact E].
    + destruct s as [|c s]; [discriminate|]. cbn [flat_map] in E. destruct (esc_cases c) as [[Ec Hc]|(Hc & Hn & rr & Ec & Hr & Er)].
      * rewrite Ec in E. cbn in E. injection E as -> E. cbn [length] in Hl.
        assert (Hlt : Ascii.eqb c "<" = false /\ Ascii.eqb c "&" = false /\ Ascii.eqb c CR = false /\ Ascii.eqb c ">" = false).
        { destruct (Ascii.eqb_spec c "<") as [->|_]; [discriminate Ec|]. destruct (Ascii.eqb_spec c "&") as [->|_]; [discriminate Ec|].
          destruct (Ascii.eqb_spec c CR) as [->|_]; [discriminate Ec|]. destruct (Ascii.eqb_spec c ">") as [->|_]; [discriminate Ec|]. auto. }
        destruct Hlt as (N1 & N2 & N3 & N4).
        destruct (Ascii.eqb c LF) eqn:Elf.
        -- apply Ascii.eqb_eq in Elf. subst c. destruct (IH l s [] o x r d ltac:(lia) E) as (m & M1 & M2 & M3). exists (Some LF :: m).
           split; [now constructor|]. split; [cbn; now f_equal|]. cbn [app r_run r_symbol]. unfold r_step at 1. st_simpl. rewrite N1, N2. cbn [Ascii.eqb Bool.eqb].
           change (Ascii.eqb LF LF) with true. cbn iota. rewrite !flush_open. unfold in_mode. cbn [r_open r_root r_dtd]. rewrite M3.
           cbn [chop]. change (special LF) with true. cbn iota. change (left_over [LF]) with [[LF]]. f_equal. f_equal.
           rewrite map_app. cbn [map]. now rewrite <- app_assoc.
        -- assert (Hs : special c = false) by (unfold special; destruct (special c) eqn:Es; [rewrite Hc in Elf by reflexivity; discriminate Elf|exact Es]).
           destruct (IH l s (acc ++ [c]) o x r d ltac:(lia) E) as (m & M1 & M2 & M3). exists (Some c :: m).
           split; [now constructor|]. split; [cbn; now f_equal|]. cbn [app r_run r_symbol]. unfold r_step at 1. st_simpl. rewrite N1, N2, Elf, N3, N4. cbn [orb andb].
           unfold in_mode. cbn [r_open r_root r_dtd]. rewrite M3. cbn [chop app]. now rewrite Hs.
      * change (y :: bytes l = esc_text c ++ flat_map esc_text s) in E. rewrite Ec in E. cbn [app] in E. injection E as -> E.
        destruct (bytes_split (rr ++ [";"%char]) l (flat_map esc_text s)) as (la & lb & -> & Ea & Eb); [exact E|].
        cbn [length] in Hl. rewrite app_length in Hl. destruct (IH lb s [] o x r d ltac:(lia) Eb) as (m & M1 & M2 & M3). exists (Some c :: m).
        split; [apply X_ref; [cbn; rewrite Ec; f_equal; exact Ea|exact Hn|exact M1]|]. split; [cbn; now f_equal|].
        change ((Some "&"%char :: la ++ lb) ++ [Some "<"%char]) with (Some "&"%char :: (la ++ lb) ++ [Some "<"%char]). cbn [r_run r_symbol]. unfold r_step at 1. st_simpl.
        cbn [Ascii.eqb Bool.eqb]. rewrite flush_open. cbn [option_map]. unfold in_mode. cbn [r_open r_root r_dtd]. rewrite <- app_assoc.
        pose proof (run_two la (lb ++ [Some "<"%char]) _ _ _ _ _ (calms_run _ _ _ _ la (calms_tref (mkR (MText []) (x :: o) r d) rr [] [c] Hr Er) Ea) M3) as Hrun.
        unfold in_mode in Hrun. cbn [r_open r_root r_dtd] in Hrun. rewrite Hrun.
        cbn [chop]. rewrite Hc, map_app. reflexivity.
    + cbn [length] in Hl. destruct (IH l s (snd (held acc)) o x r d ltac:(lia) E) as (m & M1 & M2 & M3). exists (None :: m).
      split; [now constructor|]. split; [exact M2|]. cbn [app r_run r_symbol]. unfold r_end. st_simpl. rewrite flush_open. cbn [option_map].
      unfold in_mode. cbn [r_open r_root r_dtd]. rewrite M3. cbn [chop]. now rewrite map_app.
Qed.
Lemma left_concat acc : concat (left_over acc) = acc.
Proof. destruct acc; cbn; [reflexivity|now rewrite app_nil_r]. Qed.
Lemma held_app acc : fst (held acc) ++ snd (held acc) = acc.
Proof. apply firstn_skipn. Qed.
Lemma chop_concat m : forall acc, concat (chop acc m) = acc ++ bytes m.
Proof.
  induction m as [|[c|] m IH]; intros acc; cbn [chop].
  - now rewrite left_concat, app_nil_r.
  - change (bytes (Some c :: m)) with (c :: bytes m). destruct (special c).
    + rewrite concat_app, left_concat. cbn [concat app]. now rewrite IH.
    + rewrite IH. now rewrite <- app_assoc.
  - rewrite concat_app, left_concat, IH, app_assoc, held_app. reflexivity.
Qed.
Lemma chop_ne m : forall acc, Forall (fun c => c <> []) (chop acc m).
Proof.
  assert (L : forall acc, Forall (fun c => c <> []) (left_over acc)) by (intros [|? ?]; repeat constructor; discriminate).
  induction m as [|[c|] m IH]; intros acc; cbn [chop]; [apply L| |apply Forall_app; auto].
  destruct (special c); [|apply IH]. apply Forall_app. split; [apply L|]. constructor; [discriminate|apply IH].
Qed.
