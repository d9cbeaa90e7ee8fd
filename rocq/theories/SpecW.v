(** Facts on the validation of single objects in Python and on what the lists
    store. *)
From Coq Require Import NArith.
From Verif Require Import CStr CStrFacts HSListModel HSListFacts SetModel RTreeModel RTreeFacts RTreeFacts2 RTreeFacts3 MRTreeModel ObjModel DocModel DocFacts SpecD Dec StrModel StrFacts ValidateModel ValidateFacts SpecE
  ObjListModel ObjListFacts PySeqModel PySeqFacts PySeqFacts2 SpecI PyItemModel.
From Verif Require PyDictModel.

Lemma Ok_eq {A} (a b : A) : Ok a = Ok b -> a = b.
Proof. now intros [= ->]. Qed.

(** * What a list stores *)
Section Store.
Context {A : Type} (same : A -> A -> bool) (kind : ikind) (key : A -> option str) (valid : A -> bool).
Implicit Types (o : ol (option A)) (its ws : list (option A)).
(** The objects a call gives the list without asking whether they are valid. *)
Definition unasked (c : @sop A) (x : A) : Prop :=
  match c with
  | SSet _ (Some y) => x = y
  | SSetSlice _ (Some vs) => In (Some x) vs
  | _ => False
  end.
Section Inv.
Variable P : option A -> Prop.
Hypothesis Pnull : P None.
Lemma all_upd its p v : Forall P its -> P v -> Forall P (list_upd its p v).
Proof.
  intros H Hv. revert p. induction H as [|x its Hx H IH]; intros [|p]; cbn; constructor; auto.
Qed.
Lemma all_del its p : Forall P its -> Forall P (list_del its p).
Proof.
  intros H. unfold list_del. rewrite <- (firstn_skipn p its), Forall_app in H. destruct H as [H1 H2].
  apply Forall_app. split; [exact H1|].
  assert (E : skipn (S p) its = skipn 1 (skipn p its)).
  { clear. revert p. induction its as [|x its IH]; intros [|p]; try reflexivity. apply IH. }
  rewrite E. destruct (skipn p its) as [|y r]; [constructor|]. now inversion H2.
Qed.
Lemma all_remove_at o p : Forall P (oitems o) -> Forall P (oitems (fst (ol_remove_at o p))).
Proof.
  intros H. unfold ol_remove_at. destruct (p <? length (oitems o)); [|exact H]. cbn. now apply all_del.
Qed.
Lemma all_set o p v : Forall P (oitems o) -> P v -> Forall P (oitems (fst (ol_set o p v))).
Proof.
  intros H Hv. unfold ol_set. destruct (p <? length (oitems o)); [|exact H]. cbn. now apply all_upd.
Qed.
Lemma all_firstn n its : Forall P its -> Forall P (firstn n its).
Proof. intros H. rewrite <- (firstn_skipn n its), Forall_app in H. tauto. Qed.
Lemma all_skipn n its : Forall P its -> Forall P (skipn n its).
Proof. intros H. rewrite <- (firstn_skipn n its), Forall_app in H. tauto. Qed.
Lemma all_append o v o' : Forall P (oitems o) -> P v -> ol_append o v = Ok o' -> Forall P (oitems o').
Proof.
  intros H Hv. unfold ol_append. destruct (oitems o) as [|y its] eqn:Ei.
  - intros E. apply Ok_eq in E. subst o'. cbn [oitems]. now constructor.
  - destruct (otail o); try discriminate. intros E. apply Ok_eq in E. subst o'. cbn [oitems].
    apply Forall_app. split; [now apply (all_firstn (S _))|]. constructor; [exact Hv|constructor].
Qed.
Lemma all_append_all ws : forall o o', Forall P (oitems o) -> Forall P ws -> ol_append_all o ws = Ok o' -> Forall P (oitems o').
Proof.
  induction ws as [|w ws IH]; intros o o' H Hw; cbn [ol_append_all]; [now intros [= <-]|].
  inversion Hw; subst. destruct (ol_append o w) as [o1| |] eqn:E; cbn [bind]; try discriminate.
  apply IH; auto. now apply (all_append o w o1).
Qed.
Lemma all_insert o p v r : Forall P (oitems o) -> P v -> ol_insert_at o p v = Ok r -> Forall P (oitems (fst r)).
Proof.
  intros H Hv. unfold ol_insert_at, list_ins.
  destruct (olen o <? p); [now intros [= <-]|]. destruct (p =? 0); [intros [= <-]; cbn; now constructor|].
  destruct (p =? olen o).
  - destruct (otail o); try discriminate. intros E. apply Ok_eq in E. subst r. cbn [fst oitems].
    apply Forall_app. split; [now apply (all_firstn (S _))|]. constructor; [exact Hv|constructor].
  - destruct (oitems o) as [|y its] eqn:E; [discriminate|]. intros X. apply Ok_eq in X. subst r. cbn [fst oitems].
    apply Forall_app. split; [now apply all_firstn|]. constructor; [exact Hv|now apply all_skipn].
Qed.
Lemma all_remove o v : Forall P (oitems o) -> Forall P (oitems (fst (ol_remove (osame same) o v))).
Proof. intros H. unfold ol_remove. destruct (ol_index _ _ _); [|exact H]. cbn. now apply all_del. Qed.
Lemma all_rep n step : forall k pos its ws its' d, rep_loop n k step pos its ws = Ok (its', d) -> Forall P its -> Forall P ws -> Forall P its'.
Proof.
  induction k as [|k IH]; intros pos its ws its' d; cbn [rep_loop]; [now intros [= <- _]|].
  destruct (pos =? n); [now intros [= <- _]|]. destruct ws as [|w ws]; [discriminate|].
  destruct (adv n step pos) as [p| |]; cbn [bind]; try discriminate. intros E H Hw. inversion Hw; subst.
  apply (IH _ _ _ _ _ E); auto. now apply all_upd.
Qed.
Lemma all_ow : forall ws pos its its' rest i, ow_loop pos its ws = (i, its', rest) -> Forall P its -> Forall P ws -> Forall P its' /\ Forall P rest.
Proof.
  induction ws as [|w ws IH]; intros pos its its' rest i; cbn [ow_loop]; [now intros [= _ <- <-]|].
  destruct (pos <? length its); [|now intros [= _ <- <-]]. intros E H Hw. inversion Hw; subst.
  apply (IH _ _ _ _ _ E); auto. now apply all_upd.
Qed.
Lemma all_times i : forall k o, Forall P (oitems o) -> Forall P (oitems (remove_times o i k)).
Proof. induction k as [|k IH]; intros o H; cbn [remove_times]; [exact H|]. now apply IH, all_remove_at. Qed.
Lemma all_mark n step : forall k pos its its' d, mark_loop n k step pos its = Ok (its', d) -> Forall P its -> Forall P its'.
Proof.
  induction k as [|k IH]; intros pos its its' d; cbn [mark_loop]; [now intros [= <- _]|].
  destruct (pos =? n); [now intros [= <- _]|]. destruct (adv n step pos) as [p| |]; cbn [bind]; try discriminate.
  intros E H. apply (IH _ _ _ _ E). now apply all_upd.
Qed.
Lemma all_setslice o s v o' r : Forall P (oitems o) -> (forall ws, v = Some ws -> check_all kind key o ws = Ok false -> Forall P ws) ->
  seq_setslice kind key o s v = Ok (o', r) -> Forall P (oitems o').
Proof.
  intros H Hv. unfold seq_setslice. destruct (set_indices o s) as [[ist isp istep ilen]|]; [|now intros [= <- _]].
  destruct v as [ws|]; [|now intros [= <- _]]. specialize (Hv ws eq_refl).
  destruct (negb (istep =? 1)%Z && negb (to_uint (Z.of_nat (olen o)) =? to_uint ilen)%Z)%bool; [now intros [= <- _]|].
  destruct (check_all kind key o ws) as [[|]| |] eqn:Ec; cbn [bind]; try discriminate; [now intros [= <- _]|].
  specialize (Hv eq_refl). destruct (negb (istep =? 1)%Z).
  - destruct (rep_loop _ _ _ _ _ _) as [[its' d]| |] eqn:Er; cbn [bind]; try discriminate.
    intros [= <- _]. cbn [oitems]. exact (all_rep _ _ _ _ _ _ _ _ Er H Hv).
  - destruct (ow_loop _ _ _) as [[i its'] rest] eqn:Eo. destruct (all_ow _ _ _ _ _ _ Eo H Hv) as [H1 H2].
    destruct (i =? length (oitems o)).
    + destruct (ol_append_all _ rest) as [o1| |] eqn:Ea; cbn [bind]; try discriminate. intros [= <- _].
      refine (all_append_all rest _ o1 _ H2 Ea). exact H1.
    + intros [= <- _]. now apply all_times.
Qed.
Lemma all_delslice o s o' r : Forall P (oitems o) -> seq_delslice o s = Ok (o', r) -> Forall P (oitems o').
Proof.
  intros H. unfold seq_delslice. destruct (set_indices o s) as [[ist isp istep ilen]|]; [|now intros [= <- _]].
  destruct (mark_loop _ _ _ _ _) as [[its' d]| |] eqn:E; cbn [bind]; try discriminate.
  pose proof (all_mark _ _ _ _ _ _ _ E H) as Hm. destruct d; [|now intros [= <- _]].
  destruct (sweep None its') as [[[y|]|]| |]; cbn [bind]; try discriminate; intros [= <- _]; auto.
  now apply all_remove_at.
Qed.
Lemma all_delitem o i : Forall P (oitems o) -> Forall P (oitems (fst (seq_delitem o i))).
Proof. intros H. unfold seq_delitem. destruct (idx_beyond o i); [exact H|]. cbn [fst]. now apply all_remove_at. Qed.
Lemma all_removed o it : Forall P (oitems o) -> Forall P (oitems (fst (seq_remove same o it))).
Proof.
  intros H. unfold seq_remove. destruct it as [x|]; [|exact H]. pose proof (all_remove o (Some x) H) as Hr.
  destruct (ol_remove (osame same) o (Some x)) as [o1 z]. cbn [fst] in Hr. destruct (z =? 0)%Z; exact Hr.
Qed.
Hypothesis Pvalid : forall x, valid x = true -> P (Some x).
Lemma all_seq_append o it o' r : Forall P (oitems o) -> seq_append valid o it = Ok (o', r) -> Forall P (oitems o').
Proof.
  intros H. unfold seq_append. destruct it as [x|]; [|now intros [= <- _]]. destruct (valid x) eqn:Ev; [|now intros [= <- _]].
  destruct (ol_append o (Some x)) as [o1| |] eqn:E; cbn [bind]; try discriminate. intros [= <- _]. exact (all_append o _ o1 H (Pvalid x Ev) E).
Qed.
Lemma all_seq_append_unique o it o' r : Forall P (oitems o) -> seq_append_unique kind key valid o it = Ok (o', r) -> Forall P (oitems o').
Proof.
  intros H. unfold seq_append_unique. destruct it as [x|]; [|now intros [= <- _]].
  destruct (uniq_check kind key o (Some x)) as [[|]| |]; cbn [bind]; try discriminate; [now intros [= <- _]|].
  destruct (valid x) eqn:Ev; [|now intros [= <- _]].
  destruct (ol_append o (Some x)) as [o1| |] eqn:E; cbn [bind]; try discriminate. intros [= <- _]. exact (all_append o _ o1 H (Pvalid x Ev) E).
Qed.
Lemma all_seq_insert o i it o' r : Forall P (oitems o) -> seq_insert valid o i it = Ok (o', r) -> Forall P (oitems o').
Proof.
  intros H. unfold seq_insert. destruct it as [x|]; [|now intros [= <- _]]. destruct (valid x) eqn:Ev; [|now intros [= <- _]].
  destruct (ol_insert_at o _ (Some x)) as [p| |] eqn:E; cbn [bind]; try discriminate. intros [= <- _]. exact (all_insert o _ _ p H (Pvalid x Ev) E).
Qed.
Lemma all_seq_setitem o i it : Forall P (oitems o) -> Forall P (oitems (fst (seq_setitem valid o i it))).
Proof.
  intros H. unfold seq_setitem. destruct it as [x|]; [|exact H]. destruct (idx_beyond o i); [exact H|].
  destruct (valid x) eqn:Ev; [|exact H]. cbn [fst]. apply all_set; auto.
Qed.
Lemma all_seq_setitem_unique o i it o' r : Forall P (oitems o) -> (forall x, it = Some x -> uniq_check kind key o (Some x) = Ok false -> P (Some x)) ->
  seq_setitem_unique kind key o i it = Ok (o', r) -> Forall P (oitems o').
Proof.
  intros H Hx. unfold seq_setitem_unique. destruct it as [x|]; [|now intros [= <- _]].
  destruct (idx_beyond o i); [now intros [= <- _]|].
  destruct (uniq_check kind key o (Some x)) as [[|]| |] eqn:E; cbn [bind]; try discriminate; [now intros [= <- _]|].
  intros [= <- _]. apply all_set; [exact H|]. now apply Hx.
Qed.
Lemma all_idl_step o c o' r : Forall P (oitems o) -> (forall x, unasked c x -> P (Some x)) ->
  idl_step same kind key valid o c = Ok (o', r) -> Forall P (oitems o').
Proof.
  intros H Hc. destruct c as [it|i it|i|i it|it| |s v|s]; cbn [idl_step unasked] in *.
  - exact (all_seq_append_unique o it o' r H).
  - apply (all_seq_setitem_unique o i it o' r H). intros x -> _. now apply Hc.
  - intros [= E]. pose proof (all_delitem o i H) as D. now rewrite E in D.
  - exact (all_seq_insert o i it o' r H).
  - intros [= E]. pose proof (all_removed o it H) as D. now rewrite E in D.
  - intros [= <- _]. constructor.
  - apply (all_setslice o s v o' r H). intros ws -> _. apply Forall_forall. intros [x|] Hi; [now apply Hc|exact Pnull].
  - exact (all_delslice o s o' r H).
Qed.
Lemma all_idl_run cs : forall o o' rs, Forall P (oitems o) -> (forall c x, In c cs -> unasked c x -> P (Some x)) ->
  idl_run same kind key valid o cs = Ok (o', rs) -> Forall P (oitems o').
Proof.
  induction cs as [|c cs IH]; intros o o' rs H Hc; cbn [idl_run]; [now intros [= <- _]|].
  destruct (idl_step same kind key valid o c) as [[o1 r1]| |] eqn:E; cbn [bind fst snd]; try discriminate.
  destruct (idl_run same kind key valid o1 cs) as [[o2 r2]| |] eqn:E2; cbn [bind fst snd]; try discriminate.
  intros [= <- _]. apply (IH o1 o2 r2); auto; [|intros c' x Hi; apply Hc; now right].
  apply (all_idl_step o c o1 r1 H); auto. intros x. apply Hc. now left.
Qed.
Lemma unchecked_none o ws : kind <> ById -> check_all kind key o ws = Ok false -> ws = [].
Proof.
  intros Hk. destruct ws as [|w ws]; [reflexivity|]. cbn [check_all]. unfold uniq_check. destruct kind; [now destruct Hk| |]; discriminate.
Qed.
Lemma all_mem_step extra o c o' r : kind <> ById -> Forall P (oitems o) ->
  mem_step same kind key valid extra o c = Ok (o', r) -> Forall P (oitems o').
Proof.
  intros Hk H. destruct c as [it|i it|i|i it|it| |s v|s]; cbn [mem_step].
  - exact (all_seq_append o it o' r H).
  - destruct extra.
    + apply (all_seq_setitem_unique o i it o' r H). intros x _. unfold uniq_check. destruct kind; [now destruct Hk| |]; discriminate.
    + intros [= E]. pose proof (all_seq_setitem o i it H) as D. now rewrite E in D.
  - intros [= E]. pose proof (all_delitem o i H) as D. now rewrite E in D.
  - exact (all_seq_insert o i it o' r H).
  - intros [= E]. pose proof (all_removed o it H) as D. now rewrite E in D.
  - intros [= <- _]. constructor.
  - apply (all_setslice o s v o' r H). intros ws _ Hc. rewrite (unchecked_none o ws Hk Hc). constructor.
  - exact (all_delslice o s o' r H).
Qed.
Lemma all_mem_run extra cs : forall o o' rs, kind <> ById -> Forall P (oitems o) ->
  mem_run same kind key valid extra o cs = Ok (o', rs) -> Forall P (oitems o').
Proof.
  induction cs as [|c cs IH]; intros o o' rs Hk H; cbn [mem_run]; [now intros [= <- _]|].
  destruct (mem_step same kind key valid extra o c) as [[o1 r1]| |] eqn:E; cbn [bind fst snd]; try discriminate.
  destruct (mem_run same kind key valid extra o1 cs) as [[o2 r2]| |] eqn:E2; cbn [bind fst snd]; try discriminate.
  intros [= <- _]. apply (IH o1 o2 r2); auto. exact (all_mem_step extra o c o1 r1 Hk H E).
Qed.
End Inv.

(** Where the objects of a list come from. *)
Lemma idl_origin cs o o' rs : idl_run same kind key valid o cs = Ok (o', rs) ->
  forall x, In (Some x) (oitems o') -> In (Some x) (oitems o) \/ valid x = true \/ exists c, In c cs /\ unasked c x.
Proof.
  intros E x Hx.
  assert (F : Forall (fun v => match v with None => True | Some y => In (Some y) (oitems o) \/ valid y = true \/ exists c, In c cs /\ unasked c y end) (oitems o')).
  { apply (all_idl_run _ Logic.I (fun y Hy => or_intror (or_introl Hy)) cs o o' rs); [| |exact E].
    - apply Forall_forall. intros [y|] Hy; auto.
    - intros c y Hc Hy. right. right. eauto. }
  rewrite Forall_forall in F. exact (F _ Hx).
Qed.
Lemma mem_origin extra cs o o' rs : kind <> ById -> mem_run same kind key valid extra o cs = Ok (o', rs) ->
  forall x, In (Some x) (oitems o') -> In (Some x) (oitems o) \/ valid x = true.
Proof.
  intros Hk E x Hx.
  assert (F : Forall (fun v => match v with None => True | Some y => In (Some y) (oitems o) \/ valid y = true end) (oitems o')).
  { apply (all_mem_run _ Logic.I (fun y Hy => or_intror Hy) extra cs o o' rs Hk); [|exact E].
    apply Forall_forall. intros [y|] Hy; auto. }
  rewrite Forall_forall in F. exact (F _ Hx).
Qed.
End Store.

(** * The validation of one object *)
(** The messages on packages and group ids. *)
Definition name_says (head : str) (n : option ostr) (ms : list str) : Prop :=
  (n = None /\ ms = [head ++ S_ "attr not set"]) \/ (n = Some (Some []) /\ ms = [head ++ S_ "attr empty"]) \/
  (exists s, n = Some s /\ s <> Some [] /\ ms = []).
Definition package_says (p : pkg) := name_says (S_ "Package name check: ") (p_name p).
Definition gid_says (i : gid) := name_says (S_ "GroupId name check: ") (gi_name i).
Definition name_given (n : option ostr) : Prop := exists s, n = Some s /\ s <> Some [].
Definition group_valid (g : group) : Prop := id_given (g_base g) /\ distinct pkg_cmp (g_pkgs g).
Definition category_valid (c : category) : Prop := id_given (c_base c) /\ distinct gid_cmp (c_gids c).
Definition env_valid (e : env) : Prop := id_given (e_base e) /\ distinct gid_cmp (e_groups e) /\ distinct gid_cmp (e_options e).
(** [r] is the answer to the messages [ms]: nothing, or the first one raised. *)
Definition answered (ms : list str) (r : res (option str)) : Prop := r = Ok (hd_error ms).

Lemma process_verdict o ms : validate_process (verdict (map (fun m => (o, m)) ms)) = Ok (hd_error ms).
Proof. destruct ms; reflexivity. Qed.
Lemma name_says_none h n ms : name_says h n ms -> (ms = [] <-> name_given n).
Proof.
  intros [(-> & ->)|[(-> & ->)|(s & -> & Hs & ->)]]; split; try discriminate.
  - now intros (s & [=] & _).
  - intros (s & [= <-] & H). now destruct H.
  - intros _. now exists s.
  - reflexivity.
Qed.
Lemma accepts_iff {A} (rules : list (rule A)) x ms (Q : Prop) : py_validate rules x = Ok (hd_error ms) -> (ms = [] <-> Q) -> (accepts rules x = true <-> Q).
Proof. intros E H. unfold accepts. rewrite E. destruct ms; cbn; split; intros X; try tauto; try discriminate. apply H in X. discriminate. Qed.
Lemma group_answer g : id_string (g_base g) -> SpecE.small (g_pkgs g) ->
  exists ms, group_says g ms /\ py_validate group_rules g = Ok (hd_error ms) /\ (accepts group_rules g = true <-> group_valid g).
Proof.
  intros Hi Hs. destruct (group_checked g Hi Hs) as (ms & Hm & E).
  assert (Ep : py_validate group_rules g = Ok (hd_error ms)) by (unfold py_validate; rewrite E; apply process_verdict).
  exists ms. split; [exact Hm|]. split; [exact Ep|]. apply (accepts_iff _ _ ms); [exact Ep|].
  destruct Hm as (a & b & Ha & Hb & ->). unfold group_valid. now rewrite app_nil_iff, !map_nil_iff, (id_says_none _ _ Ha), (dups_say_none _ _ _ Hb).
Qed.
Lemma category_answer c : id_string (c_base c) -> SpecE.small (c_gids c) ->
  exists ms, category_says c ms /\ py_validate category_rules c = Ok (hd_error ms) /\ (accepts category_rules c = true <-> category_valid c).
Proof.
  intros Hi Hs. destruct (category_checked c Hi Hs) as (ms & Hm & E).
  assert (Ep : py_validate category_rules c = Ok (hd_error ms)) by (unfold py_validate; rewrite E; apply process_verdict).
  exists ms. split; [exact Hm|]. split; [exact Ep|]. apply (accepts_iff _ _ ms); [exact Ep|].
  destruct Hm as (a & b & Ha & Hb & ->). unfold category_valid. now rewrite app_nil_iff, !map_nil_iff, (id_says_none _ _ Ha), (dups_say_none _ _ _ Hb).
Qed.
Lemma env_answer e : id_string (e_base e) -> SpecE.small (e_groups e) -> SpecE.small (e_options e) ->
  exists ms, env_says e ms /\ py_validate env_rules e = Ok (hd_error ms) /\ (accepts env_rules e = true <-> env_valid e).
Proof.
  intros Hi Hs Ho. destruct (env_checked e Hi Hs Ho) as (ms & Hm & E).
  assert (Ep : py_validate env_rules e = Ok (hd_error ms)) by (unfold py_validate; rewrite E; apply process_verdict).
  exists ms. split; [exact Hm|]. split; [exact Ep|]. apply (accepts_iff _ _ ms); [exact Ep|].
  destruct Hm as (a & b & c & Ha & Hb & Hc & ->). unfold env_valid.
  now rewrite !app_nil_iff, !map_nil_iff, (id_says_none _ _ Ha), (dups_say_none _ _ _ Hb), (dups_say_none _ _ _ Hc).
Qed.
Lemma package_answer p : exists ms, package_says p ms /\ py_validate pkg_rules p = Ok (hd_error ms) /\ (accepts pkg_rules p = true <-> name_given (p_name p)).
Proof.
  assert (H : exists ms, package_says p ms /\ py_validate pkg_rules p = Ok (hd_error ms)).
  { unfold package_says, name_says, py_validate, execute, pkg_rules. destruct (p_name p) as [[[|c s]|]|] eqn:E.
    - eexists. split; [right; left; split; reflexivity|]. cbn [execute_loop]. rewrite E. reflexivity.
    - exists []. split; [right; right; exists (Some (c :: s)); repeat split; discriminate|]. cbn [execute_loop]. rewrite E. reflexivity.
    - exists []. split; [right; right; exists None; repeat split; discriminate|]. cbn [execute_loop]. rewrite E. reflexivity.
    - eexists. split; [left; split; reflexivity|]. cbn [execute_loop]. rewrite E. reflexivity. }
  destruct H as (ms & Hm & Ep). exists ms. split; [exact Hm|]. split; [exact Ep|]. apply (accepts_iff _ _ ms); [exact Ep|exact (name_says_none _ _ _ Hm)].
Qed.
Lemma gid_answer i : exists ms, gid_says i ms /\ py_validate gid_rules i = Ok (hd_error ms) /\ (accepts gid_rules i = true <-> name_given (gi_name i)).
Proof.
  assert (H : exists ms, gid_says i ms /\ py_validate gid_rules i = Ok (hd_error ms)).
  { unfold gid_says, name_says, py_validate, execute, gid_rules. destruct (gi_name i) as [[[|c s]|]|] eqn:E.
    - eexists. split; [right; left; split; reflexivity|]. cbn [execute_loop]. rewrite E. reflexivity.
    - exists []. split; [right; right; exists (Some (c :: s)); repeat split; discriminate|]. cbn [execute_loop]. rewrite E. reflexivity.
    - exists []. split; [right; right; exists None; repeat split; discriminate|]. cbn [execute_loop]. rewrite E. reflexivity.
    - eexists. split; [left; split; reflexivity|]. cbn [execute_loop]. rewrite E. reflexivity. }
  destruct H as (ms & Hm & Ep). exists ms. split; [exact Hm|]. split; [exact Ep|]. apply (accepts_iff _ _ ms); [exact Ep|exact (name_says_none _ _ _ Hm)].
Qed.

(** * Texts *)
(** The text at "id", nothing if there is none. *)
Definition id_text (b : base) (s : str) : Prop :=
  (s = [] /\ (rt_get (b_props b) (S_ "id") = Ok None \/ rt_get (b_props b) (S_ "id") = Ok (Some (PStr None)))) \/
  rt_get (b_props b) (S_ "id") = Ok (Some (PStr (Some s))).
Lemma base_str_is replaced b : id_string b -> exists s, id_text b s /\ base_str replaced b = Ok (replaced s).
Proof.
  intros H. unfold base_str, base_get. pose proof (rt_get_look (b_props b) (S_ "id")) as G. rewrite G. cbn [bind].
  destruct (look _ _) as [v|].
  - destruct (H v G) as (s & ->). destruct s as [s|].
    + exists s. split; [now right|reflexivity].
    + exists []. split; [left; split; [reflexivity|now right]|reflexivity].
  - exists []. split; [left; split; [reflexivity|now left]|reflexivity].
Qed.
Import PyDictModel.
Definition low (c : ascii) : bool := byte_in 0 127 c.
Lemma low_bounds c : low c = true -> (N_of_ascii c <= 127)%N.
Proof. unfold low, byte_in. rewrite Bool.andb_true_iff, !N.leb_le. tauto. Qed.
Lemma byte_in_low lo hi c : low c = true -> (127 < lo)%N -> byte_in lo hi c = false.
Proof. intros H L. apply low_bounds in H. unfold byte_in. destruct (N.leb_spec lo (N_of_ascii c)); [lia|reflexivity]. Qed.
Lemma low_cont c : low c = true -> cont c = false.
Proof. intros H. now apply byte_in_low. Qed.
Lemma low_two a c : low c = true -> two a c = false.
Proof. intros H. unfold two. rewrite (low_cont c H). apply Bool.andb_false_r. Qed.
Lemma low_three a c : low c = true -> three a c = false.
Proof.
  intros H. unfold three. rewrite (low_cont c H), (byte_in_low 160 191 c H) by lia. rewrite (byte_in_low 128 159 c H) by lia.
  now rewrite !Bool.andb_false_r.
Qed.
Lemma low_four a c : low c = true -> four a c = false.
Proof.
  intros H. unfold four. rewrite (low_cont c H), (byte_in_low 144 191 c H) by lia. rewrite (byte_in_low 128 143 c H) by lia.
  now rewrite !Bool.andb_false_r.
Qed.
Lemma utf8_low s t : forallb low s = true -> utf8 (s ++ t) = utf8 t.
Proof.
  induction s as [|a s IH]; cbn [forallb app]; [reflexivity|]. rewrite Bool.andb_true_iff. intros [Ha Hs].
  cbn [utf8]. unfold low in Ha. rewrite Ha. now apply IH.
Qed.
Lemma utf8_split n : forall s c t, length s <= n -> low c = true -> utf8 (s ++ c :: t) = utf8 s && utf8 (c :: t).
Proof.
  induction n as [|n IH]; intros s c t Hn Hc.
  { destruct s; [reflexivity|cbn in Hn; lia]. }
  destruct s as [|a [|b [|d [|e s]]]]; cbn [length] in Hn.
  - reflexivity.
  - change ([a] ++ c :: t) with (a :: c :: t). cbn [utf8]. destruct (byte_in 0 127 a); [reflexivity|].
    rewrite (low_two a c Hc), (low_three a c Hc), (low_four a c Hc). cbn. destruct t as [|x [|y t]]; reflexivity.
  - change ([a; b] ++ c :: t) with (a :: b :: c :: t). cbn [utf8]. destruct (byte_in 0 127 a) eqn:Ea.
    { exact (IH [b] c t ltac:(cbn; lia) Hc). }
    destruct (two a b); [reflexivity|]. rewrite (low_cont c Hc), Bool.andb_false_r. cbn [andb]. destruct t; [reflexivity|]. now rewrite Bool.andb_false_r.
  - change ([a; b; d] ++ c :: t) with (a :: b :: d :: c :: t). cbn [utf8]. destruct (byte_in 0 127 a) eqn:Ea.
    { exact (IH [b; d] c t ltac:(cbn; lia) Hc). }
    destruct (two a b). { exact (IH [d] c t ltac:(cbn; lia) Hc). }
    destruct (three a b && cont d); [reflexivity|]. rewrite (low_cont c Hc), !Bool.andb_false_r. reflexivity.
  - change ((a :: b :: d :: e :: s) ++ c :: t) with (a :: b :: d :: e :: s ++ c :: t). cbn [utf8]. destruct (byte_in 0 127 a) eqn:Ea.
    { exact (IH (b :: d :: e :: s) c t ltac:(cbn; lia) Hc). }
    destruct (two a b). { exact (IH (d :: e :: s) c t ltac:(cbn; lia) Hc). }
    destruct (three a b && cont d). { exact (IH (e :: s) c t ltac:(cbn; lia) Hc). }
    rewrite (IH s c t ltac:(lia) Hc). cbn [utf8]. now rewrite Bool.andb_assoc.
Qed.
Lemma utf8_framed h s c t : forallb low h = true -> low c = true -> forallb low t = true -> utf8 (h ++ s ++ c :: t) = utf8 s.
Proof.
  intros Hh Hc Ht. rewrite (utf8_low h _ Hh), (utf8_split (length s) s c t (le_n _) Hc).
  pose proof (utf8_low (c :: t) [] ltac:(cbn [forallb]; now rewrite Hc)) as E. rewrite app_nil_r in E. rewrite E. apply Bool.andb_true_r.
Qed.
Lemma gid_str_is i : gid_str i = Ok (if utf8 (ostr_tostr (gi_name i)) then PyDictModel.Ret (gid_shown i) else PyDictModel.Raise UnicodeError).
Proof.
  unfold gid_str. rewrite gid_rendered. cbn [bind]. unfold to_py. f_equal.
  assert (E : utf8 (gid_shown i) = utf8 (ostr_tostr (gi_name i))).
  { unfold gid_shown. destruct (gi_def i).
    - apply (utf8_framed (S_ "<COMPS_DocGroupId name='") (ostr_tostr (gi_name i)) "'"%char (S_ " default='True'>")); reflexivity.
    - apply (utf8_framed (S_ "<COMPS_DocGroupId name='") (ostr_tostr (gi_name i)) "'"%char (S_ " default='False'>")); reflexivity. }
  now rewrite E.
Qed.
