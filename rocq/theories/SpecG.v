(** Saving: shape of the output, codes, absence of failures. *)
From Verif Require Import CStr CStrFacts HSListModel HSListFacts RTreeModel RTreeFacts RTreeFacts2 RTreeFacts3 RTreeFacts4 MRTreeModel MRTreeFacts MRTreeFacts2
  ObjModel ObjFacts2 Dec StrModel StrFacts DocModel DocFacts2 SpecA SpecB ParseModel XmlModel XmlFacts.

(** ** Well-formed output *)
(** How far the writer has come.  [Inside st tag]: the elements [st] are open,
    [tag] holds the attribute names of the innermost one as long as its start tag is. *)
Inductive phase := Fresh | Prolog | InDTD | BeforeRoot | Inside (st : list str) (tag : option (list str)) | AfterRoot | Complete.
Definition wstep (p : phase) (c : call) : option phase :=
  match p, c with
  | Fresh, WStartDoc _ => Some Prolog
  | Prolog, WDTD _ _ _ => Some InDTD
  | InDTD, WEndDTD => Some BeforeRoot
  | BeforeRoot, WStart n => if streq n (S_ "comps") then Some (Inside [n] (Some [])) else None
  | Inside st _, WStart n => Some (Inside (n :: st) (Some []))
  | Inside st (Some ks), WAttr k _ => if existsb (streq k) ks then None else Some (Inside st (Some (k :: ks)))
  | Inside st _, WText _ => Some (Inside st None)
  | Inside (_ :: m :: st) _, WEnd => Some (Inside (m :: st) None)
  | Inside [_] _, WEnd => Some AfterRoot
  | AfterRoot, WEndDoc => Some Complete
  | _, _ => None
  end.
Fixpoint walk (p : phase) (cs : list call) : option phase :=
  match cs with [] => Some p | c :: r => match wstep p c with Some p' => walk p' r | None => None end end.
Definition calls (w : wst) : list call := map fst (w_calls w).
Definition w0 : wst := mkW [] [].

Lemma walk_app p a b : walk p (a ++ b) = match walk p a with Some q => walk q b | None => None end.
Proof. revert p. induction a as [|c a IH]; intros p; cbn [walk app]; [reflexivity|]. destruct (wstep p c); auto. Qed.

Inductive clean : xml -> Prop :=
| CT s : clean (Text s)
| CE n a b : NoDup (map fst a) -> cleans b -> clean (Elem n a b)
with cleans : list xml -> Prop :=
| CN : cleans []
| CC x l : clean x -> cleans l -> cleans (x :: l).
Lemma cleans_Forall l : cleans l <-> Forall clean l.
Proof. split; intros H; induction H; constructor; auto. Qed.
Lemma cleans_app a b : cleans (a ++ b) <-> cleans a /\ cleans b.
Proof. rewrite !cleans_Forall. apply Forall_app. Qed.

Lemma wstep_attr st ks k v : wstep (Inside st (Some ks)) (WAttr k v) = if existsb (streq k) ks then None else Some (Inside st (Some (k :: ks))).
Proof. destruct st as [|x [|y st]]; reflexivity. Qed.
Lemma wstep_start st t n : wstep (Inside st t) (WStart n) = Some (Inside (n :: st) (Some [])).
Proof. destruct st as [|x [|y st]], t; reflexivity. Qed.
Lemma wstep_text st t s : wstep (Inside st t) (WText s) = Some (Inside st None).
Proof. destruct st as [|x [|y st]], t; reflexivity. Qed.
Lemma walk_attrs st a : forall ks, NoDup (map fst a) -> (forall k, In k (map fst a) -> ~ In k ks) ->
  exists ks', walk (Inside st (Some ks)) (map attr_call a) = Some (Inside st (Some ks')).
Proof.
  induction a as [|[k v] a IH]; intros ks Hn Hd; cbn [map walk]; [eauto|]. unfold attr_call at 1. cbn [fst snd]. rewrite wstep_attr.
  inversion Hn; subst.
  destruct (existsb (streq k) ks) eqn:E.
  - apply existsb_exists in E. destruct E as (x & Hx & Ex). apply streq_iff in Ex. subst x. elim (Hd k); [now left|exact Hx].
  - apply IH; [assumption|]. intros k' Hk' [<-|H']; [now apply H1|]. now apply (Hd k'); [right|].
Qed.
Definition after_end (st : list str) : phase := match st with [] => AfterRoot | _ => Inside st None end.
Lemma walk_end n st t : walk (Inside (n :: st) t) [WEnd] = Some (after_end st).
Proof. destruct st, t; reflexivity. Qed.
(** Each tree leaves the elements around it open. *)
Fixpoint size (t : xml) : nat := match t with Text _ => 1 | Elem _ _ b => S (list_sum (map size b)) end.
Lemma walk_tree n : forall t m st tag, size t < n -> clean t ->
  exists tag', walk (Inside (m :: st) tag) (ser t) = Some (Inside (m :: st) tag').
Proof.
  induction n as [|n IH]; intros t m st tag Hs Hc; [lia|]. destruct Hc as [s|x a b Ha Hb].
  - cbn [ser walk]. rewrite wstep_text. eauto.
  - cbn [ser size] in *.
    assert (Hbody : forall b tag, list_sum (map size b) < n -> cleans b -> exists tag', walk (Inside (x :: m :: st) tag) (flat_map ser b) = Some (Inside (x :: m :: st) tag')).
    { clear - IH. induction b as [|y b IHb]; intros tag Hl Hb; cbn [flat_map walk]; [eauto|].
      inversion Hb; subst. change (list_sum (map size (y :: b))) with (size y + list_sum (map size b)) in Hl.
      destruct (IH y x (m :: st) tag ltac:(lia) H1) as [t1 E1]. rewrite walk_app, E1. apply IHb; [lia|assumption]. }
    cbn [walk]. rewrite wstep_start.
    destruct (walk_attrs (x :: m :: st) a [] Ha ltac:(intros ? ? [])) as [ks E]. rewrite walk_app, E.
    destruct (Hbody b (Some ks) ltac:(lia) Hb) as [t2 E2]. rewrite walk_app, E2, walk_end. cbn. eauto.
Qed.
Lemma walk_root a b : clean (Elem (S_ "comps") a b) -> walk BeforeRoot (ser (Elem (S_ "comps") a b)) = Some AfterRoot.
Proof.
  intros H. inversion H; subst. cbn [ser walk]. cbn [wstep]. rewrite streq_refl.
  destruct (walk_attrs [S_ "comps"] a [] H2 ltac:(intros ? ? [])) as [ks E]. rewrite walk_app, E.
  assert (Hb : forall b tag, cleans b -> exists tag', walk (Inside [S_ "comps"] tag) (flat_map ser b) = Some (Inside [S_ "comps"] tag')).
  { clear. induction b as [|y b IHb]; intros tag Hb; cbn [flat_map walk]; [eauto|].
    inversion Hb; subst. destruct (walk_tree (S (size y)) y (S_ "comps") [] tag ltac:(lia) H1) as [t1 E1]. rewrite walk_app, E1. now apply IHb. }
  destruct (Hb b (Some ks) H4) as [t2 E2]. rewrite walk_app, E2, walk_end. reflexivity.
Qed.

(** *** The trees are clean *)
Ltac nd := repeat (constructor; [vm_compute; intuition discriminate|]); constructor.
Lemma arch_attr_names o l a : arch_attr o l = Ok a -> map fst a = [] \/ map fst a = [S_ "arch"].
Proof.
  unfold arch_attr. destruct (x_arch o); [|intros E; inversion E; now left]. destruct l as [[|x l]|]; try (intros E; inversion E; now left).
  destruct (arch_str _); cbn; intros E; inversion E. now right.
Qed.
Lemma pkg_clean o p t : pkg_tree o p = Ok t -> clean t.
Proof.
  unfold pkg_tree. destruct (arch_attr o (p_arches p)) as [a| |] eqn:Ea; try discriminate. cbn [bind]. intros E. inversion E; subst. clear E.
  constructor; [|repeat constructor]. rewrite !map_app.
  destruct (arch_attr_names _ _ _ Ea) as [-> | ->];
    (destruct (p_requires p) as [s|]; [destruct (str_tostr s)|]);
    (destruct (x_bao o); [|destruct (p_bao p) as [z|]; [destruct (z =? 0)%Z|]]); cbn [map app fst]; nd.
Qed.
Lemma gid_clean o p t : gid_tree o p = Ok t -> clean t.
Proof.
  unfold gid_tree. destruct (arch_attr o (gi_arches p)) as [a| |] eqn:Ea; try discriminate. cbn [bind]. intros E. inversion E; subst. clear E.
  constructor; [|repeat constructor]. rewrite !map_app.
  destruct (arch_attr_names _ _ _ Ea) as [-> | ->]; destruct (x_gid_default o || gi_def p); cbn [map app fst]; nd.
Qed.
Lemma prop_clean tag s : clean (prop_tree tag s).
Proof. repeat constructor. Qed.
Lemma lang_clean tag l : cleans (map (lang_tree tag) l).
Proof. induction l as [|kv l IH]; cbn [map]; constructor; [|exact IH]. constructor; [cbn; nd|repeat constructor]. Qed.
Lemma row_clean b r l : row_trees b r = Ok l -> cleans l.
Proof.
  destruct r as [key tag|key tag ex df| |]; cbn [row_trees].
  - destruct (base_get b key) as [[v|]| |]; cbn [bind]; try discriminate.
    + destruct (pval_tostr (Some v)); cbn [bind]; intros E; inversion E. repeat constructor.
    + intros E; inversion E. constructor.
  - destruct (base_get b key) as [[v|]| |]; cbn [bind]; try discriminate.
    + destruct (num2bool v) as [c| |]; cbn [bind]; try discriminate. destruct (ex || negb (Bool.eqb c df)); intros E; inversion E; repeat constructor.
    + destruct ex; intros E; inversion E; repeat constructor.
  - destruct (rt_pairs (b_names b)); cbn [bind]; intros E; inversion E. apply lang_clean.
  - destruct (rt_pairs (b_descs b)); cbn [bind]; intros E; inversion E. apply lang_clean.
Qed.
Lemma rows_clean b rows : forall l, rows_trees b rows = Ok l -> cleans l.
Proof.
  induction rows as [|r rows IH]; cbn [rows_trees]; intros l E; [inversion E; constructor|].
  destruct (row_trees b r) as [x| |] eqn:Er; cbn [bind] in E; try discriminate.
  destruct (rows_trees b rows) as [y| |] eqn:Ey; cbn [bind] in E; inversion E; subst. apply cleans_app. split; [now apply (row_clean b r)|now apply IH].
Qed.
Lemma map_r_clean {A} (f : A -> res xml) l : forall ts, (forall x t, f x = Ok t -> clean t) -> map_r f l = Ok ts -> cleans ts.
Proof.
  induction l as [|x l IH]; cbn [map_r]; intros ts H E; [inversion E; constructor|].
  destruct (f x) as [t| |] eqn:Ef; cbn [bind] in E; try discriminate. destruct (map_r f l) as [r| |] eqn:Er; cbn [bind] in E; inversion E; subst.
  constructor; [eauto|now apply IH].
Qed.
Lemma members_clean {A} tag al (f : A -> res xml) l ts : (forall x t, f x = Ok t -> clean t) -> members_trees tag al f l = Ok ts -> cleans ts.
Proof.
  intros H. assert (E : forall l', (ts <- map_r f l' ;; Ok [Elem tag [] ts]) = Ok ts -> cleans ts).
  { intros l' E. destruct (map_r f l') as [x| |] eqn:Em; cbn [bind] in E; inversion E. constructor; [|constructor]. constructor; [constructor|]. eapply map_r_clean; eauto. }
  unfold members_trees. destruct l; [destruct al|]; try apply E. intros E'. inversion E'. constructor.
Qed.
Lemma object_clean o tag b rows ms t : (forall l, ms = Ok l -> cleans l) -> object_tree o tag b rows ms = Ok t -> clean t.
Proof.
  intros Hm. unfold object_tree. intros E.
  destruct (if x_arch o then _ else _) as [a| |] eqn:Ea; cbn [bind] in E; try discriminate.
  destruct (rows_trees b rows) as [x| |] eqn:Ex; cbn [bind] in E; try discriminate. destruct ms as [m| |]; cbn [bind] in E; inversion E; subst.
  constructor; [|apply cleans_app; split; [now apply (rows_clean b rows)|now apply Hm]].
  destruct (x_arch o) eqn:Eo; [|inversion Ea; constructor]. destruct (base_arches b) as [l| |]; cbn [bind] in Ea; try discriminate.
  destruct (arch_attr_names _ _ _ Ea) as [-> | ->]; nd.
Qed.
Definition oclean (x : xml + option pval) : Prop := match x with inl t => clean t | inr _ => True end.
Lemma skipped_clean b x : skipped b = Ok x -> oclean x.
Proof. unfold skipped. destruct (base_get b (S_ "id")); cbn; intros E; inversion E. exact I. Qed.
Lemma kept_clean t x : (forall y, t = Ok y -> clean y) -> kept t = Ok x -> oclean x.
Proof. unfold kept. destruct t as [y| |]; cbn; intros H E; inversion E. now apply H. Qed.
Lemma group_clean o d g x : group_tree o d g = Ok x -> oclean x.
Proof.
  unfold group_tree. destruct (g_pkgs g) eqn:Eg; [destruct (x_empty_groups o); [|apply skipped_clean]|]; apply kept_clean; intros y; apply object_clean;
    intros ll; apply members_clean; apply pkg_clean.
Qed.
Lemma category_clean o g x : category_tree o g = Ok x -> oclean x.
Proof.
  unfold category_tree. destruct (c_gids g) eqn:Eg; [destruct (x_empty_categories o); [|apply skipped_clean]|]; apply kept_clean; intros y; apply object_clean;
    intros ll; apply members_clean; apply gid_clean.
Qed.
Lemma env_clean o g x : env_tree o g = Ok x -> oclean x.
Proof.
  unfold env_tree.
  assert (H : forall a b l, (g <- members_trees (S_ "grouplist") (x_empty_grouplist o) (gid_tree o) a ;;
       p <- members_trees (S_ "optionlist") (x_empty_optionlist o) (gid_tree o) b ;; Ok (g ++ p)) = Ok l -> cleans l).
  { intros a b l E. destruct (members_trees (S_ "grouplist") _ _ a) as [m| |] eqn:Em; cbn [bind] in E; try discriminate.
    destruct (members_trees (S_ "optionlist") _ _ b) as [n| |] eqn:En; cbn [bind] in E; inversion E. apply cleans_app.
    split; [eapply members_clean in Em|eapply members_clean in En]; auto; apply gid_clean. }
  destruct (e_groups g) eqn:Eg; [destruct (e_options g) eqn:Eo; [destruct (x_empty_environments o); [|apply skipped_clean]|]|];
    apply kept_clean; intros y; apply object_clean; apply H.
Qed.
Lemma map_r_oclean {A} (f : A -> res (xml + option pval)) l : forall ts, (forall x t, f x = Ok t -> oclean t) -> map_r f l = Ok ts -> cleans (trees_of ts).
Proof.
  induction l as [|x l IH]; cbn [map_r]; intros ts H E; [inversion E; constructor|].
  destruct (f x) as [t| |] eqn:Ef; cbn [bind] in E; try discriminate. destruct (map_r f l) as [r| |] eqn:Er; cbn [bind] in E; inversion E; subst.
  apply H in Ef. unfold trees_of. cbn [flat_map]. apply cleans_app. split; [destruct t; repeat constructor; exact Ef|now apply IH].
Qed.
Lemma dict_clean tag etag ka va l : ka <> va -> clean (dict_tree tag etag ka va l).
Proof.
  intros H. constructor; [constructor|]. induction l as [|kv l IH]; cbn [map]; constructor; [|exact IH].
  constructor; [|constructor]. cbn. constructor; [intros [E|[]]; congruence|]. constructor; [intros []|constructor].
Qed.
Lemma mdict_clean tag etag ka va t l : ka <> va -> mdict_trees tag etag ka va t = Ok l -> cleans l.
Proof.
  unfold mdict_trees. intros Hk. destruct (mlen t =? 0)%Z; [intros E; inversion E; constructor|].
  destruct (ps <- mt_pairs t ;; mpairs_texts ps); cbn [bind]; intros E; inversion E. constructor; [now apply dict_clean|constructor].
Qed.
Lemma doc_tree_clean o df d x : doc_tree o df d = Ok x -> exists b, fst x = Elem (S_ "comps") [] b /\ cleans b.
Proof.
  unfold doc_tree. intros E.
  repeat match type of E with bind ?m _ = Ok _ => let H := fresh "H" in destruct m eqn:H; cbn [bind] in E; try discriminate end.
  inversion E; subst. cbn [fst]. eexists. split; [reflexivity|].
  repeat (apply cleans_app; split).
  - eapply map_r_oclean; [|eassumption]. apply group_clean.
  - eapply map_r_oclean; [|eassumption]. apply category_clean.
  - eapply map_r_oclean; [|eassumption]. apply env_clean.
  - unfold langpack_trees in *. destruct (tlen _ =? 0); [inversion H6; constructor|]. destruct (rt_pairs _); cbn [bind] in H6; inversion H6.
    constructor; [|constructor]. apply dict_clean. discriminate.
  - eapply mdict_clean; [|eassumption]. discriminate.
  - eapply mdict_clean; [|eassumption]. discriminate.
Qed.

(** ** A save in which every call was accepted *)
Lemma calls_wrote cs w : calls (wrote cs w) = calls w ++ cs.
Proof. unfold calls, wrote. cbn. rewrite map_app, map_map. cbn [fst]. now rewrite map_id. Qed.
Lemma doc_head_some ac o df d w x : doc_xml ac o df d w = Ok x -> exists n p s, d_name d = Some n /\ d_pubid d = Some p /\ d_sysid d = Some s.
Proof. unfold doc_xml. destruct (d_name d), (d_pubid d), (d_sysid d); intros E; try discriminate. eauto 8. Qed.
Lemma saved_calls ac o df d w' r : doc_xml ac o df d w0 = Ok (w', r) -> accd w' ->
  exists n p s x, d_name d = Some n /\ d_pubid d = Some p /\ d_sysid d = Some s /\ doc_tree o df d = Ok x /\
    calls w' = dtd_calls n p s ++ ser (fst x) /\ w_log w' = map (fun v => (E_PKGLIST_EMPTY, [v])) (snd x) /\ r = schar8 (Z.of_nat (length (snd x))).
Proof.
  intros E Ha. destruct (doc_head_some _ _ _ _ _ _ E) as (n & p & s & En & Ep & Es).
  apply (doc_xml_tame ac o df d) in E. destruct E as [_ E]. specialize (E Ha). rewrite (doc_xml_ok o df d n p s w0 En Ep Es) in E.
  destruct (doc_tree o df d) as [x| |] eqn:Ex; cbn [bind] in E; try discriminate. inversion E; subst.
  exists n, p, s, x. repeat (split; [assumption || reflexivity|]). split; [|split; reflexivity].
  unfold doc_result. change (calls (told ?l ?w)) with (calls w). rewrite calls_wrote. reflexivity.
Qed.
Lemma xml_f_calls ac name saved x df d w' r : comps2xml_f ac name saved x df d w0 = Ok (w', r) -> accd w' ->
  exists n p s t, d_name d = Some n /\ d_pubid d = Some p /\ d_sysid d = Some s /\ doc_tree (opt_xopts x) (opt_dopts df) d = Ok t /\
    calls w' = WStartDoc (enc_str d) :: dtd_calls n p s ++ ser (fst t) ++ [WEndDoc] /\
    w_log w' = map (fun v => (E_PKGLIST_EMPTY, [v])) (snd t) ++ (if saved then [] else [(E_WRITEF, [Some (PStr (Some name))])]) /\
    r = schar8 (Z.of_nat (length (snd t))).
Proof.
  intros E Ha.
  assert (Ht : tame (comps2xml_f ac name saved x df d) (comps2xml_f always name saved x df d)).
  { unfold comps2xml_f, unless. apply tame_bind; [apply tame_emit|intros r1]. apply tame_bind; [destruct r1; [apply tame_ret|apply tame_log]|intros _].
    apply tame_bind; [apply doc_xml_tame|intros g]. apply tame_bind; [apply tame_emit|intros r2].
    apply tame_bind; [destruct r2; [apply tame_ret|apply tame_log]|intros _]. apply tame_bind; [destruct saved; [apply tame_ret|apply tame_log]|intros _]. apply tame_ret. }
  apply Ht in E. destruct E as [_ E]. specialize (E Ha). clear Ht Ha.
  unfold comps2xml_f, unless in E. rewrite wbind_emit, wbind_ret in E. unfold wbind at 1 in E.
  destruct (doc_xml always (opt_xopts x) (opt_dopts df) d (wrote [WStartDoc (enc_str d)] w0)) as [[w1 g]| |] eqn:Ed; cbn [bind fst snd] in E; try discriminate.
  destruct (doc_head_some _ _ _ _ _ _ Ed) as (n & p & s & En & Ep & Es). rewrite (doc_xml_ok _ _ d n p s _ En Ep Es) in Ed.
  destruct (doc_tree (opt_xopts x) (opt_dopts df) d) as [t| |] eqn:Et; cbn [bind] in Ed; try discriminate. inversion Ed; subst w1 g. clear Ed.
  rewrite wbind_emit, wbind_ret in E. exists n, p, s, t. repeat (split; [assumption || reflexivity|]).
  assert (Ec : calls (wrote [WEndDoc] (fst (doc_result n p s t (wrote [WStartDoc (enc_str d)] w0)))) =
     WStartDoc (enc_str d) :: dtd_calls n p s ++ ser (fst t) ++ [WEndDoc]).
  { unfold doc_result. cbn [fst]. rewrite calls_wrote. change (calls (told ?l ?w)) with (calls w). rewrite !calls_wrote. cbn [calls w0 w_calls map app]. now rewrite app_assoc. }
  destruct saved; inversion E; subst; (split; [exact Ec|]); (split; [|reflexivity]); cbn [told wrote w_log w0 app]; [now rewrite app_nil_r|reflexivity].
Qed.

(** C27 *)
Lemma well_formed ac name saved x df d w' r : comps2xml_f ac name saved x df d w0 = Ok (w', r) -> Forall (fun c => snd c = true) (w_calls w') ->
  walk Fresh (calls w') = Some Complete.
Proof.
  intros E Ha. destruct (xml_f_calls _ _ _ _ _ _ _ _ E Ha) as (n & p & s & t & _ & _ & _ & Et & -> & _).
  destruct (doc_tree_clean _ _ _ _ Et) as (b & -> & Hb). cbn [walk wstep dtd_calls app]. rewrite walk_app, (walk_root [] b).
  - reflexivity.
  - constructor; [constructor|exact Hb].
Qed.

(** ** Saving does not fail *)
Definition total {A} (m : wm A) : Prop := forall w, exists w' a, m w = Ok (w', a).
Lemma total_ret {A} (a : A) : total (wret a).
Proof. intros w. unfold wret. eauto. Qed.
Lemma total_lift {A} (x : res A) a : x = Ok a -> total (wlift x).
Proof. intros -> w. unfold wlift. cbn. eauto. Qed.
Lemma total_log c l : total (wlog c l).
Proof. intros w. unfold wlog. eauto. Qed.
Lemma total_emit ac c : total (emit ac c).
Proof. intros w. unfold emit. eauto. Qed.
Lemma total_bind {A B} (m : wm A) (f : A -> wm B) : total m -> (forall a, total (f a)) -> total (wbind m f).
Proof. intros Hm Hf w. unfold wbind. destruct (Hm w) as (w1 & a & ->). cbn. apply Hf. Qed.
Lemma total_lift_bind {A B} (x : res A) a (f : A -> wm B) : x = Ok a -> total (f a) -> total (wbind (wlift x) f).
Proof. intros -> H w. unfold wbind, wlift. cbn. apply H. Qed.
Lemma total_check b (k : wm Z) : total k -> total (check b k).
Proof. intros H. unfold check. destruct b; [exact H|]. apply total_bind; [apply total_log|intros; apply total_ret]. Qed.
Ltac tt_ := repeat first
  [ assumption | apply total_ret | apply total_log | apply total_emit | apply total_check | apply total_bind | match goal with |- forall _, _ => intros ? end ].
Section Total.
Variable ac : list (call * bool) -> call -> bool.
Lemma xml_arch_total l : total (xml_arch ac l).
Proof.
  unfold xml_arch. destruct l as [[|x l]|]; tt_. intros w. rewrite arch_str_ok. unfold wlift. cbn. eauto.
Qed.
Lemma pkg_total o p : total (pkg_xml ac o p).
Proof.
  unfold pkg_xml. apply total_bind; [tt_|intros]. apply total_check, total_bind; [destruct (x_arch o); [apply xml_arch_total|tt_]|intros].
  apply total_check, total_bind; [tt_|intros]. apply total_bind; [destruct (p_requires p) as [s|]; [destruct (str_tostr s)|]; tt_|intros].
  apply total_check, total_bind; [destruct (x_bao o); [|destruct (p_bao p) as [z|]; [destruct (z =? 0)%Z|]]; tt_|intros]. tt_.
Qed.
Lemma gid_total o p : total (gid_xml ac o p).
Proof.
  unfold gid_xml. apply total_bind; [tt_|intros]. apply total_check, total_bind; [destruct (x_arch o); [apply xml_arch_total|tt_]|intros].
  apply total_check. destruct (x_gid_default o); [tt_|]. destruct (gi_def p); tt_.
Qed.
Lemma pairs_total tag l k : total k -> total (pairs_xml ac tag l k).
Proof. intros H. induction l as [|[a v] l IH]; cbn [pairs_xml]; [exact H|]. tt_. Qed.
Lemma rows_total b rows l k : rows_trees b rows = Ok l -> total k -> total (rows_xml ac b rows k).
Proof.
  revert l. induction rows as [|r rows IH]; intros l E Hk; cbn [rows_xml rows_trees] in *; [exact Hk|].
  destruct (row_trees b r) as [x| |] eqn:Er; cbn [bind] in E; try discriminate.
  destruct (rows_trees b rows) as [y| |] eqn:Ey; cbn [bind] in E; try discriminate. specialize (IH y eq_refl Hk).
  destruct r as [key tag|key tag ex df| |]; cbn [row_trees] in Er.
  - destruct (base_get b key) as [v| |] eqn:Eb; cbn [bind] in Er; try discriminate. eapply total_lift_bind; [reflexivity|].
    apply total_bind; [|intros; exact IH]. destruct v as [v|]; [|tt_]. destruct (pval_tostr (Some v)) eqn:Ep; cbn [bind] in Er; try discriminate.
    eapply total_lift_bind; [reflexivity|]. unfold xml_prop. tt_.
  - destruct (base_get b key) as [v| |] eqn:Eb; cbn [bind] in Er; try discriminate. eapply total_lift_bind; [reflexivity|].
    apply total_bind; [|intros; exact IH]. destruct v as [v|].
    + destruct (num2bool v) as [c| |] eqn:Ep; cbn [bind] in Er; try discriminate.
      eapply total_lift_bind; [reflexivity|]. destruct (ex || negb (Bool.eqb c df)); unfold xml_prop; tt_.
    + destruct ex; unfold xml_prop; tt_.
  - destruct (rt_pairs (b_names b)) eqn:Eb; cbn [bind] in Er; try discriminate. eapply total_lift_bind; [reflexivity|]. now apply pairs_total.
  - destruct (rt_pairs (b_descs b)) eqn:Eb; cbn [bind] in Er; try discriminate. eapply total_lift_bind; [reflexivity|]. now apply pairs_total.
Qed.
Lemma each_total {A} (f : A -> wm Z) l : (forall x, total (f x)) -> total (each_xml f l).
Proof. intros H. induction l; cbn [each_xml]; tt_. apply H. Qed.
Lemma members_total {A} tag al (f : A -> wm Z) l k : (forall x, total (f x)) -> total k -> total (members_xml ac tag al f l k).
Proof.
  intros H Hk. destruct l; [destruct al|]; cbn [members_xml]; try exact Hk;
    (apply total_bind; [tt_|intros]; apply total_check, total_bind; [now apply each_total|intros]; tt_).
Qed.
Lemma object_total o tag b rows mx l : (x_arch o = true -> exists a, base_arches b = Ok a) -> rows_trees b rows = Ok l ->
  (forall k, total k -> total (mx k)) -> total (object_xml ac o tag b rows mx).
Proof.
  intros Ha Hr Hm. unfold object_xml. apply total_bind; [tt_|intros]. apply total_check, total_bind.
  { destruct (x_arch o); [|tt_]. destruct (Ha eq_refl) as [x Ex]. eapply total_lift_bind; [exact Ex|]. apply xml_arch_total. }
  intros. apply total_check. eapply rows_total; [exact Hr|]. apply Hm. tt_.
Qed.
Lemma skipped_total b : total (skipped_xml b).
Proof. unfold skipped_xml. eapply total_lift_bind; [unfold base_get; apply rt_get_look|]. tt_. Qed.
Lemma objs_total {A} (f : A -> wm Z) l k : (forall x, In x l -> total (f x)) -> (forall r, total (k r)) -> forall ret, total (objs_xml f l ret k).
Proof.
  intros H Hk. induction l; intros ret; cbn [objs_xml]; [apply Hk|]. apply total_bind; [apply H; now left|intros r]. destruct (r =? -1)%Z; [tt_|].
  apply IHl. intros x Hx. apply H. now right.
Qed.
Lemma entries_total tag ka va l k : total k -> total (entries_xml ac tag ka va l k).
Proof. intros H. induction l as [|[a v] l IH]; cbn [entries_xml]; [exact H|]. tt_. Qed.
Lemma dict_total tag etag ka va l k : total k -> total (dict_xml ac tag etag ka va l k).
Proof. intros H. unfold dict_xml. apply total_bind; [tt_|intros]. apply total_check, entries_total. tt_. Qed.
End Total.

(** What can be written. *)
Definition printable (v : option pval) : Prop := forall z, v = Some (PNum z) -> (0 <= z)%Z.
Definition number (v : option pval) : Prop := v = None \/ exists z, v = Some (PNum z).
Definition prop (b : base) (k : str) (P : option pval -> Prop) : Prop := forall v, base_get b k = Ok v -> P v.
Definition base_printable (o : xopts) (b : base) : Prop :=
  breach b /\ prop b (S_ "id") printable /\ prop b (S_ "name") printable /\ prop b (S_ "desc") printable /\ prop b (S_ "display_order") printable /\
  (x_arch o = true -> prop b (S_ "arches") (fun v => v = None \/ exists l, v = Some (PList l))).
Definition group_printable (o : xopts) (g : group) : Prop :=
  base_printable o (g_base g) /\ prop (g_base g) (S_ "langonly") printable /\ prop (g_base g) (S_ "def") number /\
  prop (g_base g) (S_ "uservisible") number /\ prop (g_base g) (S_ "biarchonly") number.
Definition group_left_out (o : xopts) (g : group) : Prop := g_pkgs g = [] /\ x_empty_groups o = false.
Definition cat_left_out (o : xopts) (c : category) : Prop := c_gids c = [] /\ x_empty_categories o = false.
Definition env_left_out (o : xopts) (e : env) : Prop := e_groups e = [] /\ e_options e = [] /\ x_empty_environments o = false.
Definition doc_printable (o : xopts) (p : parts) : Prop :=
  Forall (fun g => group_left_out o g \/ group_printable o g) (pt_groups p) /\
  Forall (fun c => cat_left_out o c \/ base_printable o (c_base c)) (pt_cats p) /\
  Forall (fun e => env_left_out o e \/ base_printable o (e_base e)) (pt_envs p).

Lemma base_get_ok b k : base_get b k = Ok (look (troot (b_props b)) k).
Proof. unfold base_get. apply rt_get_look. Qed.
Lemma pval_printable v : printable v -> exists s, pval_tostr v = Ok s.
Proof.
  intros H. destruct v as [[s|z|l]|]; cbn [pval_tostr]; eauto.
  - rewrite num_tostr_ok; [eauto|]. now apply H.
  - rewrite list_tostr_ok. eauto.
Qed.
Lemma text_row b key tag : prop b key printable -> exists l, row_trees b (RText key tag) = Ok l.
Proof.
  intros H. cbn [row_trees]. rewrite base_get_ok. cbn [bind]. specialize (H _ (base_get_ok b key)).
  destruct (look (troot (b_props b)) key) as [v|]; [|eauto]. destruct (pval_printable _ H) as [s ->]. cbn. eauto.
Qed.
Lemma bool_row b key tag ex df : prop b key number -> exists l, row_trees b (RBool key tag ex df) = Ok l.
Proof.
  intros H. cbn [row_trees]. rewrite base_get_ok. cbn [bind]. destruct (H _ (base_get_ok b key)) as [->|[z ->]]; cbn [num2bool bind]; eauto.
Qed.
Lemma names_row b : breach b -> exists l, row_trees b RNames = Ok l.
Proof. intros (_ & H & _). cbn [row_trees]. rewrite rt_pairs_ents. cbn. eauto. Qed.
Lemma descs_row b : breach b -> exists l, row_trees b RDescs = Ok l.
Proof. intros (_ & _ & H). cbn [row_trees]. rewrite rt_pairs_ents. cbn. eauto. Qed.
Lemma rows_ok b rows : Forall (fun r => exists l, row_trees b r = Ok l) rows -> exists l, rows_trees b rows = Ok l.
Proof. intros H. induction H as [|r rows [x Ex] _ [y Ey]]; cbn [rows_trees]; [eauto|]. rewrite Ex, Ey. cbn. eauto. Qed.
Lemma group_rows_ok o d g : group_printable o g -> exists l, rows_trees (g_base g) (group_rows o d) = Ok l.
Proof.
  intros ((Hb & H1 & H2 & H3 & H4 & _) & H5 & H6 & H7 & H8). apply rows_ok. unfold group_rows.
  repeat (constructor; [first [now apply text_row | now apply bool_row | now apply names_row | now apply descs_row]|]). constructor.
Qed.
Lemma common_rows_ok o b : base_printable o b -> exists l, rows_trees b common_rows = Ok l.
Proof.
  intros (Hb & H1 & H2 & H3 & H4 & _). apply rows_ok. unfold common_rows.
  repeat (constructor; [first [now apply text_row | now apply bool_row | now apply names_row | now apply descs_row]|]). constructor.
Qed.
Lemma arches_ok o b : base_printable o b -> x_arch o = true -> exists a, base_arches b = Ok a.
Proof.
  intros (_ & _ & _ & _ & _ & H) E. unfold base_arches. rewrite base_get_ok. cbn [bind]. destruct (H E _ (base_get_ok b (S_ "arches"))) as [->|[l ->]]; eauto.
Qed.
Lemma group_total ac o d g : group_left_out o g \/ group_printable o g -> total (group_xml ac o d g).
Proof.
  intros H. unfold group_xml.
  assert (Hk : group_printable o g -> forall l, total (object_xml ac o (S_ "group") (g_base g) (group_rows o d) (members_xml ac (S_ "packagelist") (x_empty_packages o) (pkg_xml ac o) l))).
  { intros Hp l. destruct (group_rows_ok o d g Hp) as [x Ex]. eapply object_total; [apply arches_ok, Hp|exact Ex|]. intros k Hk. apply members_total; [intros; apply pkg_total|exact Hk]. }
  destruct H as [[-> ->]|H]; [apply skipped_total|]. destruct (g_pkgs g); [destruct (x_empty_groups o); [|apply skipped_total]|]; now apply Hk.
Qed.
Lemma category_total ac o g : cat_left_out o g \/ base_printable o (c_base g) -> total (category_xml ac o g).
Proof.
  intros H. unfold category_xml.
  assert (Hk : base_printable o (c_base g) -> forall l, total (object_xml ac o (S_ "category") (c_base g) common_rows (members_xml ac (S_ "grouplist") (x_empty_grouplist o) (gid_xml ac o) l))).
  { intros Hp l. destruct (common_rows_ok o _ Hp) as [x Ex]. eapply object_total; [apply arches_ok, Hp|exact Ex|]. intros k Hk. apply members_total; [intros; apply gid_total|exact Hk]. }
  destruct H as [[-> ->]|H]; [apply skipped_total|]. destruct (c_gids g); [destruct (x_empty_categories o); [|apply skipped_total]|]; now apply Hk.
Qed.
Lemma env_total ac o g : env_left_out o g \/ base_printable o (e_base g) -> total (env_xml ac o g).
Proof.
  intros H. unfold env_xml.
  assert (Hk : base_printable o (e_base g) -> total (object_xml ac o (S_ "environment") (e_base g) common_rows
     (fun k => members_xml ac (S_ "grouplist") (x_empty_grouplist o) (gid_xml ac o) (e_groups g) (members_xml ac (S_ "optionlist") (x_empty_optionlist o) (gid_xml ac o) (e_options g) k)))).
  { intros Hp. destruct (common_rows_ok o _ Hp) as [x Ex]. eapply object_total; [apply arches_ok, Hp|exact Ex|]. intros k Hk.
    apply members_total; [intros; apply gid_total|]. apply members_total; [intros; apply gid_total|exact Hk]. }
  destruct H as [(-> & -> & ->)|H]; [apply skipped_total|]. specialize (Hk H).
  destruct (e_groups g); [destruct (e_options g); [destruct (x_empty_environments o); [|apply skipped_total]|]|]; exact Hk.
Qed.
Lemma mval_tostr_ok v : exists s, mval_tostr v = Ok s.
Proof.
  revert v. fix IH 1. intros [s|l]; cbn [mval_tostr]; [eauto|].
  assert (H : exists ts, (fix go (l : list (mval ostr)) : res (list str) :=
     match l with [] => Ok [] | x :: t => y <- mval_tostr x ;; r <- go t ;; Ok (y :: r) end) l = Ok ts).
  { induction l as [|x l [ts Hl]]; [eauto|]. destruct (IH x) as [y ->]. cbn [bind]. rewrite Hl. cbn. eauto. }
  destruct H as [ts ->]. cbn [bind]. rewrite list_tostr_ok. eauto.
Qed.
Lemma mpairs_ok l : exists ts, mpairs_texts l = Ok ts.
Proof.
  induction l as [|[k vs] l [ts H]]; cbn [mpairs_texts]; [eauto|].
  assert (Hv : exists xs, map_r mval_tostr vs = Ok xs).
  { induction vs as [|v vs [xs Hx]]; cbn [map_r]; [eauto|]. destruct (mval_tostr_ok v) as [s ->]. cbn [bind]. rewrite Hx. cbn. eauto. }
  destruct Hv as [xs ->]. cbn [bind]. rewrite H. cbn. eauto.
Qed.
Lemma mtexts_ok t : mreach t -> exists l, (ps <- mt_pairs t ;; mpairs_texts ps) = Ok l.
Proof. intros H. destruct (md_enum t H) as (ps & -> & _). cbn [bind]. apply mpairs_ok. Qed.
Lemma doc_total ac o df d : docwf d -> d_name d <> None -> d_pubid d <> None -> d_sysid d <> None -> doc_printable o (doc_parts d) -> total (doc_xml ac o df d).
Proof.
  intros Hd Hn Hp Hs (Hg & Hc & He). unfold doc_xml. destruct (d_name d); [|congruence]. destruct (d_pubid d); [|congruence]. destruct (d_sysid d); [|congruence].
  apply total_bind; [tt_|intros]. apply total_bind; [tt_|intros]. apply total_check, total_bind; [tt_|intros]. apply total_check.
  destruct (doc_groups_ok d Hd) as (d1 & E1 & Hd1 & _ & P1). eapply total_lift_bind; [exact E1|]. cbn [fst snd].
  apply objs_total; [intros x Hx; apply group_total; rewrite Forall_forall in Hg; auto|intros r1].
  destruct (doc_cats_ok d1 Hd1) as (d2 & E2 & Hd2 & _ & P2). eapply total_lift_bind; [exact E2|]. cbn [fst snd].
  apply objs_total; [intros x Hx; apply category_total; rewrite Forall_forall in Hc; apply Hc; now rewrite <- P1|intros r2].
  destruct (doc_envs_ok d2 Hd2) as (d3 & E3 & Hd3 & _ & P3). eapply total_lift_bind; [exact E3|]. cbn [fst snd].
  apply objs_total; [intros x Hx; apply env_total; rewrite Forall_forall in He; apply He; now rewrite <- P1, <- P2|intros r3].
  destruct (doc_langpacks_ok d3 Hd3) as (d4 & E4 & Hd4 & _ & P4). eapply total_lift_bind; [exact E4|]. cbn [fst snd]. cbv zeta.
  destruct (doc_blacklist_ok d4 Hd4) as (d5 & E5 & Hd5 & _ & P5). destruct (doc_whiteout_ok d5 Hd5) as (d6 & E6 & Hd6 & _ & P6).
  destruct (parts_wf d3 Hd3) as (_ & _ & _ & Hl & _). destruct (parts_wf d4 Hd4) as (_ & _ & _ & _ & Hb & _). destruct (parts_wf d5 Hd5) as (_ & _ & _ & _ & _ & Hw).
  destruct (mtexts_ok _ Hb) as [lb Eb]. destruct (mtexts_ok _ Hw) as [lw Ew].
  assert (T : total (pw <~ wlift (doc_whiteout d5) ;; if (mlen (snd pw) =? 0)%Z then r <~ emit ac WEnd ;; check r (wret r3)
     else l <~ wlift (ps <- mt_pairs (snd pw) ;; mpairs_texts ps) ;; dict_xml ac (S_ "whiteout") (S_ "ignoredep") (S_ "requires") (S_ "package") l (r <~ emit ac WEnd ;; check r (wret r3)))).
  { eapply total_lift_bind; [exact E6|]. cbn [fst snd]. destruct (mlen _ =? 0)%Z; [tt_|]. eapply total_lift_bind; [exact Ew|]. apply dict_total. tt_. }
  assert (T2 : forall k : wm Z, total k -> total (if (mlen (pt_blacklist (doc_parts d4)) =? 0)%Z then k
     else l <~ wlift (ps <- mt_pairs (pt_blacklist (doc_parts d4)) ;; mpairs_texts ps) ;; dict_xml ac (S_ "blacklist") (S_ "package") (S_ "name") (S_ "arch") l k)).
  { intros k Hk. destruct (mlen _ =? 0)%Z; [exact Hk|]. eapply total_lift_bind; [exact Eb|]. now apply dict_total. }
  destruct (tlen _ =? 0).
  - eapply total_lift_bind; [exact E5|]. cbn [fst snd]. now apply T2.
  - eapply total_lift_bind; [apply rt_pairs_ents|]. apply dict_total. eapply total_lift_bind; [exact E5|]. cbn [fst snd]. now apply T2.
Qed.
Lemma save_total ac name saved x df d : docwf d -> d_name d <> None -> d_pubid d <> None -> d_sysid d <> None -> doc_printable (opt_xopts x) (doc_parts d) ->
  forall w, exists w' r, comps2xml_f ac name saved x df d w = Ok (w', r).
Proof.
  intros Hd Hn Hp Hs Hok. change (total (comps2xml_f ac name saved x df d)). unfold comps2xml_f, unless.
  apply total_bind; [tt_|intros r1]. apply total_bind; [destruct r1; tt_|intros _]. apply total_bind; [now apply doc_total|intros g].
  apply total_bind; [tt_|intros r2]. apply total_bind; [destruct r2; tt_|intros _]. apply total_bind; [destruct saved; tt_|intros _]. tt_.
Qed.

(** ** The objects left out *)
Definition group_left_outb (o : xopts) (g : group) : bool := match g_pkgs g with [] => negb (x_empty_groups o) | _ => false end.
Definition cat_left_outb (o : xopts) (c : category) : bool := match c_gids c with [] => negb (x_empty_categories o) | _ => false end.
Definition env_left_outb (o : xopts) (e : env) : bool :=
  match e_groups e, e_options e with [], [] => negb (x_empty_environments o) | _, _ => false end.
Lemma group_left_outb_iff o g : group_left_outb o g = true <-> group_left_out o g.
Proof. unfold group_left_outb, group_left_out. destruct (g_pkgs g), (x_empty_groups o); cbn; intuition discriminate. Qed.
Lemma cat_left_outb_iff o g : cat_left_outb o g = true <-> cat_left_out o g.
Proof. unfold cat_left_outb, cat_left_out. destruct (c_gids g), (x_empty_categories o); cbn; intuition discriminate. Qed.
Lemma env_left_outb_iff o g : env_left_outb o g = true <-> env_left_out o g.
Proof. unfold env_left_outb, env_left_out. destruct (e_groups g), (e_options g), (x_empty_environments o); cbn; intuition discriminate. Qed.
(** [l] lists, in order, the ids of the objects satisfying [out]. *)
Inductive ids_left {A} (out : A -> Prop) (bs : A -> base) : list A -> list (option pval) -> Prop :=
| IL_nil : ids_left out bs [] []
| IL_out x l v r : out x -> base_get (bs x) (S_ "id") = Ok v -> ids_left out bs l r -> ids_left out bs (x :: l) (v :: r)
| IL_in x l r : ~ out x -> ids_left out bs l r -> ids_left out bs (x :: l) r.
Lemma kept_inl t x : kept t = Ok x -> exists y, x = inl y.
Proof. unfold kept. destruct t; cbn; intros E; inversion E. eauto. Qed.
Lemma skipped_inr b x : skipped b = Ok x -> exists v, x = inr v /\ base_get b (S_ "id") = Ok v.
Proof. unfold skipped. destruct (base_get b (S_ "id")); cbn; intros E; inversion E. eauto. Qed.
Lemma ids_left_ok {A} (out : A -> Prop) bs (f : A -> res (xml + option pval)) l : forall ts,
  (forall x y, f x = Ok y -> (out x /\ exists v, y = inr v /\ base_get (bs x) (S_ "id") = Ok v) \/ (~ out x /\ exists t, y = inl t)) ->
  map_r f l = Ok ts -> ids_left out bs l (ids_of ts).
Proof.
  induction l as [|x l IH]; intros ts H E; cbn [map_r] in E; [inversion E; constructor|].
  destruct (f x) as [y| |] eqn:Ef; cbn [bind] in E; try discriminate. destruct (map_r f l) as [r| |] eqn:Er; cbn [bind] in E; inversion E; subst.
  unfold ids_of. cbn [flat_map]. destruct (H _ _ Ef) as [(Ho & v & -> & Ev)|(Ho & t & ->)]; cbn [app]; [apply IL_out; auto; apply IH; auto|apply IL_in; auto; apply IH; auto].
Qed.
Lemma group_out o d g y : group_tree o d g = Ok y ->
  (group_left_out o g /\ exists v, y = inr v /\ base_get (g_base g) (S_ "id") = Ok v) \/ (~ group_left_out o g /\ exists t, y = inl t).
Proof.
  unfold group_tree, group_left_out. destruct (g_pkgs g); [destruct (x_empty_groups o)|]; intros E;
    try (right; split; [intuition discriminate|]; now apply kept_inl in E). left. split; [auto|]. now apply skipped_inr.
Qed.
Lemma cat_out o g y : category_tree o g = Ok y ->
  (cat_left_out o g /\ exists v, y = inr v /\ base_get (c_base g) (S_ "id") = Ok v) \/ (~ cat_left_out o g /\ exists t, y = inl t).
Proof.
  unfold category_tree, cat_left_out. destruct (c_gids g); [destruct (x_empty_categories o)|]; intros E;
    try (right; split; [intuition discriminate|]; now apply kept_inl in E). left. split; [auto|]. now apply skipped_inr.
Qed.
Lemma env_out o g y : env_tree o g = Ok y ->
  (env_left_out o g /\ exists v, y = inr v /\ base_get (e_base g) (S_ "id") = Ok v) \/ (~ env_left_out o g /\ exists t, y = inl t).
Proof.
  unfold env_tree, env_left_out. destruct (e_groups g); [destruct (e_options g); [destruct (x_empty_environments o)|]|]; intros E;
    try (right; split; [intuition discriminate|]; now apply kept_inl in E). left. split; [auto|]. now apply skipped_inr.
Qed.
Lemma map_r_len {A B} (f : A -> res B) l : forall r, map_r f l = Ok r -> length r = length l.
Proof.
  induction l as [|x l IH]; intros r E; cbn [map_r] in E; [inversion E; reflexivity|].
  destruct (f x); cbn [bind] in E; try discriminate. destruct (map_r f l) eqn:Er; cbn [bind] in E; inversion E; subst. cbn. f_equal. now apply IH.
Qed.
Lemma tree_ids o df d x : docwf d -> doc_tree o df d = Ok x ->
  exists ig ic ie, snd x = ig ++ ic ++ ie /\ ids_left (group_left_out o) g_base (pt_groups (doc_parts d)) ig /\
    ids_left (cat_left_out o) c_base (pt_cats (doc_parts d)) ic /\ ids_left (env_left_out o) e_base (pt_envs (doc_parts d)) ie.
Proof.
  intros Hd. unfold doc_tree.
  destruct (doc_groups_ok d Hd) as (d1 & -> & Hd1 & _ & P1). cbn [bind fst snd]. intros E.
  destruct (map_r (group_tree o df) _) as [gs| |] eqn:Eg; cbn [bind] in E; try discriminate.
  destruct (doc_cats_ok d1 Hd1) as (d2 & E2 & Hd2 & _ & P2). rewrite E2 in E. cbn [bind fst snd] in E.
  destruct (map_r (category_tree o) _) as [cs| |] eqn:Ec; cbn [bind] in E; try discriminate.
  destruct (doc_envs_ok d2 Hd2) as (d3 & E3 & Hd3 & _ & P3). rewrite E3 in E. cbn [bind fst snd] in E.
  destruct (map_r (env_tree o) _) as [es| |] eqn:Ee; cbn [bind] in E; try discriminate.
  repeat match type of E with bind ?m _ = Ok _ => destruct m; cbn [bind] in E; try discriminate end.
  inversion E; subst. cbn [snd]. exists (ids_of gs), (ids_of cs), (ids_of es). split; [reflexivity|].
  rewrite P2, P1 in Ee. rewrite P1 in Ec.
  split; [|split]; (eapply ids_left_ok; [|eassumption]); [apply group_out|apply cat_out|apply env_out].
Qed.

(** C45 *)
Lemma save_result ac name saved x df d w' r : docwf d -> comps2xml_f ac name saved x df d w0 = Ok (w', r) -> Forall (fun c => snd c = true) (w_calls w') ->
  exists ig ic ie, let n := length (ig ++ ic ++ ie) in
    ids_left (group_left_out (opt_xopts x)) g_base (pt_groups (doc_parts d)) ig /\
    ids_left (cat_left_out (opt_xopts x)) c_base (pt_cats (doc_parts d)) ic /\
    ids_left (env_left_out (opt_xopts x)) e_base (pt_envs (doc_parts d)) ie /\
    w_log w' = map (fun v => (E_PKGLIST_EMPTY, [v])) (ig ++ ic ++ ie) ++ (if saved then [] else [(E_WRITEF, [Some (PStr (Some name))])]) /\
    (exists q, r = Z.of_nat n + 256 * q)%Z /\ (-128 <= r <= 127)%Z.
Proof.
  intros Hd E Ha. destruct (xml_f_calls _ _ _ _ _ _ _ _ E Ha) as (n & p & s & t & _ & _ & _ & Et & _ & El & Er).
  destruct (tree_ids _ _ _ _ Hd Et) as (ig & ic & ie & Es & Hg & Hc & He). exists ig, ic, ie. cbv zeta. rewrite Es in *.
  do 3 (split; [assumption|]). split; [exact El|]. subst r. split; [|apply schar8_in].
  unfold schar8. exists (- ((Z.of_nat (length (ig ++ ic ++ ie)) + 128) / 256))%Z. pose proof (Z.div_mod (Z.of_nat (length (ig ++ ic ++ ie)) + 128) 256 ltac:(lia)). lia.
Qed.
