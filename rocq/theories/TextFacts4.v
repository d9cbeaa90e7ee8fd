(** Saved documents have the shape that TextFacts2 reads; the printed bytes are
    XML characters. *)
From Coq Require Import NArith.
From Verif Require Import CStr CStrFacts HSListModel RTreeModel MRTreeModel ObjModel StrModel ParseModel DocModel XmlModel XmlFacts SpecF SpecG SpecG2 SpecG7
  Utf8Facts TextModel TextFacts TextFacts2 TextFacts3.

(** ** Shape *)
Definition oknameb (n : str) : bool := match n with [] => false | _ => forallb name_char n end.
Lemma oknameb_iff n : oknameb n = true -> okname n.
Proof. destruct n; [discriminate|]. intros H. split; [discriminate|]. apply Forall_forall. now apply forallb_forall. Qed.
Ltac okn := apply oknameb_iff; reflexivity.
Lemma okattrs_of a : Forall (fun k => oknameb k = true) (map fst a) -> NoDup (map fst a) -> okattrs a.
Proof. intros H1 H2. split; [|exact H2]. rewrite Forall_map in H1. eapply Forall_impl; [|exact H1]. intros kv. apply oknameb_iff. Qed.
Ltac oka := apply okattrs_of; [repeat constructor|nd].
Lemma arch_okattrs o l a b : arch_attr o l = Ok a -> Forall (fun k => oknameb k = true /\ k <> S_ "arch") (map fst b) -> NoDup (map fst b) -> okattrs (a ++ b).
Proof.
  intros Ea Hb Hn. apply okattrs_of; rewrite map_app.
  - apply Forall_app. split; [destruct (arch_attr_names _ _ _ Ea) as [-> | ->]; repeat constructor|]. eapply Forall_impl; [|exact Hb]. now intros k [H _].
  - destruct (arch_attr_names _ _ _ Ea) as [-> | ->]; [exact Hn|]. cbn [app]. constructor; [|exact Hn]. intros Hi. rewrite Forall_forall in Hb. destruct (Hb _ Hi) as [_ H]. congruence.
Qed.
Ltac fa_nd := match goal with |- NoDup _ => nd | _ => repeat (apply Forall_cons; [split; [reflexivity|discriminate]|]); apply Forall_nil end.
Lemma pkg_shaped o p t : pkg_tree o p = Ok t -> shaped t.
Proof.
  unfold pkg_tree. destruct (arch_attr o (p_arches p)) as [a| |] eqn:Ea; try discriminate. cbn [bind]. intros E. inversion E; subst. clear E.
  apply SH_text; [okn|]. eapply arch_okattrs; [exact Ea| |];
    (destruct (p_requires p) as [s|]; [destruct (str_tostr s)|]);
    (destruct (x_bao o); [|destruct (p_bao p) as [z|]; [destruct (z =? 0)%Z|]]); cbn [map app fst]; fa_nd.
Qed.
Lemma gid_shaped o p t : gid_tree o p = Ok t -> shaped t.
Proof.
  unfold gid_tree. destruct (arch_attr o (gi_arches p)) as [a| |] eqn:Ea; try discriminate. cbn [bind]. intros E. inversion E; subst. clear E.
  apply SH_text; [okn|]. eapply arch_okattrs; [exact Ea| |]; destruct (x_gid_default o || gi_def p); cbn [map app fst]; fa_nd.
Qed.
Lemma prop_shaped tag s : oknameb tag = true -> shaped (prop_tree tag s).
Proof. intros H. apply SH_text; [now apply oknameb_iff|oka]. Qed.
Lemma lang_shaped tag l : oknameb tag = true -> shapeds (map (lang_tree tag) l).
Proof. intros H. induction l as [|kv l IH]; cbn [map]; constructor; [|exact IH]. apply SH_text; [now apply oknameb_iff|oka]. Qed.
Definition row_okb (r : row) : bool := match r with RText _ t | RBool _ t _ _ => oknameb t | _ => true end.
Lemma row_shaped b r l : row_okb r = true -> row_trees b r = Ok l -> shapeds l.
Proof.
  intros Hr. destruct r as [key tag|key tag ex df| |]; cbn [row_trees]; cbn [row_okb] in Hr.
  - destruct (base_get b key) as [[v|]| |]; cbn [bind]; try discriminate.
    + destruct (pval_tostr (Some v)); cbn [bind]; intros E; inversion E. constructor; [now apply prop_shaped|constructor].
    + intros E; inversion E. constructor.
  - destruct (base_get b key) as [[v|]| |]; cbn [bind]; try discriminate.
    + destruct (num2bool v) as [c| |]; cbn [bind]; try discriminate. destruct (ex || negb (Bool.eqb c df)); intros E; inversion E; constructor; [now apply prop_shaped|constructor].
    + destruct ex; intros E; inversion E; constructor; [now apply prop_shaped|constructor].
  - destruct (rt_pairs (b_names b)); cbn [bind]; intros E; inversion E. now apply lang_shaped.
  - destruct (rt_pairs (b_descs b)); cbn [bind]; intros E; inversion E. now apply lang_shaped.
Qed.
Lemma rows_shaped b rows : forall l, forallb row_okb rows = true -> rows_trees b rows = Ok l -> shapeds l.
Proof.
  induction rows as [|r rows IH]; cbn [rows_trees forallb]; intros l Hr E; [inversion E; constructor|]. apply andb_true_iff in Hr. destruct Hr as [Hr Hr'].
  destruct (row_trees b r) as [x| |] eqn:Er; cbn [bind] in E; try discriminate.
  destruct (rows_trees b rows) as [y| |] eqn:Ey; cbn [bind] in E; inversion E; subst. apply shapeds_app. split; [now apply (row_shaped b r)|now apply IH].
Qed.
Lemma map_r_shaped {A} (f : A -> res xml) l : forall ts, (forall x t, f x = Ok t -> shaped t) -> map_r f l = Ok ts -> shapeds ts.
Proof.
  induction l as [|x l IH]; cbn [map_r]; intros ts H E; [inversion E; constructor|].
  destruct (f x) as [t| |] eqn:Ef; cbn [bind] in E; try discriminate. destruct (map_r f l) as [r| |] eqn:Er; cbn [bind] in E; inversion E; subst.
  constructor; [eauto|now apply IH].
Qed.
Lemma members_shaped {A} tag al (f : A -> res xml) l ts : oknameb tag = true -> (forall x t, f x = Ok t -> shaped t) -> members_trees tag al f l = Ok ts -> shapeds ts.
Proof.
  intros Ht H. assert (E : forall l', (ts <- map_r f l' ;; Ok [Elem tag [] ts]) = Ok ts -> shapeds ts).
  { intros l' E. destruct (map_r f l') as [x| |] eqn:Em; cbn [bind] in E; inversion E. constructor; [|constructor]. apply SH_elem; [now apply oknameb_iff|oka|]. eapply map_r_shaped; eauto. }
  unfold members_trees. destruct l; [destruct al|]; try apply E. intros E'. inversion E'. constructor.
Qed.
Lemma object_shaped o tag b rows ms t : oknameb tag = true -> forallb row_okb rows = true -> (forall l, ms = Ok l -> shapeds l) -> object_tree o tag b rows ms = Ok t -> shaped t.
Proof.
  intros Ht Hr Hm. unfold object_tree. intros E.
  destruct (if x_arch o then _ else _) as [a| |] eqn:Ea; cbn [bind] in E; try discriminate.
  destruct (rows_trees b rows) as [x| |] eqn:Ex; cbn [bind] in E; try discriminate. destruct ms as [m| |]; cbn [bind] in E; inversion E; subst.
  apply SH_elem; [now apply oknameb_iff| |apply shapeds_app; split; [now apply (rows_shaped b rows)|now apply Hm]].
  destruct (x_arch o) eqn:Eo; [|inversion Ea; oka]. destruct (base_arches b) as [l| |]; cbn [bind] in Ea; try discriminate.
  rewrite <- (app_nil_r a). eapply arch_okattrs; [exact Ea|constructor|constructor].
Qed.
Definition oshaped (x : xml + option pval) : Prop := match x with inl t => shaped t | inr _ => True end.
Lemma skipped_shaped b x : skipped b = Ok x -> oshaped x.
Proof. unfold skipped. destruct (base_get b (S_ "id")); cbn; intros E; inversion E. exact I. Qed.
Lemma kept_shaped t x : (forall y, t = Ok y -> shaped y) -> kept t = Ok x -> oshaped x.
Proof. unfold kept. destruct t as [y| |]; cbn; intros H E; inversion E. now apply H. Qed.
Lemma group_shaped o d g x : group_tree o d g = Ok x -> oshaped x.
Proof.
  unfold group_tree. destruct (g_pkgs g) eqn:Eg; [destruct (x_empty_groups o); [|apply skipped_shaped]|]; apply kept_shaped; intros y; (apply object_shaped; [reflexivity|reflexivity|]);
    intros ll; (apply members_shaped; [reflexivity|]); apply pkg_shaped.
Qed.
Lemma category_shaped o g x : category_tree o g = Ok x -> oshaped x.
Proof.
  unfold category_tree. destruct (c_gids g) eqn:Eg; [destruct (x_empty_categories o); [|apply skipped_shaped]|]; apply kept_shaped; intros y; (apply object_shaped; [reflexivity|reflexivity|]);
    intros ll; (apply members_shaped; [reflexivity|]); apply gid_shaped.
Qed.
Lemma env_shaped o g x : env_tree o g = Ok x -> oshaped x.
Proof.
  unfold env_tree.
  assert (H : forall a b l, (g <- members_trees (S_ "grouplist") (x_empty_grouplist o) (gid_tree o) a ;;
       p <- members_trees (S_ "optionlist") (x_empty_optionlist o) (gid_tree o) b ;; Ok (g ++ p)) = Ok l -> shapeds l).
  { intros a b l E. destruct (members_trees (S_ "grouplist") _ _ a) as [m| |] eqn:Em; cbn [bind] in E; try discriminate.
    destruct (members_trees (S_ "optionlist") _ _ b) as [n| |] eqn:En; cbn [bind] in E; inversion E. apply shapeds_app.
    split; [eapply members_shaped in Em|eapply members_shaped in En]; auto; apply gid_shaped. }
  destruct (e_groups g) eqn:Eg; [destruct (e_options g) eqn:Eo; [destruct (x_empty_environments o); [|apply skipped_shaped]|]|];
    apply kept_shaped; intros y; (apply object_shaped; [reflexivity|reflexivity|]); apply H.
Qed.
Lemma map_r_oshaped {A} (f : A -> res (xml + option pval)) l : forall ts, (forall x t, f x = Ok t -> oshaped t) -> map_r f l = Ok ts -> shapeds (trees_of ts).
Proof.
  induction l as [|x l IH]; cbn [map_r]; intros ts H E; [inversion E; constructor|].
  destruct (f x) as [t| |] eqn:Ef; cbn [bind] in E; try discriminate. destruct (map_r f l) as [r| |] eqn:Er; cbn [bind] in E; inversion E; subst.
  apply H in Ef. unfold trees_of. cbn [flat_map]. apply shapeds_app. split; [destruct t; repeat constructor; exact Ef|now apply IH].
Qed.
Lemma dict_shaped tag etag ka va l : forallb oknameb [tag; etag; ka; va] = true -> ka <> va -> shaped (dict_tree tag etag ka va l).
Proof.
  cbn [forallb]. rewrite !andb_true_iff. intros (Ht & He & Hk & Hv & _) H. apply SH_elem; [now apply oknameb_iff|oka|]. induction l as [|kv l IH]; cbn [map]; constructor; [|exact IH].
  apply SH_elem; [now apply oknameb_iff| |constructor]. apply okattrs_of; cbn; [now repeat constructor|]. constructor; [intros [E|[]]; congruence|]. constructor; [intros []|constructor].
Qed.
Lemma mdict_shaped tag etag ka va t l : forallb oknameb [tag; etag; ka; va] = true -> ka <> va -> mdict_trees tag etag ka va t = Ok l -> shapeds l.
Proof.
  unfold mdict_trees. intros Hf Hk. destruct (mlen t =? 0)%Z; [intros E; inversion E; constructor|].
  destruct (ps <- mt_pairs t ;; mpairs_texts ps); cbn [bind]; intros E; inversion E. constructor; [now apply dict_shaped|constructor].
Qed.
Lemma doc_tree_shaped o df d x : doc_tree o df d = Ok x -> shaped (fst x).
Proof.
  unfold doc_tree. intros E.
  repeat match type of E with bind ?m _ = Ok _ => let H := fresh "H" in destruct m eqn:H; cbn [bind] in E; try discriminate end.
  inversion E; subst. cbn [fst]. apply SH_elem; [okn|oka|].
  repeat (apply shapeds_app; split).
  - eapply map_r_oshaped; [|eassumption]. apply group_shaped.
  - eapply map_r_oshaped; [|eassumption]. apply category_shaped.
  - eapply map_r_oshaped; [|eassumption]. apply env_shaped.
  - unfold langpack_trees in *. destruct (tlen _ =? 0); [inversion H6; constructor|]. destruct (rt_pairs _); cbn [bind] in H6; inversion H6.
    constructor; [|constructor]. apply dict_shaped; [reflexivity|discriminate].
  - eapply mdict_shaped; [| |eassumption]; [reflexivity|discriminate].
  - eapply mdict_shaped; [| |eassumption]; [reflexivity|discriminate].
Qed.

(** ** XML characters *)
Lemma xml_nil : xml_text [].
Proof. exists []. split; [constructor|reflexivity]. Qed.
Lemma xml_app a b : xml_text a -> xml_text b -> xml_text (a ++ b).
Proof. intros (x & Hx & ->) (y & Hy & ->). exists (x ++ y). split; [now apply Forall_app|now rewrite flat_map_app]. Qed.
Definition xml_byte (c : ascii) : bool := let n := N_of_ascii c in ((n =? 9) || (n =? 10) || (n =? 13) || (32 <=? n) && (n <? 128))%N.
Lemma xml_ascii s : forallb xml_byte s = true -> xml_text s.
Proof.
  induction s as [|c s IH]; [intros _; apply xml_nil|]. cbn [forallb]. intros H. apply andb_true_iff in H. destruct H as [Hc H].
  change (c :: s) with ([c] ++ s). apply xml_app; [|now apply IH]. exists [N_of_ascii c]. split.
  - constructor; [|constructor]. unfold xml_byte in Hc. unfold xml_char. rewrite !orb_true_iff, andb_true_iff, !N.eqb_eq, N.leb_le, N.ltb_lt in Hc. lia.
  - cbn [flat_map]. unfold encode. replace (N_of_ascii c <? 128)%N with true.
    + cbn [map app]. now rewrite ascii_N_embedding.
    + symmetry. apply N.ltb_lt. unfold xml_byte in Hc. rewrite !orb_true_iff, andb_true_iff, !N.eqb_eq, N.leb_le, N.ltb_lt in Hc. lia.
Qed.
Lemma xml_cons c s : xml_byte c = true -> xml_text s -> xml_text (c :: s).
Proof. intros Hc Hs. change (c :: s) with ([c] ++ s). apply xml_app; [|exact Hs]. apply xml_ascii. cbn. now rewrite Hc. Qed.
Lemma xml_concat l : Forall xml_text l -> xml_text (concat l).
Proof. induction 1; cbn [concat]; [apply xml_nil|now apply xml_app]. Qed.
Lemma xml_flat {A} (f : A -> str) l : (forall x, In x l -> xml_text (f x)) -> xml_text (flat_map f l).
Proof. intros H. rewrite flat_map_concat_map. apply xml_concat, Forall_map, Forall_forall. exact H. Qed.
(** Replacing bytes of ASCII by texts of ASCII. *)
Lemma big_bytes c b : xml_char c -> (128 <= c)%N -> In b (encode c) -> (128 <= N_of_ascii b)%N.
Proof.
  intros Hc H Hb. unfold encode in Hb. assert (E : (c <? 128)%N = false) by now apply N.ltb_ge. rewrite E in Hb. clear E.
  assert (B : forall n, (128 <= n < 256)%N -> b = ascii_of_N n -> (128 <= N_of_ascii b)%N) by (intros n Hn ->; rewrite N_ascii_embedding; lia).
  unfold xml_char in Hc.
  destruct (c <? 2048)%N eqn:E1; [|destruct (c <? 65536)%N eqn:E2]; cbn [map In] in Hb; try apply N.ltb_lt in E1; try apply N.ltb_ge in E1; try apply N.ltb_lt in E2; try apply N.ltb_ge in E2;
    repeat (destruct Hb as [Hb|Hb]; [eapply B; [|symmetry; exact Hb]; nz|]); elim Hb.
Qed.
Lemma xml_replace (f : ascii -> str) s : (forall c, (128 <= N_of_ascii c)%N -> f c = [c]) -> (forall c, xml_byte c = true -> xml_text (f c)) ->
  xml_text s -> xml_text (flat_map f s).
Proof.
  intros H1 H2 (cs & Hcs & ->). induction Hcs as [|c cs Hc _ IH]; [apply xml_nil|]. cbn [flat_map]. rewrite flat_map_app. apply xml_app; [|exact IH].
  destruct (N.lt_ge_cases c 128) as [L|L].
  - unfold encode. assert (E : (c <? 128)%N = true) by now apply N.ltb_lt. rewrite E. cbn [map flat_map]. rewrite app_nil_r. apply H2.
    unfold xml_byte. rewrite N_ascii_embedding by lia. rewrite !orb_true_iff, andb_true_iff, !N.eqb_eq, N.leb_le, N.ltb_lt. unfold xml_char in Hc. lia.
  - replace (flat_map f (encode c)) with (encode c); [exists [c]; split; [constructor; [exact Hc|constructor]|cbn; now rewrite app_nil_r]|].
    assert (K : forall b, In b (encode c) -> f b = [b]) by (intros b Hb; apply H1; now apply (big_bytes c)). revert K. generalize (encode c). clear.
    induction s as [|b s IH]; intros K; [reflexivity|]. cbn [flat_map]. rewrite K by now left. cbn [app]. f_equal. apply IH. intros x Hx. apply K. now right.
Qed.
Lemma xml_esc_text s : xml_text s -> xml_text (flat_map esc_text s).
Proof.
  apply xml_replace; unfold esc_text; intros c Hc.
  - repeat match goal with |- context [Ascii.eqb c ?x] => destruct (Ascii.eqb_spec c x) as [->|_]; [exfalso; vm_compute in Hc; congruence|] end. reflexivity.
  - repeat match goal with |- context [Ascii.eqb c ?x] => destruct (Ascii.eqb_spec c x) as [->|_]; [apply xml_ascii; reflexivity|] end. apply xml_ascii. cbn. now rewrite Hc.
Qed.
Lemma xml_esc_attr s : xml_text s -> xml_text (flat_map esc_attr s).
Proof.
  apply xml_replace; unfold esc_attr; intros c Hc.
  - repeat match goal with |- context [Ascii.eqb c ?x] => destruct (Ascii.eqb_spec c x) as [->|_]; [exfalso; vm_compute in Hc; congruence|] end. reflexivity.
  - repeat match goal with |- context [Ascii.eqb c ?x] => destruct (Ascii.eqb_spec c x) as [->|_]; [apply xml_ascii; reflexivity|] end. apply xml_ascii. cbn. now rewrite Hc.
Qed.
(** The strings in calls. *)
Definition some_of (s : ostr) : list str := match s with Some s => [s] | None => [] end.
Definition call_strs (c : call) : list str :=
  match c with
  | WStartDoc e => [e]
  | WDTD n p s => some_of n ++ some_of p ++ some_of s
  | WStart n => [n]
  | WAttr k v => [k; v]
  | WText s => [s]
  | _ => []
  end.
Definition strs (cs : list call) : list str := flat_map call_strs cs.
Lemma strs_app a b : strs (a ++ b) = strs a ++ strs b.
Proof. apply flat_map_app. Qed.
Lemma xml_indent k : xml_text (indent k).
Proof. unfold indent. apply xml_concat. induction k; cbn [repeat]; constructor; [now apply xml_ascii|assumption]. Qed.
Lemma xml_attrs a : Forall xml_text (strs (map attr_call a)) -> xml_text (flat_map attr_bytes a).
Proof.
  induction a as [|[k v] a IH]; cbn; [intros _; apply xml_nil|]. intros H. apply Forall_cons_iff in H. destruct H as [Hk H]. apply Forall_cons_iff in H. destruct H as [Hv H].
  apply xml_cons; [reflexivity|]. rewrite <- app_assoc. apply xml_app; [exact Hk|]. cbn [app]. apply xml_cons; [reflexivity|]. apply xml_cons; [reflexivity|].
  rewrite <- app_assoc. apply xml_app; [now apply xml_esc_attr|]. apply xml_cons; [reflexivity|]. now apply IH.
Qed.
Lemma size_in x b : In x b -> size x <= list_sum (map size b).
Proof. induction b as [|y b IH]; [intros []|]. change (list_sum (map size (y :: b))) with (size y + list_sum (map size b)). intros [->|H]; [lia|]. specialize (IH H). lia. Qed.
Lemma print_xml k : forall t fmt lv, size t < k -> Forall xml_text (strs (ser t)) -> xml_text (print fmt lv t).
Proof.
  induction k as [|k IH]; intros t fmt lv Hk H; [lia|]. destruct t as [n a b|s]; cbn [print]; [|apply xml_esc_text; cbn in H; now apply Forall_inv in H].
  - cbn [ser] in H. unfold strs in H. cbn [flat_map call_strs app] in H. apply Forall_cons_iff in H. destruct H as [Hn H]. rewrite !flat_map_app in H.
    apply Forall_app in H. destruct H as [Ha H]. apply Forall_app in H. destruct H as [Hb _].
    apply xml_cons; [reflexivity|]. apply xml_app; [exact Hn|]. apply xml_app; [now apply xml_attrs|].
    destruct (existsb node_of b); [|apply xml_ascii; reflexivity]. apply xml_cons; [reflexivity|]. apply xml_app.
    + apply xml_flat. intros x Hx. destruct (node_of x); [|apply xml_nil]. apply xml_app.
      * destruct (fmt && negb (existsb is_text b)); [|apply xml_nil]. apply xml_cons; [reflexivity|apply xml_indent].
      * apply IH; [pose proof (size_in x b Hx); cbn [size] in Hk; lia|]. rewrite Forall_forall in Hb |- *. intros s Hs. apply Hb.
        unfold strs in Hs. apply in_flat_map in Hs. destruct Hs as (c & Hc & Hs). apply in_flat_map. exists c. split; [|exact Hs]. apply in_flat_map. now exists x.
    + apply xml_app; [destruct (fmt && negb (existsb is_text b)); [apply xml_cons; [reflexivity|apply xml_indent]|apply xml_nil]|].
      cbn [app]. apply xml_cons; [reflexivity|]. apply xml_cons; [reflexivity|]. apply xml_app; [exact Hn|now apply xml_ascii].
Qed.
Lemma xml_quoted s : xml_text s -> xml_text (quoted s).
Proof.
  intros H. unfold quoted. destruct (existsb (Ascii.eqb DQ) s); [destruct (existsb (Ascii.eqb SQ) s)|]; (apply xml_cons; [reflexivity|]); (apply xml_app; [|now apply xml_ascii]); try exact H.
  apply xml_replace; [| |exact H]; intros c Hc.
  - destruct (Ascii.eqb_spec c DQ) as [->|_]; [exfalso; vm_compute in Hc; congruence|reflexivity].
  - destruct (Ascii.eqb_spec c DQ) as [->|_]; [now apply xml_ascii|]. apply xml_ascii. cbn. now rewrite Hc.
Qed.
Lemma dtd_xml n p s d : dtd_bytes n p s = Some d -> Forall xml_text (some_of n ++ some_of p ++ some_of s) -> xml_text d.
Proof.
  destruct n as [n|], p as [p|], s as [s|]; cbn [dtd_bytes some_of app]; intros E H; try discriminate; injection E as <-;
    repeat (apply Forall_cons_iff in H; let H0 := fresh "H0" in destruct H as [H0 H]);
    repeat first [apply xml_cons; [reflexivity|]|apply xml_app; [first [assumption|apply xml_quoted; assumption]|]]; apply xml_nil.
Qed.
Lemma file_xml n p s t b : shaped t -> printed (file_calls n p s t) = Some b -> Forall xml_text (strs (file_calls n p s t)) -> xml_text b.
Proof.
  intros Ht Hb Hx. assert (Hd : exists d, dtd_bytes n p s = Some d).
  { unfold file_calls, dtd_calls, printed in Hb. cbn [app] in Hb. destruct (dtd_bytes n p s); [eauto|discriminate]. }
  destruct Hd as (d & Hd). rewrite (printed_file n p s t d Ht Hd) in Hb. assert (Eb : b = xml_head ++ d ++ LF :: print true 0 t ++ [LF]) by congruence. subst b. clear Hb.
  unfold file_calls, dtd_calls in Hx. unfold strs in Hx. cbn [flat_map call_strs app] in Hx. apply Forall_cons_iff in Hx. destruct Hx as [_ Hx].
  apply Forall_app in Hx. destruct Hx as [Hx1 Hx2]. rewrite flat_map_app in Hx2. apply Forall_app in Hx2. destruct Hx2 as [Hx2 _].
  apply xml_app; [now apply xml_ascii|]. apply xml_app; [eapply dtd_xml; [exact Hd|exact Hx1]|]. apply xml_cons; [reflexivity|]. apply xml_app; [|now apply xml_ascii].
  apply (print_xml (S (size t))); [lia|exact Hx2].
Qed.
