(** Specifications for documents, continued: filter, queries, comparison. *)
From Verif Require Import CStr CStrFacts HSListModel HSListFacts SetModel SetFacts
  RTreeModel RTreeFacts RTreeFacts2 RTreeFacts3 RTreeFacts4 MRTreeModel MRTreeFacts MRTreeFacts2
  SpecA SpecB ObjModel ObjFacts ObjFacts2 SpecC DocModel DocFacts DocFacts2 SpecD.

(** ** Architecture filter *)
Lemma Forall2_map_filter {A} (rel : A -> A -> Prop) (f : A -> A) k l : (forall x, In x l -> rel x (f x)) ->
  Forall2 rel (filter k l) (map f (filter k l)).
Proof.
  intros H. assert (H' : forall x, In x (filter k l) -> rel x (f x)) by (intros x Hx; apply filter_In in Hx; now apply H).
  induction (filter k l) as [|x r IH]; cbn; constructor; [apply H'; now left|]. apply IH. intros; apply H'; now right.
Qed.
Lemma filter_spec d arches : docwf d -> d_enc d <> None -> doc_arches_proper d ->
  exists d', doc_arch_filter d arches = Ok d' /\ docwf d' /\ fresh_head (d_enc d) d' /\
    objs_filtered g_base (group_filtered arches) arches (pt_groups (doc_parts d)) (pt_groups (doc_parts d')) /\
    objs_filtered c_base (category_filtered arches) arches (pt_cats (doc_parts d)) (pt_cats (doc_parts d')) /\
    objs_filtered e_base (env_filtered arches) arches (pt_envs (doc_parts d)) (pt_envs (doc_parts d')) /\
    pt_langpacks (doc_parts d') = rt_create /\ pt_blacklist (doc_parts d') = mt_create /\ pt_whiteout (doc_parts d') = mt_create.
Proof.
  intros Hd He Ha. destruct (d_enc d) as [e|] eqn:Ee; [|congruence]. destruct (parts_wf d Hd) as (G & C & E & _).
  rewrite Forall_forall in G, C, E. destruct (members_filter arches) as (F1 & F2 & F3).
  destruct (doc_filter_wf d e arches Hd Ee Ha) as (d' & Ef & Hd' & Hh & P1). exists d'. split; [exact Ef|]. rewrite P1.
  split; [exact Hd'|]. split; [exact Hh|]. cbn. split; [|split; [|split; [|auto]]].
  - exists (keepf g_base arches). split; [intros; apply arch_ok_iff|]. apply Forall2_map_filter. intros x Hx. apply F1, G, Hx.
  - exists (keepf c_base arches). split; [intros; apply arch_ok_iff|]. apply Forall2_map_filter. intros x Hx. apply F2, C, Hx.
  - exists (keepf e_base arches). split; [intros; apply arch_ok_iff|]. apply Forall2_map_filter. intros x Hx. apply F3, E, Hx.
Qed.

Lemma obj_arches_same a b : same_base a b -> obj_arches a = obj_arches b.
Proof. intros (H & _). unfold obj_arches. now rewrite H. Qed.
Lemma arches_proper_same a b : same_base a b -> arches_proper b -> arches_proper a.
Proof. intros (H & _) Hp v E. apply Hp. now rewrite <- H. Qed.

Lemma refilter {A} (base_of : A -> base) (flt : A -> list ostr -> A) (eqA : A -> A -> Prop) (ok : A -> Prop) arches l :
  (forall x, ok x -> same_base (base_of (flt x arches)) (base_of x)) ->
  (forall x, ok x -> eqA (flt (flt x arches) arches) (flt x arches)) ->
  Forall ok l ->
  let out := map (fun x => flt x arches) (filter (keepf base_of arches) l) in
  Forall2 eqA (map (fun x => flt x arches) (filter (keepf base_of arches) out)) out.
Proof.
  intros H1 H2 Hl out.
  assert (E : filter (keepf base_of arches) out = out).
  { unfold out. clear out. induction Hl as [|x l Hx Hl IH]; cbn; [reflexivity|].
    destruct (keepf base_of arches x) eqn:Ek; [|exact IH]. cbn. unfold keepf in *. rewrite (obj_arches_same _ _ (H1 x Hx)), Ek.
    now rewrite IH. }
  rewrite E. unfold out. clear E out. induction Hl as [|x l Hx Hl IH]; cbn; [constructor|].
  destruct (keepf base_of arches x); [|exact IH]. cbn. constructor; auto.
Qed.
Lemma filter_idempotent d arches d' : docwf d -> doc_arches_proper d -> doc_arch_filter d arches = Ok d' ->
  exists d'', doc_arch_filter d' arches = Ok d'' /\
    Forall2 group_equal (pt_groups (doc_parts d'')) (pt_groups (doc_parts d')) /\
    Forall2 category_equal (pt_cats (doc_parts d'')) (pt_cats (doc_parts d')) /\
    Forall2 env_equal (pt_envs (doc_parts d'')) (pt_envs (doc_parts d')).
Proof.
  intros Hd Ha Ef. destruct (d_enc d) as [e|] eqn:Ee.
  2:{ rewrite (proj2 (proj2 (no_encoding d d arches Hd Ee))) in Ef. discriminate. }
  destruct (doc_filter_wf d e arches Hd Ee Ha) as (d1 & Ef1 & Hd1 & Hh1 & P1). assert (d1 = d') as -> by congruence.
  destruct (parts_wf d Hd) as (G & C & E & _). destruct Ha as (A1 & A2 & A3).
  assert (Hprop : forall A (base_of : A -> base) (flt : A -> list ostr -> A) (ok : A -> Prop) k l,
     (forall x, ok x -> same_base (base_of (flt x arches)) (base_of x)) -> Forall ok l ->
     Forall (fun x => arches_proper (base_of x)) l ->
     Forall (fun x => arches_proper (base_of x)) (map (fun x => flt x arches) (filter k l))).
  { intros A base_of flt ok k l Hs Ho Hp. apply Forall_forall. intros y Hy. apply in_map_iff in Hy. destruct Hy as (x & <- & Hx).
    apply filter_In in Hx. rewrite Forall_forall in Ho, Hp. eapply arches_proper_same; [apply Hs, Ho, Hx|apply Hp, Hx]. }
  assert (Sg : forall x, gok x -> same_base (g_base (group_arch_filter x arches)) (g_base x)) by (intros; now apply base_copy_spec).
  assert (Sc : forall x, cok x -> same_base (c_base (category_arch_filter x arches)) (c_base x)) by (intros; now apply base_copy_spec).
  assert (Se : forall x, eok x -> same_base (e_base (env_arch_filter x arches)) (e_base x)) by (intros; now apply base_copy_spec).
  assert (Ha' : doc_arches_proper d').
  { unfold doc_arches_proper. rewrite P1. cbn. split; [|split].
    - exact (Hprop _ _ _ gok _ _ Sg G A1).
    - exact (Hprop _ _ _ cok _ _ Sc C A2).
    - exact (Hprop _ _ _ eok _ _ Se E A3). }
  destruct (doc_filter_wf d' e arches Hd1 (proj1 Hh1) Ha') as (d2 & Ef2 & _ & _ & P2). exists d2. split; [exact Ef2|].
  rewrite P2, P1. cbn. destruct (members_filter_idem arches) as (I1 & I2 & I3). split; [|split].
  - apply (refilter g_base group_arch_filter group_equal gok arches); auto; exact I1.
  - apply (refilter c_base category_arch_filter category_equal cok arches); auto; exact I2.
  - apply (refilter e_base env_arch_filter env_equal eok arches); auto; exact I3.
Qed.
Lemma filter_monotone d a1 a2 d1 d2 : docwf d -> doc_arches_proper d -> incl a1 a2 ->
  doc_arch_filter d a1 = Ok d1 -> doc_arch_filter d a2 = Ok d2 ->
  (forall g1, In g1 (pt_groups (doc_parts d1)) -> exists g2, In g2 (pt_groups (doc_parts d2)) /\
     same_base (g_base g1) (g_base g2) /\ incl (g_pkgs g1) (g_pkgs g2)) /\
  (forall c1, In c1 (pt_cats (doc_parts d1)) -> exists c2, In c2 (pt_cats (doc_parts d2)) /\
     same_base (c_base c1) (c_base c2) /\ incl (c_gids c1) (c_gids c2)) /\
  (forall e1, In e1 (pt_envs (doc_parts d1)) -> exists e2, In e2 (pt_envs (doc_parts d2)) /\
     same_base (e_base e1) (e_base e2) /\ incl (e_groups e1) (e_groups e2) /\ incl (e_options e1) (e_options e2)).
Proof.
  intros Hd Ha Hi E1 E2. destruct (d_enc d) as [e|] eqn:Ee.
  2:{ rewrite (proj2 (proj2 (no_encoding d d a1 Hd Ee))) in E1. discriminate. }
  destruct (doc_filter_wf d e a1 Hd Ee Ha) as (x1 & F1 & _ & _ & P1). assert (x1 = d1) as -> by congruence.
  destruct (doc_filter_wf d e a2 Hd Ee Ha) as (x2 & F2 & _ & _ & P2). assert (x2 = d2) as -> by congruence.
  rewrite P1, P2. cbn [pt_groups pt_cats pt_envs]. destruct (members_filter_mono a1 a2 Hi) as (M1 & M2 & M3 & M4).
  assert (Hk : forall A (base_of : A -> base) x l, In x (filter (keepf base_of a1) l) -> In x (filter (keepf base_of a2) l)).
  { intros A base_of x l H. apply filter_In in H. apply filter_In. split; [apply H|]. unfold keepf in *. eapply arch_ok_mono; [exact Hi|apply H]. }
  split; [|split]; intros y Hy; apply in_map_iff in Hy; destruct Hy as (x & <- & Hx).
  - exists (group_arch_filter x a2). split; [apply in_map_iff; eauto|]. split; [apply same_base_refl|]. intros p. apply M1.
  - exists (category_arch_filter x a2). split; [apply in_map_iff; eauto|]. split; [apply same_base_refl|]. intros p. apply M2.
  - exists (env_arch_filter x a2). split; [apply in_map_iff; eauto|]. split; [apply same_base_refl|].
    split; intros p; [apply M3|apply M4].
Qed.

(** ** Queries *)
Section Query.
Variable fnm : str -> str -> Z -> bool.
(** The text a criterion looks at. *)
Definition prop_text (b : base) (k : str) : option ostr :=
  match rt_get (b_props b) k with Ok (Some (PStr s)) => Some s | _ => None end.
Definition trans_text (t : rtree ostr) (lang : str) : option ostr :=
  match rt_get t lang with Ok o => o | _ => None end.
Definition name_text (b : base) (lang : option str) : option ostr :=
  match lang with None => prop_text b (S_ "name") | Some l => trans_text (b_names b) l end.
Definition desc_text (b : base) (lang : option str) : option ostr :=
  match lang with None => prop_text b (S_ "desc") | Some l => trans_text (b_descs b) l end.
Definition met (flags : Z) (pat : option str) (text : option ostr) : Prop :=
  match pat with None => True | Some p => exists s, text = Some (Some s) /\ fnm p s flags = true end.
(** The texts are strings: what the setters and the parser store. *)
Definition texts_proper (b : base) : Prop :=
  (forall k v, In k [S_ "id"; S_ "name"; S_ "desc"] -> rt_get (b_props b) k = Ok (Some v) -> exists s, v = PStr (Some s)) /\
  (forall l, rt_get (b_names b) l <> Ok (Some None)) /\ (forall l, rt_get (b_descs b) l <> Ok (Some None)).
Definition wanted (id name desc lang : option str) (flags : Z) (b : base) : Prop :=
  met flags id (prop_text b (S_ "id")) /\ met flags name (name_text b lang) /\ met flags desc (desc_text b lang).

Definition hit (flags : Z) (pat : option str) (text : option ostr) : bool :=
  match pat with None => false | Some p => match text with Some (Some s) => fnm p s flags | _ => false end end.
Lemma hit_met flags pat text : (b2n (hit flags pat text) =? given pat) = true <-> met flags pat text.
Proof.
  destruct pat as [p|]; cbn; [|tauto]. destruct text as [[s|]|]; cbn.
  - destruct (fnm p s flags) eqn:E; cbn; split; try discriminate; intros; eauto.
    destruct H as (s' & Es & F). inversion Es; subst. congruence.
  - split; [discriminate|]. intros (s & E & _). discriminate.
  - split; [discriminate|]. intros (s & E & _). discriminate.
Qed.
Lemma hit_le flags pat text : b2n (hit flags pat text) <= given pat.
Proof. destruct pat; cbn; [|lia]. destruct text as [[t|]|]; cbn; try lia. destruct (fnm _ t flags); cbn; lia. Qed.
Lemma count3 i n e gi gn ge : i <= gi -> n <= gn -> e <= ge ->
  (i + n + e =? gi + gn + ge) = ((i =? gi) && (n =? gn) && (e =? ge)).
Proof. intros. destruct (Nat.eqb_spec i gi), (Nat.eqb_spec n gn), (Nat.eqb_spec e ge), (Nat.eqb_spec (i + n + e) (gi + gn + ge)); cbn; auto; lia. Qed.

Lemma str_prop_ok b k : texts_proper b -> In k [S_ "id"; S_ "name"; S_ "desc"] ->
  str_prop b k = Ok (prop_text b k) /\ forall pat flags, opt_match fnm (prop_text b k) pat flags = Ok (hit flags (Some pat) (prop_text b k)).
Proof.
  intros (H & _) Hk. specialize (H k). unfold str_prop, prop_text, base_get. rewrite rt_get_look in *. cbn [bind].
  destruct (look (troot (b_props b)) k) as [v|]; [|auto]. destruct (H v Hk eq_refl) as (s & ->). auto.
Qed.
Lemma trans_ok t l : (forall l, rt_get t l <> Ok (Some None)) ->
  rt_get t l = Ok (trans_text t l) /\ forall pat flags, opt_match fnm (trans_text t l) pat flags = Ok (hit flags (Some pat) (trans_text t l)).
Proof.
  intros H. specialize (H l). unfold trans_text. unfold ostr in *. pose proof (rt_get_look t l) as R.
  destruct (rt_get t l) as [o| |]; try discriminate. split; [reflexivity|].
  intros pat flags. destruct o as [[s|]|]; [reflexivity|congruence|reflexivity].
Qed.
Lemma id_matched_ok b id flags : texts_proper b -> id_matched fnm b id flags = Ok (hit flags id (prop_text b (S_ "id"))).
Proof.
  intros H. unfold id_matched. destruct (str_prop_ok b (S_ "id") H (in_eq _ _)) as [-> Hm]. cbn [bind].
  destruct id; [apply Hm|reflexivity].
Qed.
Lemma name_matched_ok b name lang flags : texts_proper b -> name_matched fnm b name lang flags = Ok (hit flags name (name_text b lang)).
Proof.
  intros H. unfold name_matched. destruct (str_prop_ok b (S_ "name") H (in_cons _ _ _ (in_eq _ _))) as [-> Hm]. cbn [bind].
  destruct name as [n|]; [|reflexivity]. destruct lang as [l|]; [|apply Hm].
  destruct (trans_ok (b_names b) l (proj1 (proj2 H))) as [R Ht]. unfold ostr in *. rewrite R. cbn [bind]. apply Ht.
Qed.
Lemma desc_matched_ok b desc lang flags : texts_proper b -> desc_matched fnm b desc lang flags = Ok (hit flags desc (desc_text b lang)).
Proof.
  intros H. unfold desc_matched. destruct (str_prop_ok b (S_ "desc") H (in_cons _ _ _ (in_cons _ _ _ (in_eq _ _)))) as [-> Hm]. cbn [bind].
  destruct desc as [n|]; [|reflexivity]. destruct lang as [l|]; [|apply Hm].
  destruct (trans_ok (b_descs b) l (proj2 (proj2 H))) as [R Ht]. unfold ostr in *. rewrite R. cbn [bind]. apply Ht.
Qed.
Definition hit_either (b : base) (desc lang : option str) (flags : Z) : bool :=
  hit flags desc (prop_text b (S_ "desc")) ||
  match lang with None => false | Some l => hit flags desc (trans_text (b_descs b) l) end.
Lemma group_desc_matched_ok b desc lang flags : texts_proper b -> group_desc_matched fnm b desc lang flags = Ok (hit_either b desc lang flags).
Proof.
  intros H. unfold group_desc_matched, hit_either. destruct (str_prop_ok b (S_ "desc") H (in_cons _ _ _ (in_cons _ _ _ (in_eq _ _)))) as [-> Hm]. cbn [bind].
  destruct desc as [n|]; [|now destruct lang]. rewrite Hm. cbn [bind].
  destruct (hit flags (Some n) (prop_text b (S_ "desc"))); [reflexivity|]. cbn [orb].
  destruct lang as [l|]; [|reflexivity].
  destruct (trans_ok (b_descs b) l (proj2 (proj2 H))) as [R Ht]. unfold ostr in *. rewrite R. cbn [bind]. apply Ht.
Qed.

Lemma query_ok {A} (base_of : A -> base) dm dh id name desc lang flags l :
  (forall b, texts_proper b -> dm b desc lang flags = Ok (dh b)) ->
  Forall (fun x => texts_proper (base_of x)) l ->
  query fnm base_of dm id name desc lang flags l =
  Ok (filter (fun x => b2n (hit flags id (prop_text (base_of x) (S_ "id"))) + b2n (hit flags name (name_text (base_of x) lang))
                       + b2n (dh (base_of x)) =? given id + given name + given desc) l).
Proof.
  intros Hdm. induction 1 as [|x l Hx Hl IH]; cbn [query filter]; [reflexivity|].
  rewrite (id_matched_ok _ _ _ Hx), (name_matched_ok _ _ _ _ Hx), (Hdm _ Hx). cbn [bind]. rewrite IH. reflexivity.
Qed.
Lemma query_wanted {A} (base_of : A -> base) dm id name desc lang flags l :
  (forall b, texts_proper b -> dm b desc lang flags = Ok (hit flags desc (desc_text b lang))) ->
  Forall (fun x => texts_proper (base_of x)) l ->
  exists want, (forall x, want x = true <-> wanted id name desc lang flags (base_of x)) /\
    query fnm base_of dm id name desc lang flags l = Ok (filter want l).
Proof.
  intros Hdm Hl. rewrite (query_ok base_of dm (fun b => hit flags desc (desc_text b lang)) id name desc lang flags l Hdm Hl).
  eexists; split; [|reflexivity]. intros x. cbv beta. rewrite count3 by apply hit_le. rewrite !andb_true_iff, !hit_met. unfold wanted. tauto.
Qed.
Definition wanted_either (id name desc lang : option str) (flags : Z) (b : base) : Prop :=
  met flags id (prop_text b (S_ "id")) /\ met flags name (name_text b lang) /\
  (met flags desc (desc_text b lang) \/ met flags desc (desc_text b None)).
Lemma query_either {A} (base_of : A -> base) id name desc lang flags l :
  Forall (fun x => texts_proper (base_of x)) l ->
  exists want, (forall x, want x = true <-> wanted_either id name desc lang flags (base_of x)) /\
    query fnm base_of (group_desc_matched fnm) id name desc lang flags l = Ok (filter want l).
Proof.
  intros Hl. rewrite (query_ok base_of _ (fun b => hit_either b desc lang flags) id name desc lang flags l
    (fun b => group_desc_matched_ok b desc lang flags) Hl).
  eexists; split; [|reflexivity]. intros x. cbv beta.
  assert (Hle : b2n (hit_either (base_of x) desc lang flags) <= given desc).
  { unfold hit_either. pose proof (hit_le flags desc (prop_text (base_of x) (S_ "desc"))).
    destruct (hit flags desc (prop_text (base_of x) (S_ "desc"))); cbn in *; [exact H|].
    destruct lang; [apply hit_le|cbn; lia]. }
  rewrite count3 by (try apply hit_le; exact Hle). rewrite !andb_true_iff, !hit_met. unfold wanted_either.
  assert (Hiff : (b2n (hit_either (base_of x) desc lang flags) =? given desc) = true <->
    met flags desc (desc_text (base_of x) lang) \/ met flags desc (desc_text (base_of x) None)).
  { unfold hit_either. rewrite <- !hit_met. cbn [desc_text].
    destruct desc as [p|]; [|destruct lang; cbn; tauto]. cbn [given].
    destruct lang as [l'|]; cbn [desc_text]; [|rewrite orb_false_r; tauto].
    destruct (hit flags (Some p) (prop_text (base_of x) (S_ "desc"))), (hit flags (Some p) (trans_text (b_descs (base_of x)) l')); cbn; intuition discriminate. }
  rewrite Hiff. tauto.
Qed.
End Query.

(** ** Comparison *)
Lemma list_cmp_r_spec {A} (eqv : A -> A -> res bool) (ok : A -> Prop) (R : A -> A -> Prop) :
  (forall a b, ok a -> ok b -> exists c, eqv a b = Ok c /\ (c = true <-> R a b)) ->
  forall l1 l2, Forall ok l1 -> Forall ok l2 -> exists c, list_cmp_r eqv l1 l2 = Ok c /\ (c = true <-> Forall2 R l1 l2).
Proof.
  intros H l1. induction l1 as [|x l1 IH]; intros [|y l2] H1 H2; cbn [list_cmp_r].
  - exists true. split; [reflexivity|]. split; auto.
  - exists false. split; [reflexivity|]. split; [discriminate|]. intros F. inversion F.
  - exists false. split; [reflexivity|]. split; [discriminate|]. intros F. inversion F.
  - inversion H1; inversion H2; subst. destruct (H x y) as (c & -> & Hc); auto. cbn [bind]. destruct c.
    + destruct (IH l2) as (c & E & Hc'); auto. exists c. split; [exact E|]. rewrite Hc'. split.
      * intros F. constructor; [now apply Hc|exact F].
      * intros F. now inversion F.
    + exists false. split; [reflexivity|]. split; [discriminate|]. intros F. inversion F; subst. now apply Hc.
Qed.
Lemma mval_cmp_refl : forall v, mval_cmp v v = true.
Proof.
  fix IH 1. intros [s|l]; cbn.
  - now apply ostr_cmp_iff.
  - induction l as [|x l IHl]; [reflexivity|]. rewrite (IH x). exact IHl.
Qed.
Lemma mlist_cmp_refl l : list_cmp mval_cmp l l = true.
Proof. induction l as [|x l IH]; cbn; [reflexivity|]. now rewrite mval_cmp_refl. Qed.

Definition same_keys (a b : mtree ostr) : Prop := forall k, listed a k <-> listed b k.
Definition docs_same (a b : doc) : Prop :=
  d_enc a = d_enc b /\ d_name a = d_name b /\ d_sysid a = d_sysid b /\ d_pubid a = d_pubid b /\
  Forall2 category_same (pt_cats (doc_parts a)) (pt_cats (doc_parts b)) /\
  Forall2 group_same (pt_groups (doc_parts a)) (pt_groups (doc_parts b)) /\
  Forall2 env_same (pt_envs (doc_parts a)) (pt_envs (doc_parts b)) /\
  same_dict (pt_langpacks (doc_parts a)) (pt_langpacks (doc_parts b)) /\
  same_keys (pt_blacklist (doc_parts a)) (pt_blacklist (doc_parts b)) /\
  same_keys (pt_whiteout (doc_parts a)) (pt_whiteout (doc_parts b)).
Lemma ostr_obj_cmp_iff (a b : option ostr) : obj_cmp ostr_cmp a b = true <-> a = b.
Proof. apply obj_cmp_iff, ostr_cmp_iff. Qed.

Lemma doc_cmp_spec a b : docwf a -> docwf b ->
  exists a' b' c, doc_cmp a b = Ok (a', b', c) /\ (c = true <-> docs_same a b) /\
    docwf a' /\ docwf b' /\ same_head a a' /\ same_head b b' /\ doc_parts a' = doc_parts a /\ doc_parts b' = doc_parts b.
Proof.
  intros Ha Hb. unfold doc_cmp, docs_same.
  destruct (parts_wf a Ha) as (G1 & C1 & E1 & L1 & B1 & W1). destruct (parts_wf b Hb) as (G2 & C2 & E2 & L2 & B2 & W2).
  assert (Hfin : forall P : Prop, ~ P -> forall x y : doc, docwf x -> docwf y -> same_head a x -> same_head b y ->
     doc_parts x = doc_parts a -> doc_parts y = doc_parts b ->
     exists a' b' c, Ok (x, y, false) = Ok (a', b', c) /\ (c = true <-> P) /\ docwf a' /\ docwf b' /\ same_head a a' /\ same_head b b' /\
       doc_parts a' = doc_parts a /\ doc_parts b' = doc_parts b).
  { intros P HP x y Hx Hy Sx Sy Px Py. exists x, y, false. split; [reflexivity|]. split; [split; [discriminate|contradiction]|]. auto 10. }
  destruct (obj_cmp ostr_cmp (d_enc a) (d_enc b)) eqn:X1; cbn [negb];
    [|apply Hfin; auto using same_head_refl; intros (Q & _); apply ostr_obj_cmp_iff in Q; congruence].
  destruct (obj_cmp ostr_cmp (d_name a) (d_name b)) eqn:X2; cbn [negb];
    [|apply Hfin; auto using same_head_refl; intros (_ & Q & _); apply ostr_obj_cmp_iff in Q; congruence].
  destruct (obj_cmp ostr_cmp (d_sysid a) (d_sysid b)) eqn:X3; cbn [negb];
    [|apply Hfin; auto using same_head_refl; intros (_ & _ & Q & _); apply ostr_obj_cmp_iff in Q; congruence].
  destruct (obj_cmp ostr_cmp (d_pubid a) (d_pubid b)) eqn:X4; cbn [negb];
    [|apply Hfin; auto using same_head_refl; intros (_ & _ & _ & Q & _); apply ostr_obj_cmp_iff in Q; congruence].
  apply ostr_obj_cmp_iff in X1, X2, X3, X4.
  destruct (doc_cats_ok a Ha) as (a1 & -> & Ha1 & Sa1 & Pa1). cbn [bind fst snd].
  destruct (doc_cats_ok b Hb) as (b1 & -> & Hb1 & Sb1 & Pb1). cbn [bind fst snd].
  destruct (list_cmp_r_spec category_cmp cok category_same category_cmp_spec _ _ C1 C2) as (c1 & -> & Q1). cbn [bind].
  destruct c1; cbn [negb]; [|apply Hfin; auto; intros (_ & _ & _ & _ & Q & _); apply Q1 in Q; discriminate].
  destruct (doc_groups_ok a1 Ha1) as (a2 & -> & Ha2 & Sa2 & Pa2). cbn [bind fst snd].
  destruct (doc_groups_ok b1 Hb1) as (b2 & -> & Hb2 & Sb2 & Pb2). cbn [bind fst snd]. rewrite Pa1, Pb1.
  pose proof (same_head_trans _ _ _ Sa1 Sa2) as Ta2. pose proof (same_head_trans _ _ _ Sb1 Sb2) as Tb2. rewrite Pa1 in Pa2. rewrite Pb1 in Pb2.
  destruct (list_cmp_r_spec group_cmp gok group_same group_cmp_spec _ _ G1 G2) as (c2 & -> & Q2). cbn [bind].
  destruct c2; cbn [negb]; [|apply Hfin; auto; intros (_ & _ & _ & _ & _ & Q & _); apply Q2 in Q; discriminate].
  destruct (doc_envs_ok a2 Ha2) as (a3 & -> & Ha3 & Sa3 & Pa3). cbn [bind fst snd].
  destruct (doc_envs_ok b2 Hb2) as (b3 & -> & Hb3 & Sb3 & Pb3). cbn [bind fst snd]. rewrite Pa2, Pb2.
  pose proof (same_head_trans _ _ _ Ta2 Sa3) as Ta3. pose proof (same_head_trans _ _ _ Tb2 Sb3) as Tb3. rewrite Pa2 in Pa3. rewrite Pb2 in Pb3.
  destruct (list_cmp_r_spec env_cmp eok env_same env_cmp_spec _ _ E1 E2) as (c3 & -> & Q3). cbn [bind].
  destruct c3; cbn [negb]; [|apply Hfin; auto; intros (_ & _ & _ & _ & _ & _ & Q & _); apply Q3 in Q; discriminate].
  destruct (doc_langpacks_ok a3 Ha3) as (a4 & -> & Ha4 & Sa4 & Pa4). cbn [bind fst snd].
  destruct (doc_langpacks_ok b3 Hb3) as (b4 & -> & Hb4 & Sb4 & Pb4). cbn [bind fst snd]. rewrite Pa3, Pb3.
  pose proof (same_head_trans _ _ _ Ta3 Sa4) as Ta4. pose proof (same_head_trans _ _ _ Tb3 Sb4) as Tb4. rewrite Pa3 in Pa4. rewrite Pb3 in Pb4.
  destruct (cmp_same_dict _ _ _ _ ostr_cmp_iff L1 L2) as (c4 & -> & Q4). cbn [bind].
  destruct c4; cbn [negb]; [|apply Hfin; auto; intros (_ & _ & _ & _ & _ & _ & _ & Q & _); apply Q4 in Q; discriminate].
  destruct (doc_blacklist_ok a4 Ha4) as (a5 & -> & Ha5 & Sa5 & Pa5). cbn [bind fst snd].
  destruct (doc_blacklist_ok b4 Hb4) as (b5 & -> & Hb5 & Sb5 & Pb5). cbn [bind fst snd]. rewrite Pa4, Pb4.
  pose proof (same_head_trans _ _ _ Ta4 Sa5) as Ta5. pose proof (same_head_trans _ _ _ Tb4 Sb5) as Tb5. rewrite Pa4 in Pa5. rewrite Pb4 in Pb5.
  destruct (md_cmp (list_cmp mval_cmp) _ _ mlist_cmp_refl B1 B2) as (c5 & -> & Q5). cbn [bind].
  destruct c5; cbn [negb]; [|apply Hfin; auto; intros (_ & _ & _ & _ & _ & _ & _ & _ & Q & _); apply Q5 in Q; discriminate].
  destruct (doc_whiteout_ok a5 Ha5) as (a6 & -> & Ha6 & Sa6 & Pa6). cbn [bind fst snd].
  destruct (doc_whiteout_ok b5 Hb5) as (b6 & -> & Hb6 & Sb6 & Pb6). cbn [bind fst snd]. rewrite Pa5, Pb5.
  pose proof (same_head_trans _ _ _ Ta5 Sa6) as Ta6. pose proof (same_head_trans _ _ _ Tb5 Sb6) as Tb6. rewrite Pa5 in Pa6. rewrite Pb5 in Pb6.
  destruct (md_cmp (list_cmp mval_cmp) _ _ mlist_cmp_refl W1 W2) as (c6 & -> & Q6). cbn [bind].
  exists a6, b6, c6. split; [reflexivity|]. split; [|auto 10].
  apply proj1 in Q1, Q2, Q3, Q4, Q5. specialize (Q1 eq_refl). specialize (Q2 eq_refl). specialize (Q3 eq_refl).
  specialize (Q4 eq_refl). specialize (Q5 eq_refl). rewrite Q6. unfold same_keys. split.
  - intros Q. exact (conj X1 (conj X2 (conj X3 (conj X4 (conj Q1 (conj Q2 (conj Q3 (conj Q4 (conj Q5 Q))))))))).
  - intros (_ & _ & _ & _ & _ & _ & _ & _ & _ & Q). exact Q.
Qed.

(** ** Union with unique ids *)
Definition groups_united := lists_united oid_dec group_id group_equal group_united.
Definition cats_united := lists_united oid_dec category_id category_equal category_united.
Definition envs_united := lists_united oid_dec env_id env_equal env_united.
Definition unique_ids (d : doc) : Prop :=
  NoDup (map group_id (pt_groups (doc_parts d))) /\ NoDup (map category_id (pt_cats (doc_parts d))) /\
  NoDup (map env_id (pt_envs (doc_parts d))).
Lemma group_united_same a a' b u : group_equal a a' -> group_united a b u -> group_united a' b u.
Proof. intros [S E] [H M]. split; [now apply bases_united_same with (g_base a)|now rewrite <- E]. Qed.
Lemma category_united_same a a' b u : category_equal a a' -> category_united a b u -> category_united a' b u.
Proof. intros [S E] [H M]. split; [now apply bases_united_same with (c_base a)|now rewrite <- E]. Qed.
Lemma env_united_same a a' b u : env_equal a a' -> env_united a b u -> env_united a' b u.
Proof.
  intros (S & E & F) (H & M & N). split; [now apply bases_united_same with (e_base a)|]. split; [now rewrite <- E|now rewrite <- F].
Qed.
Lemma doc_union_unique d1 d2 : docwf d1 -> docwf d2 -> d_enc d1 <> None -> unique_ids d1 -> unique_ids d2 ->
  exists d, doc_union d1 d2 = Ok d /\ unique_ids d /\
    groups_united (pt_groups (doc_parts d1)) (pt_groups (doc_parts d2)) (pt_groups (doc_parts d)) /\
    cats_united (pt_cats (doc_parts d1)) (pt_cats (doc_parts d2)) (pt_cats (doc_parts d)) /\
    envs_united (pt_envs (doc_parts d1)) (pt_envs (doc_parts d2)) (pt_envs (doc_parts d)) /\
    map_union (pt_langpacks (doc_parts d1)) (pt_langpacks (doc_parts d2)) (pt_langpacks (doc_parts d)).
Proof.
  intros H1 H2 He (A1 & A2 & A3) (B1 & B2 & B3). destruct (d_enc d1) as [e|] eqn:Ee; [|congruence].
  destruct (doc_union_wf d1 d2 e H1 H2 Ee) as (d & E & _ & _ & Hg & Hc & Hn & Hl & _). exists d. split; [exact E|].
  split; [split; [apply Hg|split; [apply Hc|apply Hn]]|].
  split; [apply lists_merged_united; auto; exact group_united_same|].
  split; [apply lists_merged_united; auto; exact category_united_same|].
  split; [apply lists_merged_united; auto; exact env_united_same|exact Hl].
Qed.

(** ** What documents made by the library's operations satisfy *)
Lemma union_dreach d1 d2 : dreach d1 -> dreach d2 -> d_enc d1 <> None ->
  exists d, doc_union d1 d2 = Ok d /\ dreach d /\ fresh_head (d_enc d1) d /\
    groups_merged (pt_groups (doc_parts d1)) (pt_groups (doc_parts d2)) (pt_groups (doc_parts d)) /\
    cats_merged (pt_cats (doc_parts d1)) (pt_cats (doc_parts d2)) (pt_cats (doc_parts d)) /\
    envs_merged (pt_envs (doc_parts d1)) (pt_envs (doc_parts d2)) (pt_envs (doc_parts d)) /\
    map_union (pt_langpacks (doc_parts d1)) (pt_langpacks (doc_parts d2)) (pt_langpacks (doc_parts d)).
Proof.
  intros H1 H2 He. destruct (d_enc d1) as [e|] eqn:Ee; [|congruence].
  destruct (doc_union_wf d1 d2 e (dreach_wf _ H1) (dreach_wf _ H2) Ee) as (d & E & _ & Hh & Hg & Hc & Hn & Hl & _).
  exists d. split; [exact E|]. split; [exact (D_union _ _ _ H1 H2 E)|]. auto 10.
Qed.
Lemma intersect_dreach d1 d2 : dreach d1 -> dreach d2 -> d_enc d1 <> None ->
  exists d, doc_intersect d1 d2 = Ok d /\ dreach d /\ fresh_head (d_enc d1) d /\
    groups_common (pt_groups (doc_parts d1)) (pt_groups (doc_parts d2)) (pt_groups (doc_parts d)) /\
    cats_common (pt_cats (doc_parts d1)) (pt_cats (doc_parts d2)) (pt_cats (doc_parts d)) /\
    envs_common (pt_envs (doc_parts d1)) (pt_envs (doc_parts d2)) (pt_envs (doc_parts d)).
Proof.
  intros H1 H2 He. destruct (d_enc d1) as [e|] eqn:Ee; [|congruence].
  destruct (doc_intersect_wf d1 d2 e (dreach_wf _ H1) (dreach_wf _ H2) Ee) as (d & E & _ & Hh & Hg & Hc & Hn & _).
  exists d. split; [exact E|]. split; [exact (D_intersect _ _ _ H1 H2 E)|]. auto 10.
Qed.
(** What the operations leave out. *)
Lemma parts_dropped d1 d2 arches d : dreach d1 -> dreach d2 ->
  (doc_union d1 d2 = Ok d \/ doc_intersect d1 d2 = Ok d \/ (doc_arches_proper d1 /\ doc_arch_filter d1 arches = Ok d)) ->
  pt_blacklist (doc_parts d) = mt_create /\ pt_whiteout (doc_parts d) = mt_create /\
  (doc_union d1 d2 = Ok d \/ pt_langpacks (doc_parts d) = rt_create).
Proof.
  intros H1 H2 H. apply dreach_wf in H1, H2. destruct (d_enc d1) as [e|] eqn:Ee.
  - destruct (doc_union_wf d1 d2 e H1 H2 Ee) as (u & Eu & _ & _ & _ & _ & _ & _ & Ub & Uw).
    destruct (doc_intersect_wf d1 d2 e H1 H2 Ee) as (i & Ei & _ & _ & _ & _ & _ & Il & Ib & Iw).
    destruct H as [H|[H|[Ha H]]].
    + assert (u = d) as -> by congruence. auto.
    + assert (i = d) as -> by congruence. auto.
    + destruct (doc_filter_wf d1 e arches H1 Ee Ha) as (f & Ef & _ & _ & P). assert (f = d) as -> by congruence. rewrite P. auto.
  - destruct (no_encoding d1 d2 arches H1 Ee) as (N1 & N2 & N3). exfalso. destruct H as [H|[H|[_ H]]]; congruence.
Qed.
Lemma filter_dreach d arches : dreach d -> d_enc d <> None -> doc_arches_proper d ->
  exists d', doc_arch_filter d arches = Ok d' /\ dreach d' /\ fresh_head (d_enc d) d' /\
    objs_filtered g_base (group_filtered arches) arches (pt_groups (doc_parts d)) (pt_groups (doc_parts d')) /\
    objs_filtered c_base (category_filtered arches) arches (pt_cats (doc_parts d)) (pt_cats (doc_parts d')) /\
    objs_filtered e_base (env_filtered arches) arches (pt_envs (doc_parts d)) (pt_envs (doc_parts d')).
Proof.
  intros Hd He Ha. destruct (filter_spec d arches (dreach_wf _ Hd) He Ha) as (d' & E & _ & Hh & Hg & Hc & Hn & _).
  exists d'. split; [exact E|]. split; [exact (D_filter _ _ _ Hd E)|]. auto.
Qed.

Section QueryDoc.
Variable fnm : str -> str -> Z -> bool.
Lemma get_categories_spec d id name desc lang flags : dreach d ->
  Forall (fun x => texts_proper (c_base x)) (pt_cats (doc_parts d)) ->
  exists want, (forall x, want x = true <-> wanted fnm id name desc lang flags (c_base x)) /\
    doc_get_categories fnm d id name desc lang flags = Ok (filter want (pt_cats (doc_parts d))).
Proof.
  intros Hd Ht. unfold doc_get_categories. destruct (doc_cats_ok d (dreach_wf _ Hd)) as (d1 & -> & _). cbn [bind snd].
  apply query_wanted; auto. intros. now apply desc_matched_ok.
Qed.
Lemma get_envs_spec d id name desc lang flags : dreach d ->
  Forall (fun x => texts_proper (e_base x)) (pt_envs (doc_parts d)) ->
  exists want, (forall x, want x = true <-> wanted fnm id name desc lang flags (e_base x)) /\
    doc_get_envs fnm d id name desc lang flags = Ok (filter want (pt_envs (doc_parts d))).
Proof.
  intros Hd Ht. unfold doc_get_envs. destruct (doc_envs_ok d (dreach_wf _ Hd)) as (d1 & -> & _). cbn [bind snd].
  apply query_wanted; auto. intros. now apply desc_matched_ok.
Qed.
Lemma get_groups_spec d id name desc lang flags : dreach d ->
  Forall (fun x => texts_proper (g_base x)) (pt_groups (doc_parts d)) ->
  exists want, (forall x, want x = true <-> wanted_either fnm id name desc lang flags (g_base x)) /\
    doc_get_groups fnm d id name desc lang flags = Ok (filter want (pt_groups (doc_parts d))).
Proof.
  intros Hd Ht. unfold doc_get_groups. destruct (doc_groups_ok d (dreach_wf _ Hd)) as (d1 & -> & _). cbn [bind snd].
  now apply query_either.
Qed.
Lemma get_groups_plain d id name desc lang flags : dreach d ->
  Forall (fun x => texts_proper (g_base x)) (pt_groups (doc_parts d)) -> lang = None \/ desc = None ->
  exists want, (forall x, want x = true <-> wanted fnm id name desc lang flags (g_base x)) /\
    doc_get_groups fnm d id name desc lang flags = Ok (filter want (pt_groups (doc_parts d))).
Proof.
  intros Hd Ht Hl. destruct (get_groups_spec d id name desc lang flags Hd Ht) as (want & Hw & E). exists want. split; [|exact E].
  intros x. rewrite Hw. unfold wanted_either, wanted. destruct Hl as [-> | ->]; cbn; tauto.
Qed.
End QueryDoc.

(** ** Getters and setters *)
Lemma getters d : dreach d ->
  (exists d', doc_groups d = Ok (d', pt_groups (doc_parts d)) /\ dreach d' /\ doc_parts d' = doc_parts d) /\
  (exists d', doc_cats d = Ok (d', pt_cats (doc_parts d)) /\ dreach d' /\ doc_parts d' = doc_parts d) /\
  (exists d', doc_envs d = Ok (d', pt_envs (doc_parts d)) /\ dreach d' /\ doc_parts d' = doc_parts d) /\
  (exists d', doc_langpacks d = Ok (d', pt_langpacks (doc_parts d)) /\ dreach d' /\ doc_parts d' = doc_parts d) /\
  (exists d', doc_blacklist d = Ok (d', pt_blacklist (doc_parts d)) /\ dreach d' /\ doc_parts d' = doc_parts d) /\
  (exists d', doc_whiteout d = Ok (d', pt_whiteout (doc_parts d)) /\ dreach d' /\ doc_parts d' = doc_parts d).
Proof.
  intros H. pose proof (dreach_wf _ H) as Hd.
  split; [|split; [|split; [|split; [|split]]]].
  - destruct (doc_groups_ok d Hd) as (d' & E & _ & _ & P). exists d'. split; [exact E|]. split; [|exact P].
    apply (D_op d OGetGroups d' H I). cbn [dop_run]. now rewrite E.
  - destruct (doc_cats_ok d Hd) as (d' & E & _ & _ & P). exists d'. split; [exact E|]. split; [|exact P].
    apply (D_op d OGetCats d' H I). cbn [dop_run]. now rewrite E.
  - destruct (doc_envs_ok d Hd) as (d' & E & _ & _ & P). exists d'. split; [exact E|]. split; [|exact P].
    apply (D_op d OGetEnvs d' H I). cbn [dop_run]. now rewrite E.
  - destruct (doc_langpacks_ok d Hd) as (d' & E & _ & _ & P). exists d'. split; [exact E|]. split; [|exact P].
    apply (D_op d OGetLangpacks d' H I). cbn [dop_run]. now rewrite E.
  - destruct (doc_blacklist_ok d Hd) as (d' & E & _ & _ & P). exists d'. split; [exact E|]. split; [|exact P].
    apply (D_op d OGetBlacklist d' H I). cbn [dop_run]. now rewrite E.
  - destruct (doc_whiteout_ok d Hd) as (d' & E & _ & _ & P). exists d'. split; [exact E|]. split; [|exact P].
    apply (D_op d OGetWhiteout d' H I). cbn [dop_run]. now rewrite E.
Qed.
Lemma histories d os : dreach d -> Forall dop_ok os ->
  exists d', dop_runs d os = Ok d' /\ dreach d' /\ same_head d d' /\
    doc_parts d' = fold_left (fun p o => dop_effect o p) os (doc_parts d).
Proof.
  intros H Ho. destruct (dop_runs_spec os d (dreach_wf _ H) Ho) as (d' & E & _ & Hh & P). exists d'. split; [exact E|].
  split; [|auto]. clear Hh P. revert d H E. induction Ho as [|o os Ho1 Ho IH]; intros d H E; cbn [dop_runs] in E.
  - now inversion E; subst.
  - apply bind_ok in E. destruct E as (d1 & E1 & E). eapply IH; [|exact E]. exact (D_op _ _ _ H Ho1 E1).
Qed.

(** ** Comparison *)
Lemma doc_cmp_dreach a b : dreach a -> dreach b ->
  exists a' b' c, doc_cmp a b = Ok (a', b', c) /\ (c = true <-> docs_same a b) /\
    doc_parts a' = doc_parts a /\ doc_parts b' = doc_parts b.
Proof.
  intros Ha Hb. destruct (doc_cmp_spec a b (dreach_wf _ Ha) (dreach_wf _ Hb)) as (a' & b' & c & E & Hc & _ & _ & _ & _ & P & Q).
  exists a', b', c. auto.
Qed.
Lemma docs_same_equiv : (forall a, docs_same a a) /\ (forall a b, docs_same a b -> docs_same b a) /\
  (forall a b c, docs_same a b -> docs_same b c -> docs_same a c).
Proof.
  destruct (Forall2_equiv _ pkg_same_equiv) as (Rp & Sp & Tp). destruct (Forall2_equiv _ gid_same_equiv) as (Ri & Si & Ti).
  assert (Eg : (forall a, group_same a a) /\ (forall a b, group_same a b -> group_same b a) /\ (forall a b c, group_same a b -> group_same b c -> group_same a c)).
  { unfold group_same. split; [intros a; split; [apply same_base_refl|auto]|]. split.
    - intros a b [H1 H2]. split; [now apply same_base_sym|auto].
    - intros a b c [H1 H2] [H3 H4]. split; [eapply same_base_trans; eauto|eauto]. }
  assert (Ec : (forall a, category_same a a) /\ (forall a b, category_same a b -> category_same b a) /\ (forall a b c, category_same a b -> category_same b c -> category_same a c)).
  { unfold category_same. split; [intros a; split; [apply same_base_refl|auto]|]. split.
    - intros a b [H1 H2]. split; [now apply same_base_sym|auto].
    - intros a b c [H1 H2] [H3 H4]. split; [eapply same_base_trans; eauto|eauto]. }
  assert (Ee : (forall a, env_same a a) /\ (forall a b, env_same a b -> env_same b a) /\ (forall a b c, env_same a b -> env_same b c -> env_same a c)).
  { unfold env_same. split; [intros a; split; [apply same_base_refl|auto]|]. split.
    - intros a b (H1 & H2 & H3). split; [now apply same_base_sym|auto].
    - intros a b c (H1 & H2 & H3) (H4 & H5 & H6). split; [eapply same_base_trans; eauto|eauto]. }
  destruct (Forall2_equiv _ Eg) as (R1 & S1 & T1). destruct (Forall2_equiv _ Ec) as (R2 & S2 & T2). destruct (Forall2_equiv _ Ee) as (R3 & S3 & T3).
  unfold docs_same, same_dict, same_keys. split; [|split].
  - intros a. do 4 (split; [reflexivity|]). split; [auto|]. split; [auto|]. split; [auto|]. split; [auto|]. split; reflexivity.
  - intros a b (H1 & H2 & H3 & H4 & H5 & H6 & H7 & H8 & H9 & H10). do 4 (split; [congruence|]).
    split; [auto|]. split; [auto|]. split; [auto|]. split; [intros; symmetry; auto|]. split; intros k; symmetry; auto.
  - intros a b c (H1 & H2 & H3 & H4 & H5 & H6 & H7 & H8 & H9 & H10) (K1 & K2 & K3 & K4 & K5 & K6 & K7 & K8 & K9 & K10).
    do 4 (split; [congruence|]). split; [eauto|]. split; [eauto|]. split; [eauto|]. split; [intros; rewrite H8; auto|].
    split; intros k; [rewrite (H9 k); auto|rewrite (H10 k); auto].
Qed.
