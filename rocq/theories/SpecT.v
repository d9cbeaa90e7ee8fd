(** Saving and loading again what was loaded from a save. *)
From Coq Require Import NArith.
From Verif Require Import CStr CStrFacts HSListModel HSListFacts RTreeModel RTreeFacts RTreeFacts2 RTreeFacts3 RTreeFacts4 MRTreeModel MRTreeFacts MRTreeFacts2
  ObjModel ObjFacts ObjFacts2 Dec StrModel StrFacts DocModel DocFacts DocFacts2 SpecA SpecB SpecC SpecD SpecD2 SpecE ParseModel ParseFacts SpecF SpecF2 SpecF3 SpecF4
  XmlModel XmlFacts SpecG SpecG2 SpecG3 SpecG4 SpecG5 SpecG6 SpecG7 Utf8Facts TextModel TextFacts TextFacts2 TextFacts3 TextFacts4 TextFacts5 TextFacts6 TextFacts7
  SpecR SpecR2 SpecR3 SpecR4 SpecR5 SpecR6.

(** ** Statements *)
(** A reader that keeps the texts. *)
Lemma thinner_refl s : thinner s s.
Proof. induction s; now constructor. Qed.
(** What a reader of a whole string makes of the texts. *)
Lemma squeeze_thinner s : thinner s (squeeze s).
Proof.
  pose proof (thinner_pieces (pieces s)) as H. assert (Ec : concat (pieces s) = s) by (unfold pieces; rewrite chop_concat; cbn [app]; apply bytes_some). rewrite Ec in H. exact H.
Qed.
Definition squeeze_reader : reader := {| keeps := fun s s' => s' = squeeze s; keeps_thinner := fun s s' H => eq_ind_r (thinner s) (squeeze_thinner s) H |}.
Definition exact_reader : reader := {| keeps := eq; keeps_thinner := fun s s' H => eq_ind s (thinner s) (thinner_refl s) s' H |}.
(** Nothing differs. *)
Definition base_stays (b b' : base) : Prop :=
  (forall k, base_get b' k = base_get b k) /\ (forall k, rt_get (b_names b') k = rt_get (b_names b) k) /\ (forall k, rt_get (b_descs b') k = rt_get (b_descs b) k).
Definition group_stays (g g' : group) : Prop := base_stays (g_base g) (g_base g') /\ g_pkgs g' = g_pkgs g.
Definition cat_stays (c c' : category) : Prop := base_stays (c_base c) (c_base c') /\ c_gids c' = c_gids c.
Definition env_stays (e e' : env) : Prop := base_stays (e_base e) (e_base e') /\ e_groups e' = e_groups e /\ e_options e' = e_options e.
Definition parts_stay (p p' : parts) : Prop :=
  Forall2 group_stays (pt_groups p) (pt_groups p') /\ Forall2 cat_stays (pt_cats p) (pt_cats p') /\ Forall2 env_stays (pt_envs p) (pt_envs p') /\
  (forall k, rt_get (pt_langpacks p') k = rt_get (pt_langpacks p) k) /\
  (forall k, mt_get (pt_blacklist p') k = mt_get (pt_blacklist p) k) /\ (forall k, mt_get (pt_whiteout p') k = mt_get (pt_whiteout p) k).
Definition doc_stays (d d' : doc) : Prop :=
  d_enc d' = d_enc d /\ d_name d' = d_name d /\ d_sysid d' = d_sysid d /\ d_pubid d' = d_pubid d /\ parts_stay (doc_parts d) (doc_parts d').
(** What a second save would not carry: lists of architectures that are empty, and
    lists in a blacklist or whiteout that are empty or hold other lists. *)
Definition base_tidy (b : base) : Prop := base_get b (S_ "arches") <> Ok (Some (PList [])).
Definition gid_tidy (g : gid) : Prop := gi_arches g <> Some [].
Definition mdict_tidy (t : mtree ostr) : Prop := forall k l, mt_get t k = Ok (Some l) -> l <> [] /\ Forall (fun v => exists s, v = MV s) l.
Definition parts_tidy (p : parts) : Prop :=
  Forall (fun g => base_tidy (g_base g) /\ Forall (fun k => p_arches k <> Some []) (g_pkgs g)) (pt_groups p) /\
  Forall (fun c => base_tidy (c_base c) /\ Forall gid_tidy (c_gids c)) (pt_cats p) /\
  Forall (fun e => base_tidy (e_base e) /\ Forall gid_tidy (e_groups e) /\ Forall gid_tidy (e_options e)) (pt_envs p) /\
  mdict_tidy (pt_blacklist p) /\ mdict_tidy (pt_whiteout p).

(** The second reader makes no more of what the first one made. *)
Definition settles (R1 R2 : reader) : Prop := forall s s1 s2, keeps (reader := R1) s s1 -> keeps (reader := R2) s1 s2 -> s2 = s1.

(** ** Proofs *)
Lemma settles_exact R1 : settles R1 exact_reader.
Proof. intros s s1 s2 _ H. now symmetry. Qed.
Definition piece (w : str) : Prop := (exists c, special c = true /\ w = [c]) \/ Forall (fun c => special c = false) w.
Lemma pieces_piece s : forall acc, Forall (fun c => special c = false) acc -> Forall piece (chop acc (map Some s)).
Proof.
  assert (L : forall acc, Forall (fun c => special c = false) acc -> Forall piece (left_over acc)) by (intros [|x acc] H; [constructor|constructor; [now right|constructor]]).
  induction s as [|c s IH]; intros acc Ha; cbn [map chop]; [now apply L|]. destruct (special c) eqn:Ec.
  - apply Forall_app. split; [now apply L|]. constructor; [left; eauto|]. apply IH. constructor.
  - apply IH. apply Forall_app. split; [exact Ha|now repeat constructor].
Qed.
Lemma heavy_app a b : heavy (a ++ b) = heavy a || heavy b.
Proof. unfold heavy. rewrite forallb_app. now destruct (forallb is_space a), (forallb is_space b). Qed.
Lemma heavy_pieces ps : Forall piece ps -> Forall (fun w => heavy w = true) ps -> forall acc, acc = [] \/ heavy acc = true -> Forall (fun w => heavy w = true) (chop acc (map Some (concat ps))).
Proof.
  assert (L : forall acc, acc = [] \/ heavy acc = true -> Forall (fun w => heavy w = true) (left_over acc)) by (intros [|x acc] [H|H]; try discriminate; [constructor|constructor; [exact H|constructor]]).
  induction 1 as [|w ps Hw _ IH]; intros Hh acc Ha; cbn [concat]; [now apply L|]. apply Forall_cons_iff in Hh. destruct Hh as [H1 Hh]. destruct Hw as [(c & Hc & ->)|Hw].
  - cbn [app map chop]. rewrite Hc. apply Forall_app. split; [now apply L|]. constructor; [exact H1|]. apply IH; auto.
  - rewrite map_app, chop_plain by exact Hw. apply IH; [exact Hh|]. right. rewrite heavy_app, H1. apply orb_true_r.
Qed.
Lemma filter_id {A} (f : A -> bool) l : Forall (fun x => f x = true) l -> filter f l = l.
Proof. induction 1 as [|x l Hx _ IH]; [reflexivity|]. cbn. now rewrite Hx, IH. Qed.
(** White space is lost once. *)
Lemma squeeze_squeeze s : squeeze (squeeze s) = squeeze s.
Proof.
  unfold squeeze at 1. rewrite filter_id; [unfold pieces; rewrite chop_concat; cbn [app]; apply bytes_some|]. unfold pieces, squeeze. apply heavy_pieces; [| |now left].
  - pose proof (pieces_piece s [] (Forall_nil _)) as H. unfold pieces. induction H as [|x l Hx _ IH]; [constructor|]. cbn [filter]. destruct (heavy x); [now constructor|exact IH].
  - apply Forall_forall. intros x Hx. apply filter_In in Hx. apply Hx.
Qed.
Lemma settles_squeeze : settles squeeze_reader squeeze_reader.
Proof. intros s s1 s2 H1 H2. cbn in H1, H2. subst. apply squeeze_squeeze. Qed.

Lemma word_tokens s : Forall word (strtok_loop s []).
Proof.
  pose proof (strtok_tokens s [] (or_introl eq_refl)) as H. cbn [rev app] in H. induction H; auto.
Qed.
Lemma split_again s : split_arches s <> [] -> split_arches (join (S_ " ") (map str_tostr (split_arches s))) = split_arches s.
Proof.
  intros _. destruct (arch_roundtrip (strtok_loop s []) (word_tokens s)) as (s' & E & E'). rewrite arch_str_ok in E. apply Ok_inj in E. change (map Some (strtok_loop s [])) with (split_arches s) in *. rewrite E. exact E'.
Qed.
Lemma arches_again o v v1 v2 : arches_after o v = v1 -> arches_after o v1 = v2 -> v1 <> Some [] -> v2 = v1.
Proof.
  intros <- <-. unfold arches_after. destruct v as [[|a l]|]; try reflexivity. destruct (x_arch o) eqn:Ex; [|reflexivity]. intros Hn.
  set (s := join (S_ " ") (map str_tostr (a :: l))) in *. destruct (split_arches s) as [|b r] eqn:Es; [congruence|].
  f_equal. rewrite <- Es. apply split_again. congruence.
Qed.
Section Twice.
Context (R1 R2 : reader) (Hset : settles R1 R2).
Lemma text_after_thin s x : text_after (RD := R1) s x -> x = None \/ exists s', ~ blank s' /\ keeps (reader := R1) s s' /\ x = Some (Some s').
Proof. intros [[_ ->]|(s' & Hk & Hb & ->)]; [now left|right; eauto]. Qed.
Lemma text_after_exact s0 s x : ~ blank s -> keeps (reader := R1) s0 s -> text_after (RD := R2) s x -> x = Some (Some s).
Proof. intros Hn H0 [[Hb _]|(s' & Hk & _ & ->)]; [contradiction|]. now rewrite (Hset _ _ _ H0 Hk). Qed.
Lemma text_after_blank {RD : reader} s x : blank s -> text_after s x -> x = None.
Proof. intros Hn [[_ ->]|(s' & Hk & Hb & ->)]; [reflexivity|]. apply keeps_thinner in Hk. apply (thinner_blank _ _ Hk) in Hn. contradiction. Qed.
Lemma text_again v v1 v2 : text_read (RD := R1) v v1 -> text_read (RD := R2) v1 v2 -> v2 = v1.
Proof.
  intros H1 H2. assert (Hv : v1 = Ok None \/ exists s0 s', ~ blank s' /\ keeps (reader := R1) s0 s' /\ v1 = Ok (Some (PStr (Some s')))).
  { unfold text_read in H1. destruct v as [[p|]| |]; try (now left). destruct H1 as (s & x & _ & Hx & ->). destruct (text_after_thin s x Hx) as [->|(s' & Hb & Hk & ->)]; [now left|right]. eauto. }
  destruct Hv as [->|(s0 & s' & Hb & Hk & ->)]; [exact H2|]. cbn [text_read] in H2. destruct H2 as (s & x & E & Hx & ->). cbn in E. injection E as <-. now rewrite (text_after_exact _ _ _ Hb Hk Hx).
Qed.
Lemma dict_again t t1 t2 : dict_after (RD := R1) t t1 -> dict_after (RD := R2) t1 t2 -> forall k, rt_get t2 k = rt_get t1 k.
Proof.
  intros H1 H2 k. specialize (H1 k). specialize (H2 k). assert (Hv : rt_get t1 k = Ok None \/ exists s0 s', ~ blank s' /\ keeps (reader := R1) s0 s' /\ rt_get t1 k = Ok (Some (Some s'))).
  { destruct (rt_get t k) as [[v|]| |]; try (now left). destruct H1 as (x & Hx & ->). destruct (text_after_thin _ x Hx) as [->|(s' & Hb & Hk & ->)]; [now left|right; eauto]. }
  destruct Hv as [E|(s0 & s' & Hb & Hk & E)]; rewrite E in *; [exact H2|]. destruct H2 as (x & Hx & ->). now rewrite (text_after_exact _ _ _ Hb Hk Hx).
Qed.
Lemma arches_prop_again o v v1 v2 : arches_read o v v1 -> arches_read o v1 v2 -> v1 <> Ok (Some (PList [])) -> v2 = v1.
Proof.
  unfold arches_read. intros -> ->. destruct v as [[[| |[|a l]]|]| |]; try reflexivity. destruct (x_arch o) eqn:Ex; [|reflexivity]. intros Hn.
  set (s := join (S_ " ") (map str_tostr (a :: l))) in *. destruct (split_arches s) as [|b r] eqn:Es; [congruence|].
  do 3 f_equal. rewrite <- Es. apply split_again. congruence.
Qed.
Lemma pkg_again o p p1 p2 : pkg_after (RD := R1) o p p1 -> pkg_after (RD := R2) o p1 p2 -> p_arches p1 <> Some [] -> p2 = p1.
Proof.
  intros (A1 & A2 & A3 & A4 & A5) (B1 & B2 & B3 & B4 & B5) Hn.
  assert (C1 : p_name p2 = p_name p1).
  { destruct (text_after_thin _ _ A1) as [E|(s' & Hb & Hk & E)]; rewrite E in *; cbn [ostr_tostr str_tostr] in B1; [exact (text_after_blank _ _ (Forall_nil _) B1)|exact (text_after_exact _ _ _ Hb Hk B1)]. }
  assert (C2 : p_requires p2 = p_requires p1).
  { rewrite B2, A2. unfold req_after. destruct (p_requires p) as [s|]; [|reflexivity]. destruct (str_tostr s) as [|c r]; reflexivity. }
  assert (C3 : p_bao p2 = p_bao p1).
  { rewrite B3, A3. unfold bao_after. destruct (p_bao p) as [z|]; [|reflexivity]. destruct (x_bao o || negb (z =? 0)%Z) eqn:E; [|reflexivity]. now rewrite orb_true_r. }
  assert (C4 : p_type p2 = p_type p1).
  { rewrite B4, A4. unfold known_type. destruct ((p_type p =? PK_OPTIONAL)%Z || (p_type p =? PK_MANDATORY)%Z || (p_type p =? PK_CONDITIONAL)%Z) eqn:E; [now rewrite E|reflexivity]. }
  assert (C5 : p_arches p2 = p_arches p1) by (rewrite B5; eapply arches_again; eauto).
  destruct p1, p2. cbn in *. congruence.
Qed.
Lemma gid_again o p p1 p2 : gid_after (RD := R1) o p p1 -> gid_after (RD := R2) o p1 p2 -> gid_tidy p1 -> p2 = p1.
Proof.
  intros (A1 & A2 & A3) (B1 & B2 & B3) Hn.
  assert (C1 : gi_name p2 = gi_name p1).
  { destruct A1 as [[_ E]|(s' & Hk1 & Hb & E)]; rewrite E in *; cbn [ostr_tostr str_tostr] in B1.
    - destruct B1 as [[_ E2]|(s2 & Hk & Hb & E2)]; [exact E2|]. elim Hb. apply keeps_thinner in Hk. inversion Hk; subst. constructor.
    - destruct B1 as [[Hb2 E2]|(s2 & Hk & _ & E2)]; [contradiction|]. now rewrite E2, (Hset _ _ _ Hk1 Hk). }
  assert (C2 : gi_arches p2 = gi_arches p1) by (rewrite B3; eapply arches_again; eauto).
  destruct p1, p2. cbn in *. congruence.
Qed.
Lemma Forall2_chain {A} (R S : A -> A -> Prop) (T : A -> Prop) l : forall l1 l2, (forall x y z, R x y -> S y z -> T y -> z = y) -> Forall2 R l l1 -> Forall2 S l1 l2 -> Forall T l1 -> l2 = l1.
Proof.
  induction l as [|x l IH]; intros l1 l2 H H1 H2 H3; inversion H1; subst; inversion H2; subst; [reflexivity|]. apply Forall_cons_iff in H3. destruct H3. f_equal; eauto.
Qed.
Lemma base_again o ks b b1 b2 : base_read (RD := R1) o b b1 -> base_read (RD := R2) o b1 b2 -> base_tidy b1 -> only ks b1 -> only ks b2 ->
  (forall k, In k ks -> In k common_props \/ base_get b2 (S_ k) = base_get b1 (S_ k)) -> base_stays b1 b2.
Proof.
  intros (A1 & A2 & A3 & A4 & A5 & A6 & A7) (B1 & B2 & B3 & B4 & B5 & B6 & B7) Ht O1 O2 Hk. split; [|split; [eapply dict_again; eauto|eapply dict_again; eauto]].
  intros k. destruct (in_dec (list_eq_dec Ascii.ascii_dec) k (map S_ ks)) as [Hi|Hi]; [|now rewrite O1, O2].
  apply in_map_iff in Hi. destruct Hi as (x & <- & Hi). destruct (Hk x Hi) as [Hc|E]; [|exact E]. unfold common_props in Hc. cbn [In] in Hc.
  destruct Hc as [<-|[<-|[<-|[<-|[<-|[]]]]]]; [eapply text_again; eauto|eapply text_again; eauto|eapply text_again; eauto|exact B4|eapply arches_prop_again; eauto].
Qed.
Lemma bool_again b b1 b2 k df : bool_carried b b1 k df -> bool_carried b1 b2 k df -> base_get b2 (S_ k) = base_get b1 (S_ k).
Proof. unfold bool_carried. intros E1 E2. rewrite E2, E1. now destruct (meaning _ df). Qed.
Lemma group_again df o g g1 g2 : group_read (RD := R1) df o g g1 -> group_read (RD := R2) df o g1 g2 -> base_tidy (g_base g1) /\ Forall (fun k => p_arches k <> Some []) (g_pkgs g1) -> group_stays g1 g2.
Proof.
  intros (A1 & A2 & A3 & A4 & A5 & A6 & A7) (B1 & B2 & B3 & B4 & B5 & B6 & B7) (Ht & Hp). split.
  - eapply base_again; [exact A1|exact B1|exact Ht|exact A3|exact B3|]. intros k Hk. unfold group_props in Hk. apply in_app_or in Hk. destruct Hk as [Hk|Hk]; [now left|right].
    cbn [In] in Hk. destruct Hk as [<-|[<-|[<-|[<-|[]]]]]; [exact (text_again _ _ _ A2 B2)|exact (bool_again _ _ _ _ _ A4 B4)|exact (bool_again _ _ _ _ _ A5 B5)|exact (bool_again _ _ _ _ _ A6 B6)].
  - eapply Forall2_chain; [|exact A7|exact B7|exact Hp]. intros x y z. apply pkg_again.
Qed.
Lemma gids_again o l l1 l2 : Forall2 (gid_after (RD := R1) o) l l1 -> Forall2 (gid_after (RD := R2) o) l1 l2 -> Forall gid_tidy l1 -> l2 = l1.
Proof. intros. eapply Forall2_chain; [|eassumption|eassumption|eassumption]. intros x y z. apply gid_again. Qed.
Lemma cat_again o g g1 g2 : cat_read (RD := R1) o g g1 -> cat_read (RD := R2) o g1 g2 -> base_tidy (c_base g1) /\ Forall gid_tidy (c_gids g1) -> cat_stays g1 g2.
Proof.
  intros (A1 & A2 & A3) (B1 & B2 & B3) (Ht & Hp). split; [|eapply gids_again; eauto].
  eapply base_again; [exact A1|exact B1|exact Ht|exact A2|exact B2|]. auto.
Qed.
Lemma env_again o g g1 g2 : env_read (RD := R1) o g g1 -> env_read (RD := R2) o g1 g2 -> base_tidy (e_base g1) /\ Forall gid_tidy (e_groups g1) /\ Forall gid_tidy (e_options g1) -> env_stays g1 g2.
Proof.
  intros (A1 & A2 & A3 & A4) (B1 & B2 & B3 & B4) (Ht & Hp & Hq). split; [|split; eapply gids_again; eauto].
  eapply base_again; [exact A1|exact B1|exact Ht|exact A2|exact B2|]. auto.
Qed.
Lemma lang_again t t1 t2 : lang_after t t1 -> lang_after t1 t2 -> forall k, rt_get t2 k = rt_get t1 k.
Proof.
  intros (A & Az) (B & _) k. rewrite B. destruct (tlen t1 =? 0) eqn:E; [apply Nat.eqb_eq in E; now rewrite (Az E)|].
  specialize (A k). rewrite A. destruct (tlen t =? 0); [reflexivity|]. destruct (rt_get t k) as [[v|]| |]; reflexivity.
Qed.
Lemma mdict_again t t1 t2 : mdict_after t t1 -> mdict_after t1 t2 -> mdict_tidy t1 -> forall k, mt_get t2 k = mt_get t1 k.
Proof.
  intros (A & Az & _) (_ & _ & B) Ht. apply B. split; [|exact Az]. intros k l E. destruct (Ht k l E) as [Hn Hf]. split; [|exact Hn]. specialize (A k). rewrite E in A. cbn [plain] in A.
  assert (Hs : exists ss, mflat l = map Some ss).
  { destruct (mt_get t k) as [[l0|]| |]; [|exists []; exact A|exists []; exact A|exists []; exact A]. destruct (mlen t =? 0)%Z; [exists []; exact A|]. destruct A as (ss & _ & A). eauto. }
  destruct Hs as (ss & Hs). clear -Hf Hs. revert ss Hs. induction Hf as [|v l (s & ->) _ IH]; intros ss Hs; [constructor|]. cbn in Hs. destruct ss as [|x ss]; [discriminate|]. injection Hs as -> Hs.
  constructor; [eauto|]. exact (IH ss Hs).
Qed.
Lemma Forall2_nil_iff {A B} (R : A -> B -> Prop) l l' : Forall2 R l l' -> (l = [] <-> l' = []).
Proof. intros H. inversion H; subst; split; congruence. Qed.
Lemma kept_not {A} (out : A -> Prop) l l' : kept out l l' -> Forall (fun x => ~ out x) l'.
Proof. induction 1; auto. Qed.
Lemma Forall2_right {A B} (R : A -> B -> Prop) (P : A -> Prop) (Q : B -> Prop) l l' : (forall x y, R x y -> P x -> Q y) -> Forall2 R l l' -> Forall P l -> Forall Q l'.
Proof. intros H HR. induction HR as [|x y l l' Hx _ IH]; intros HP; [constructor|]. apply Forall_cons_iff in HP. destruct HP. constructor; eauto. Qed.
Lemma Forall2_stays {A} (R S U : A -> A -> Prop) (T : A -> Prop) l : forall l1 l2, (forall x y z, R x y -> S y z -> T y -> U y z) -> Forall2 R l l1 -> Forall2 S l1 l2 -> Forall T l1 -> Forall2 U l1 l2.
Proof.
  induction l as [|x l IH]; intros l1 l2 H H1 H2 H3; inversion H1; subst; inversion H2; subst; [constructor|]. apply Forall_cons_iff in H3. destruct H3. constructor; eauto.
Qed.
(** The second reading of the parts. *)
Lemma parts_again df o p p1 p2 c1 c2 : parts_read (RD := R1) df o p p1 c1 -> parts_read (RD := R2) df o p1 p2 c2 -> parts_tidy p1 -> parts_stay p1 p2 /\ (c1 = 0%Z -> c2 = 0%Z).
Proof.
  intros (gs & cs & es & K1 & K2 & K3 & F1 & F2 & F3 & L & M1 & M2 & _ & C) (gs' & cs' & es' & K1' & K2' & K3' & F1' & F2' & F3' & L' & M1' & M2' & H01 & C') (T1 & T2 & T3 & T4 & T5).
  assert (N1 : Forall (fun x => ~ group_left_out o x) (pt_groups p1)).
  { eapply Forall2_right; [|exact F1|exact (kept_not _ _ _ K1)]. intros x y (_ & _ & _ & _ & _ & _ & Hp) Hx (Hy & Hx'). apply Hx. split; [|exact Hx']. now apply (Forall2_nil_iff _ _ _ Hp). }
  assert (N2 : Forall (fun x => ~ cat_left_out o x) (pt_cats p1)).
  { eapply Forall2_right; [|exact F2|exact (kept_not _ _ _ K2)]. intros x y (_ & _ & Hp) Hx (Hy & Hx'). apply Hx. split; [|exact Hx']. now apply (Forall2_nil_iff _ _ _ Hp). }
  assert (N3 : Forall (fun x => ~ env_left_out o x) (pt_envs p1)).
  { eapply Forall2_right; [|exact F3|exact (kept_not _ _ _ K3)]. intros x y (_ & _ & Hp & Hq) Hx (Hy & Hy' & Hx'). apply Hx. split; [now apply (Forall2_nil_iff _ _ _ Hp)|]. split; [|exact Hx']. now apply (Forall2_nil_iff _ _ _ Hq). }
  apply kept_all in K1', K2', K3'; try assumption. subst gs' cs' es'.
  assert (S1 : Forall2 group_stays (pt_groups p1) (pt_groups p2)) by (eapply Forall2_stays; [|exact F1|exact F1'|exact T1]; intros x y z; apply group_again).
  assert (S2 : Forall2 cat_stays (pt_cats p1) (pt_cats p2)) by (eapply Forall2_stays; [|exact F2|exact F2'|exact T2]; intros x y z; apply cat_again).
  assert (S3 : Forall2 env_stays (pt_envs p1) (pt_envs p2)) by (eapply Forall2_stays; [|exact F3|exact F3'|exact T3]; intros x y z; apply env_again).
  split.
  - split; [exact S1|]. split; [exact S2|]. split; [exact S3|]. split; [eapply lang_again; eauto|]. split; eapply mdict_again; eauto.
  - intros Hc. apply C in Hc. destruct Hc as (W1 & W2 & W3). apply C'.
    assert (Hb : forall b b1 b2, base_whole b b1 -> base_stays b1 b2 -> base_whole b1 b2).
    { intros b b1 b2 (Q1 & _) (Q2 & Q3 & Q4). split; [intros k Hk; rewrite Q2; now apply Q1|]. split; intros k Hk; rewrite ?Q3, ?Q4; exact Hk. }
    split; [|split].
    + assert (X : Forall (fun g => (exists g0, base_whole (g_base g0) (g_base g)) /\ Forall (fun p => p_name p <> None) (g_pkgs g) /\ (g_pkgs g = [] -> x_empty_packages o = false)) (pt_groups p1)).
      { clear -W1 F1. revert F1. induction W1 as [|x y l l' Hx _ IH]; intros F1; inversion F1; subst; [constructor|]. constructor; [|now apply IH]. destruct Hx as (Q1 & Q2 & Q3).
        split; [now exists x|]. split; [exact Q2|]. intros E. apply Q3. eapply Forall2_nil_iff; [|exact E]. apply H2. }
      clear -X S1 Hb. induction S1 as [|x y l l' (Hx & Hp) _ IH]; [constructor|]. apply Forall_cons_iff in X. destruct X as [((g0 & X0) & X1 & X2) X]. constructor; [|now apply IH].
      split; [eapply Hb; eauto|]. rewrite Hp. auto.
    + assert (X : Forall (fun g => (exists g0, base_whole (c_base g0) (c_base g)) /\ (c_gids g = [] -> x_empty_grouplist o = false)) (pt_cats p1)).
      { clear -W2 F2. revert F2. induction W2 as [|x y l l' Hx _ IH]; intros F2; inversion F2; subst; [constructor|]. constructor; [|now apply IH]. destruct Hx as (Q1 & Q3).
        split; [now exists x|]. intros E. apply Q3. eapply Forall2_nil_iff; [|exact E]. apply H2. }
      clear -X S2 Hb. induction S2 as [|x y l l' (Hx & Hp) _ IH]; [constructor|]. apply Forall_cons_iff in X. destruct X as [((g0 & X0) & X2) X]. constructor; [|now apply IH].
      split; [eapply Hb; eauto|exact X2].
    + assert (X : Forall (fun g => (exists g0, base_whole (e_base g0) (e_base g)) /\ (e_groups g = [] -> x_empty_grouplist o = false)) (pt_envs p1)).
      { clear -W3 F3. revert F3. induction W3 as [|x y l l' Hx _ IH]; intros F3; inversion F3; subst; [constructor|]. constructor; [|now apply IH]. destruct Hx as (Q1 & Q3).
        split; [now exists x|]. intros E. apply Q3. eapply Forall2_nil_iff; [|exact E]. apply H2. }
      clear -X S3 Hb. induction S3 as [|x y l l' (Hx & Hp) _ IH]; [constructor|]. apply Forall_cons_iff in X. destruct X as [((g0 & X0) & X2) X]. constructor; [|now apply IH].
      split; [eapply Hb; eauto|exact X2].
Qed.

(** Display orders fit again. *)
Lemma fits_again b b1 : carried b b1 "display_order" -> fits b -> fits b1.
Proof. unfold carried, fits, SpecG.prop. intros E H v Hv. apply H. now rewrite <- E. Qed.
Lemma kept_sub {A} (out : A -> Prop) (P : A -> Prop) l l' : kept out l l' -> Forall P l -> Forall P l'.
Proof. induction 1; intros HP; auto; apply Forall_cons_iff in HP; destruct HP; auto. Qed.
Lemma parts_fit_again df o p p1 c1 : parts_read (RD := R1) df o p p1 c1 -> parts_fit p -> parts_fit p1.
Proof.
  intros (gs & cs & es & K1 & K2 & K3 & F1 & F2 & F3 & _) (G1 & G2 & G3). split; [|split].
  - eapply Forall2_right; [|exact F1|exact (kept_sub _ _ _ _ K1 G1)]. intros x y (B & _). apply fits_again. apply B.
  - eapply Forall2_right; [|exact F2|exact (kept_sub _ _ _ _ K2 G2)]. intros x y (B & _). apply fits_again. apply B.
  - eapply Forall2_right; [|exact F3|exact (kept_sub _ _ _ _ K3 G3)]. intros x y (B & _). apply fits_again. apply B.
Qed.
Lemma stays_same b b' : base_stays b b' -> same_base b b'.
Proof. intros (A & B & C). split; [|split]; intros k; symmetry; [apply A|apply B|apply C]. Qed.
Lemma doc_stays_same d d' : doc_stays d d' -> docs_same d d'.
Proof.
  intros (A1 & A2 & A3 & A4 & G & C & E & L & B & W).
  assert (Rp : forall l, Forall2 pkg_same l l) by (induction l; constructor; auto; repeat split).
  assert (Rg : forall l, Forall2 gid_same l l) by (induction l; constructor; auto; repeat split).
  unfold docs_same. do 4 (split; [now symmetry|]).
  split; [eapply Forall2_imp; [|exact C]; intros x y [H1 H2]; split; [now apply stays_same|rewrite H2; apply Rg]|].
  split; [eapply Forall2_imp; [|exact G]; intros x y [H1 H2]; split; [now apply stays_same|rewrite H2; apply Rp]|].
  split; [eapply Forall2_imp; [|exact E]; intros x y (H1 & H2 & H3); split; [now apply stays_same|rewrite H2, H3; split; apply Rg]|].
  split; [intros k; symmetry; apply L|].
  split; intros k; unfold listed; [rewrite (B k)|rewrite (W k)]; split; intros H; exact H.
Qed.
Lemma doc_again df o d en st1 c1 d1 st2 c2 : loaded_any (RD := R1) df o d en st1 c1 -> ps_doc st1 = PLive d1 -> parts_tidy (doc_parts d1) ->
  loaded_any (RD := R2) df o d1 en st2 c2 ->
  exists d2, ps_doc st2 = PLive d2 /\ doc_stays d1 d2 /\ (exists a b, doc_cmp d1 d2 = Ok (a, b, true)) /\ (c1 = 0%Z -> c2 = 0%Z /\ ps_log st2 = []).
Proof.
  intros (x & Ex & Wx & Hx & _ & Px) E1 Ht (d2 & E2 & W2 & H2 & L2 & P2). rewrite E1 in Ex. assert (x = d1) by congruence. subst x. exists d2. split; [exact E2|].
  destruct (parts_again _ _ _ _ _ _ _ Px P2 Ht) as [S C].
  assert (D : doc_stays d1 d2) by (destruct Hx as (A1 & _), H2 as (B1 & B2 & B3 & B4); split; [congruence|auto]).
  split; [exact D|]. split.
  - destruct (doc_cmp_spec d1 d2 Wx W2) as (a & b & c & Ec & Hc & _). exists a, b. rewrite Ec. do 2 f_equal. apply Hc. now apply doc_stays_same.
  - intros Hc. split; [now apply C|]. apply L2. now apply C.
Qed.
End Twice.
(** ** What is read of a whole string, exactly *)
Lemma squeezed_retext cs : Forall2 (retext (keeps (reader := squeeze_reader))) cs (map squeezed cs).
Proof. induction cs as [|c cs IH]; [constructor|]. cbn [map]. constructor; [|exact IH]. destruct c; try (apply RT_same; discriminate). now apply RT_text. Qed.
Lemma str_again ac x df d w' en : docwf d -> parts_fit (doc_parts d) -> comps2xml_str ac x df d w0 = Ok (w', tt) -> Forall (fun c => snd c = true) (w_calls w') ->
  enc_str d = ! "UTF-8" -> doctype_ok d -> Forall xml_text (strs (calls w')) ->
  exists b st' c, printed (calls w') = Some b /\ load_str (parsed_init en) b df = Some (Ok (st', c)) /\ loaded_any (RD := squeeze_reader) (opt_dopts df) (opt_xopts x) d en st' c.
Proof.
  intros Hw Hf E Ha He Hd Hx. assert (Hp : printable x df d (calls w')) by (repeat split; auto; right; eauto). destruct (printable_bytes _ _ _ _ Hp) as (b & Hb & _).
  destruct (str_exact _ _ _ _ _ (parsed_init en) df Hp Hb) as (es & K & L).
  destruct (round_str_any (RD := squeeze_reader) ac x df d w' (map squeezed (calls w')) en (es, None) Hw Hf E Ha) as (st' & c & P & R); [|exact K|reflexivity|].
  { apply (retext_seen (RD := squeeze_reader)); [apply squeezed_retext|exact (heard_no_blanks _ _ _ K)]. }
  exists b, st', c. split; [exact Hb|]. split; [now rewrite L, P|]. now apply result_any.
Qed.
Lemma doctype_again d d1 en : head_carried d d1 en -> doctype_ok d -> doctype_ok d1.
Proof. intros (_ & A & B & C). unfold doctype_ok, ostr_tostr. now rewrite A, B, C. Qed.
Lemma twice_str ac ac' x df d w1 en b1 st1 c1 d1 w2 : docwf d -> parts_fit (doc_parts d) -> comps2xml_str ac x df d w0 = Ok (w1, tt) -> Forall (fun c => snd c = true) (w_calls w1) ->
  enc_str d = ! "UTF-8" -> doctype_ok d -> Forall xml_text (strs (calls w1)) -> printed (calls w1) = Some b1 -> load_str (parsed_init en) b1 df = Some (Ok (st1, c1)) -> ps_doc st1 = PLive d1 ->
  parts_tidy (doc_parts d1) -> comps2xml_str ac' x df d1 w0 = Ok (w2, tt) -> Forall (fun c => snd c = true) (w_calls w2) -> enc_str d1 = ! "UTF-8" -> Forall xml_text (strs (calls w2)) ->
  exists b2 st2 c2 d2, printed (calls w2) = Some b2 /\ load_str (parsed_init en) b2 df = Some (Ok (st2, c2)) /\ ps_doc st2 = PLive d2 /\
    doc_stays d1 d2 /\ (exists a b, doc_cmp d1 d2 = Ok (a, b, true)) /\ (c1 = 0%Z -> c2 = 0%Z /\ ps_log st2 = []).
Proof.
  intros Hw Hf E Ha He Hd Hx Hb1 Hl1 Hd1 Ht E2 Ha2 He2 Hx2. destruct (str_again ac x df d w1 en Hw Hf E Ha He Hd Hx) as (b & st & c & Eb & El & L).
  rewrite Hb1 in Eb. assert (b = b1) by congruence. subst b. rewrite Hl1 in El. assert (st = st1 /\ c = c1) as [-> ->] by (split; congruence).
  pose proof L as (d' & Ed & Wd & Hh & _ & Pr). rewrite Hd1 in Ed. assert (d' = d1) by congruence. subst d'.
  destruct (str_again ac' x df d1 w2 en Wd (parts_fit_again _ _ _ _ _ _ Pr Hf) E2 Ha2 He2 (doctype_again _ _ _ Hh Hd) Hx2) as (b2 & st2 & c2 & Eb2 & El2 & L2).
  destruct (doc_again _ _ settles_squeeze _ _ _ _ _ _ _ _ _ L Hd1 Ht L2) as (d2 & Q). exists b2, st2, c2, d2. tauto.
Qed.
Lemma retext_refl cs : Forall2 (retext (keeps (reader := exact_reader))) cs cs.
Proof. induction cs as [|c cs IH]; [constructor|]. constructor; [|exact IH]. destruct c; try (apply RT_same; discriminate). now apply RT_text. Qed.
Lemma twice_events ac name saved ac' name' saved' x df d w1 r cs1 st fs1 st1 c1 d1 w2 r2 st' fs2 : docwf d -> parts_fit (doc_parts d) ->
  comps2xml_f ac name saved x df d w0 = Ok (w1, r) -> Forall (fun c => snd c = true) (w_calls w1) ->
  Forall2 (retext thinner) (calls w1) cs1 -> heard [] cs1 (concat (map fst fs1)) -> Forall (fun f => snd f = None) fs1 -> ready st ->
  parse_file false st (Some fs1) df = Ok (st1, c1) -> ps_doc st1 = PLive d1 -> parts_tidy (doc_parts d1) ->
  comps2xml_f ac' name' saved' x df d1 w0 = Ok (w2, r2) -> Forall (fun c => snd c = true) (w_calls w2) ->
  heard [] (calls w2) (concat (map fst fs2)) -> Forall (fun f => snd f = None) fs2 -> ready st' -> ps_enc st' = ps_enc st ->
  exists st2 c2 d2, parse_file false st' (Some fs2) df = Ok (st2, c2) /\ ps_doc st2 = PLive d2 /\
    doc_stays d1 d2 /\ (exists a b, doc_cmp d1 d2 = Ok (a, b, true)) /\ (c1 = 0%Z -> c2 = 0%Z /\ ps_log st2 = []).
Proof.
  intros Hw Hf E Ha Hr Hh Hn Hs P1 D1 Ht E2 Ha2 Hh2 Hn2 Hs2 He.
  destruct (any_events (RD := thin_reader) ac name saved x df d w1 r cs1 st fs1 Hw Hf E Ha Hr Hh Hn Hs) as (s1 & c & P & _ & L).
  rewrite P1 in P. assert (s1 = st1 /\ c = c1) as [-> ->] by (split; congruence). pose proof L as (d' & Ed & Wd & _ & _ & Pr). rewrite D1 in Ed. assert (d' = d1) by congruence. subst d'.
  destruct (any_events (RD := exact_reader) ac' name' saved' x df d1 w2 r2 (calls w2) st' fs2 Wd (parts_fit_again _ _ _ _ _ _ Pr Hf) E2 Ha2 (retext_refl _) Hh2 Hn2 Hs2) as (st2 & c2 & P2 & _ & L2).
  rewrite He in L2. destruct (doc_again _ _ (settles_exact _) _ _ _ _ _ _ _ _ _ L D1 Ht L2) as (d2 & Q). exists st2, c2, d2. tauto.
Qed.
