(** Reading back whatever was written: the rows and the members of an object. *)
From Coq Require Import NArith Nnat Sorted.
From Verif Require Import CStr CStrFacts HSListModel HSListFacts RTreeModel RTreeFacts RTreeFacts2 RTreeFacts3 RTreeFacts4 MRTreeModel MRTreeFacts MRTreeFacts2
  ObjModel ObjFacts2 Dec StrModel StrFacts DocModel DocFacts2 SpecA SpecB SpecD SpecE ParseModel ParseFacts SpecF SpecF2 SpecF3 SpecF4 XmlModel XmlFacts SpecG SpecG2 SpecG3 SpecG4 SpecG5
  SpecG7 TextFacts5 SpecR SpecR2.

Ltac streq_tac := repeat match goal with |- context [streq ?a ?b] => let v := eval vm_compute in (streq a b) in change (streq a b) with v; cbn iota end.
Ltac free_tac :=
  unfold free in *;
  repeat (match goal with
  | P : put _ ?b _ _ |- look (troot (b_props ?b)) _ = _ => rewrite (proj2 (proj2 (proj2 P)))
  | P : b_props ?b = _ |- look (troot (b_props ?b)) _ = _ => rewrite P
  | P : put _ ?b _ _ |- look (troot (b_props ?b)) _ = _ \/ _ => rewrite (proj2 (proj2 (proj2 P)))
  | P : b_props ?b = _ |- look (troot (b_props ?b)) _ = _ \/ _ => rewrite P
  end; streq_tac).

(** ** What becomes of an object's texts *)
Section Reader.
Context {RD : reader}.
Definition base_after (b0 b : base) : Prop :=
  pb b /\ prop_after b0 b (S_ "id") /\ prop_after b0 b (S_ "name") /\ prop_after b0 b (S_ "desc") /\ same_prop b0 b "display_order" /\
  dict_after (b_names b0) (b_names b) /\ dict_after (b_descs b0) (b_descs b).
(** Nothing that was written is missing. *)
Definition rows_full (b0 b : base) : Prop :=
  prop_full b0 b (S_ "id") /\ prop_full b0 b (S_ "name") /\ dict_full (b_names b0) (b_names b) /\ prop_full b0 b (S_ "desc") /\ dict_full (b_descs b0) (b_descs b).
Definition base_fits (b0 : base) : Prop := breach b0 /\ prop b0 (S_ "display_order") order_fits.
Lemma rows_cons_inv b0 r rows ts ts' : rows_trees b0 (r :: rows) = Ok ts -> Forall2 thin ts ts' ->
  exists x y x' y', row_trees b0 r = Ok x /\ rows_trees b0 rows = Ok y /\ ts' = x' ++ y' /\ Forall2 thin x x' /\ Forall2 thin y y'.
Proof.
  cbn [rows_trees]. destruct (row_trees b0 r) as [x| |]; cbn [bind]; try discriminate. destruct (rows_trees b0 rows) as [y| |]; cbn [bind]; try discriminate. intros E. injection E as <-.
  intros H. apply Forall2_app_inv_l in H. destruct H as (x' & y' & H1 & H2 & ->). eauto 10.
Qed.
Lemma Ok_inj {A} (a b : A) : Ok a = Ok b -> a = b.
Proof. congruence. Qed.
Section Objects.
Variables (dt : option (ostr * ostr * ostr)) (en : ostr) (op : dopts).
Notation plays2 := (plays2 dt en op).
Notation turns2 := (turns2 dt en op).

Lemma common_any w b0 b ts ts' : base_fits b0 -> blank_base b -> rows_trees b0 common_rows = Ok ts -> Forall2 thin ts ts' ->
  exists b' es, turns2 w ts' b b' es /\ base_after b0 b' /\ same_prop b b' "arches" /\ (es = [] <-> rows_full b0 b') /\
    forall k, ~ In k [S_ "id"; S_ "name"; S_ "desc"; S_ "display_order"] -> look (troot (b_props b')) k = look (troot (b_props b)) k.
Proof.
  intros (Hbr & Ho) (Hb & En & Ed & Hf) E Ht. unfold common_rows in E.
  destruct (rows_cons_inv _ _ _ _ _ E Ht) as (t1 & u1 & t1' & u1' & R1 & E1 & -> & T1 & U1). clear E Ht.
  destruct (rows_cons_inv _ _ _ _ _ E1 U1) as (t2 & u2 & t2' & u2' & R2 & E2 & -> & T2 & U2). clear E1 U1.
  destruct (rows_cons_inv _ _ _ _ _ E2 U2) as (t3 & u3 & t3' & u3' & R3 & E3 & -> & T3 & U3). clear E2 U2.
  destruct (rows_cons_inv _ _ _ _ _ E3 U3) as (t4 & u4 & t4' & u4' & R4 & E4 & -> & T4 & U4). clear E3 U3.
  destruct (rows_cons_inv _ _ _ _ _ E4 U4) as (t5 & u5 & t5' & u5' & R5 & E5 & -> & T5 & U5). clear E4 U4.
  destruct (rows_cons_inv _ _ _ _ _ E5 U5) as (t6 & u6 & t6' & u6' & R6 & E6 & -> & T6 & U6). clear E5 U5.
  cbn [rows_trees] in E6. injection E6 as <-. apply thin_none in U6. subst u6'.
  destruct (plain_row_any dt en op w (S_ "id") (S_ "id") b0 b _ _ ltac:(unfold plain_tags; cbn [In]; tauto) Hb ltac:(apply Hf; discriminate) R1 T1) as (b1 & e1 & v1 & Q1 & P1 & A1).
  destruct (plain_row_any dt en op w (S_ "name") (S_ "name") b0 b1 _ _ ltac:(unfold plain_tags; cbn [In]; tauto) (proj1 P1) ltac:(free_tac; apply Hf; discriminate) R2 T2) as (b2 & e2 & v2 & Q2 & P2 & A2).
  destruct (names_row_any dt en op w b0 b2 _ _ (proj1 (proj2 Hbr)) (proj1 P2) ltac:(destruct P1 as (_ & ? & _), P2 as (_ & ? & _); congruence) R3 T3) as (b3 & e3 & Q3 & Hb3 & P3 & D3 & N3 & A3).
  destruct (plain_row_any dt en op w (S_ "description") (S_ "desc") b0 b3 _ _ ltac:(unfold plain_tags; cbn [In]; tauto) Hb3 ltac:(free_tac; apply Hf; discriminate) R4 T4) as (b4 & e4 & v4 & Q4 & P4 & A4).
  destruct (descs_row_any dt en op w b0 b4 _ _ (proj2 (proj2 Hbr)) (proj1 P4) ltac:(destruct P1 as (_ & ? & ? & _), P2 as (_ & ? & ? & _), P4 as (_ & ? & ? & _); congruence) R5 T5)
    as (b5 & e5 & Q5 & Hb5 & P5 & D5 & N5 & A5).
  destruct (order_row_any dt en op w b0 b5 _ _ Ho Hb5 ltac:(free_tac; apply Hf; discriminate) R6 T6) as (b6 & Q6 & P6).
  assert (I1 : look (troot (b_props b6)) (S_ "id") = v1) by (free_tac; reflexivity).
  assert (I2 : look (troot (b_props b6)) (S_ "name") = v2) by (free_tac; reflexivity).
  assert (I4 : look (troot (b_props b6)) (S_ "desc") = v4) by (free_tac; reflexivity).
  assert (I3 : b_names b6 = b_names b3) by (destruct P4 as (_ & ? & _), P6 as (_ & ? & _); congruence).
  assert (I5 : b_descs b6 = b_descs b5) by (destruct P6 as (_ & _ & ? & _); congruence).
  destruct (A1 b6 I1) as [B1 C1], (A2 b6 I2) as [B2 C2], (A4 b6 I4) as [B4 C4].
  exists b6, (e1 ++ e2 ++ e3 ++ e4 ++ e5 ++ [] ++ []). split.
  { repeat (eapply turns2_app; [eassumption|]). apply turns2_nil. }
  split; [|split; [unfold same_prop; free_tac; reflexivity|split]].
  - split; [apply P6|]. split; [exact B1|]. split; [exact B2|]. split; [exact B4|]. split; [unfold same_prop; free_tac; reflexivity|]. rewrite I3, I5. split; [exact N3|exact N5].
  - unfold rows_full. rewrite I3, I5. cbn [app]. rewrite app_nil_r.
    apply app_nil_iff; [exact C1|]. apply app_nil_iff; [exact C2|]. apply app_nil_iff; [exact A3|]. apply app_nil_iff; [exact C4|exact A5].
  - intros k Hk. cbn [In] in Hk.
    assert (K : forall k', k <> k' -> streq k k' = false) by (intros k' Hn; destruct (streq k k') eqn:Es; [apply streq_iff in Es; contradiction|reflexivity]).
    rewrite (proj2 (proj2 (proj2 P6))), K by intuition congruence. rewrite P5, (proj2 (proj2 (proj2 P4))), K by intuition congruence.
    rewrite P3, (proj2 (proj2 (proj2 P2))), K by intuition congruence. rewrite (proj2 (proj2 (proj2 P1))), K by intuition congruence. reflexivity.
Qed.
Lemma group_any o b0 b ts ts' : base_fits b0 -> blank_base b -> rows_trees b0 (group_rows o op) = Ok ts -> Forall2 thin ts ts' ->
  exists b' es, turns2 OGroup ts' b b' es /\ base_after b0 b' /\ same_prop b b' "arches" /\ (es = [] <-> rows_full b0 b') /\ prop_after b0 b' (S_ "langonly") /\
    bool_pending b0 b' "def" (o_default op) /\ bool_pending b0 b' "uservisible" (o_uservisible op) /\ bool_pending b0 b' "biarchonly" (o_biarchonly op).
Proof.
  intros (Hbr & Ho) (Hb & En & Ed & Hf) E Ht. unfold group_rows in E.
  destruct (rows_cons_inv _ _ _ _ _ E Ht) as (t1 & u1 & t1' & u1' & R1 & E1 & -> & T1 & U1). clear E Ht.
  destruct (rows_cons_inv _ _ _ _ _ E1 U1) as (t2 & u2 & t2' & u2' & R2 & E2 & -> & T2 & U2). clear E1 U1.
  destruct (rows_cons_inv _ _ _ _ _ E2 U2) as (t3 & u3 & t3' & u3' & R3 & E3 & -> & T3 & U3). clear E2 U2.
  destruct (rows_cons_inv _ _ _ _ _ E3 U3) as (t4 & u4 & t4' & u4' & R4 & E4 & -> & T4 & U4). clear E3 U3.
  destruct (rows_cons_inv _ _ _ _ _ E4 U4) as (t5 & u5 & t5' & u5' & R5 & E5 & -> & T5 & U5). clear E4 U4.
  destruct (rows_cons_inv _ _ _ _ _ E5 U5) as (t6 & u6 & t6' & u6' & R6 & E6 & -> & T6 & U6). clear E5 U5.
  destruct (rows_cons_inv _ _ _ _ _ E6 U6) as (t7 & u7 & t7' & u7' & R7 & E7 & -> & T7 & U7). clear E6 U6.
  destruct (rows_cons_inv _ _ _ _ _ E7 U7) as (t8 & u8 & t8' & u8' & R8 & E8 & -> & T8 & U8). clear E7 U7.
  destruct (rows_cons_inv _ _ _ _ _ E8 U8) as (t9 & u9 & t9' & u9' & R9 & E9 & -> & T9 & U9). clear E8 U8.
  destruct (rows_cons_inv _ _ _ _ _ E9 U9) as (t10 & u10 & t10' & u10' & R10 & E10 & -> & T10 & U10). clear E9 U9.
  cbn [rows_trees] in E10. injection E10 as <-. apply thin_none in U10. subst u10'.
  destruct (plain_row_any dt en op OGroup (S_ "id") (S_ "id") b0 b _ _ ltac:(unfold plain_tags; cbn [In]; tauto) Hb ltac:(apply Hf; discriminate) R1 T1) as (b1 & e1 & v1 & Q1 & P1 & A1).
  destruct (plain_row_any dt en op OGroup (S_ "name") (S_ "name") b0 b1 _ _ ltac:(unfold plain_tags; cbn [In]; tauto) (proj1 P1) ltac:(free_tac; apply Hf; discriminate) R2 T2) as (b2 & e2 & v2 & Q2 & P2 & A2).
  destruct (names_row_any dt en op OGroup b0 b2 _ _ (proj1 (proj2 Hbr)) (proj1 P2) ltac:(destruct P1 as (_ & ? & _), P2 as (_ & ? & _); congruence) R3 T3) as (b3 & e3 & Q3 & Hb3 & P3 & D3 & N3 & A3).
  destruct (plain_row_any dt en op OGroup (S_ "description") (S_ "desc") b0 b3 _ _ ltac:(unfold plain_tags; cbn [In]; tauto) Hb3 ltac:(free_tac; apply Hf; discriminate) R4 T4) as (b4 & e4 & v4 & Q4 & P4 & A4).
  destruct (descs_row_any dt en op OGroup b0 b4 _ _ (proj2 (proj2 Hbr)) (proj1 P4) ltac:(destruct P1 as (_ & ? & ? & _), P2 as (_ & ? & ? & _), P4 as (_ & ? & ? & _); congruence) R5 T5)
    as (b5 & e5 & Q5 & Hb5 & P5 & D5 & N5 & A5).
  destruct (bool_row_any dt en op (S_ "default") (S_ "def") _ _ b0 b5 _ _ ltac:(unfold bool_keys; cbn [In]; tauto) Hb5 ltac:(free_tac; apply Hf; discriminate) R6 T6) as (b6 & v6 & Q6 & P6 & V6).
  destruct (bool_row_any dt en op (S_ "uservisible") (S_ "uservisible") _ _ b0 b6 _ _ ltac:(unfold bool_keys; cbn [In]; tauto) (proj1 P6) ltac:(free_tac; apply Hf; discriminate) R7 T7) as (b7 & v7 & Q7 & P7 & V7).
  destruct (bool_row_any dt en op (S_ "biarchonly") (S_ "biarchonly") _ _ b0 b7 _ _ ltac:(unfold bool_keys; cbn [In]; tauto) (proj1 P7) ltac:(free_tac; apply Hf; discriminate) R8 T8) as (b8 & v8 & Q8 & P8 & V8).
  destruct (order_row_any dt en op OGroup b0 b8 _ _ Ho (proj1 P8) ltac:(free_tac; apply Hf; discriminate) R9 T9) as (b9 & Q9 & P9).
  destruct (langonly_row_any dt en op b0 b9 _ _ (proj1 P9) ltac:(free_tac; apply Hf; discriminate) R10 T10) as (b10 & v10 & Q10 & P10 & A10).
  assert (I1 : look (troot (b_props b10)) (S_ "id") = v1) by (free_tac; reflexivity).
  assert (I2 : look (troot (b_props b10)) (S_ "name") = v2) by (free_tac; reflexivity).
  assert (I4 : look (troot (b_props b10)) (S_ "desc") = v4) by (free_tac; reflexivity).
  assert (I10 : look (troot (b_props b10)) (S_ "langonly") = v10) by (free_tac; reflexivity).
  assert (I3 : b_names b10 = b_names b3).
  { destruct P4 as (_ & ? & _), P6 as (_ & ? & _), P7 as (_ & ? & _), P8 as (_ & ? & _), P9 as (_ & ? & _), P10 as (_ & ? & _). congruence. }
  assert (I5 : b_descs b10 = b_descs b5).
  { destruct P6 as (_ & _ & ? & _), P7 as (_ & _ & ? & _), P8 as (_ & _ & ? & _), P9 as (_ & _ & ? & _), P10 as (_ & _ & ? & _). congruence. }
  destruct (A1 b10 I1) as [B1 C1], (A2 b10 I2) as [B2 C2], (A4 b10 I4) as [B4 C4].
  exists b10, (e1 ++ e2 ++ e3 ++ e4 ++ e5 ++ [] ++ [] ++ [] ++ [] ++ [] ++ []). split.
  { repeat (eapply turns2_app; [eassumption|]). apply turns2_nil. }
  split; [|split; [unfold same_prop; free_tac; reflexivity|split; [|split]]].
  - split; [apply P10|]. split; [exact B1|]. split; [exact B2|]. split; [exact B4|]. split; [unfold same_prop; free_tac; reflexivity|]. rewrite I3, I5. split; [exact N3|exact N5].
  - unfold rows_full. rewrite I3, I5. cbn [app]. rewrite app_nil_r.
    apply app_nil_iff; [exact C1|]. apply app_nil_iff; [exact C2|]. apply app_nil_iff; [exact A3|]. apply app_nil_iff; [exact C4|exact A5].
  - exact (A10 b10 I10).
  - unfold bool_pending. split; [|split]; free_tac; cbn zeta.
    + destruct V6 as [->|[-> V6]]; auto.
    + destruct V7 as [->|[-> V7]]; auto.
    + destruct V8 as [->|[-> V8]]; auto.
Qed.

(** ** Members *)
(** The architectures: the words of the list written. *)
Definition arches_after (o : xopts) (l : option (list ostr)) : option (list ostr) :=
  match l with
  | Some (x :: r) => if x_arch o then Some (split_arches (join (S_ " ") (map str_tostr (x :: r)))) else None
  | _ => None
  end.
Lemma arches_attr_any o l a : arch_attr o l = Ok a ->
  a = [] /\ arches_after o l = None \/ exists s, a = [(S_ "arch", s)] /\ arches_after o l = Some (split_arches s).
Proof.
  unfold arch_attr, arches_after. destruct (x_arch o); [|intros E; injection E as <-; left; split; [reflexivity|]; destruct l as [[|]|]; reflexivity].
  destruct l as [[|x r]|]; try (intros E; injection E as <-; now left). rewrite arch_str_ok. cbn [bind]. intros E. injection E as <-. right. eauto.
Qed.
Definition known_type (z : Z) : Z := if (z =? PK_OPTIONAL)%Z || (z =? PK_MANDATORY)%Z || (z =? PK_CONDITIONAL)%Z then z else PK_DEFAULT.
Definition bao_after (o : xopts) (v : option Z) : option Z :=
  match v with Some z => if x_bao o || negb (z =? 0)%Z then Some 1%Z else None | None => None end.
Definition req_after (v : option ostr) : option ostr := match v with Some s => told_text (str_tostr s) | None => None end.
Definition pkg_shell (o : xopts) (p : pkg) : pkg := mkPkg None (req_after (p_requires p)) (bao_after o (p_bao p)) (known_type (p_type p)) (arches_after o (p_arches p)).
Lemma pkg_type_back z : package_get_type (pkg_type_str z) = known_type z.
Proof.
  unfold pkg_type_str, known_type. destruct (z =? PK_OPTIONAL)%Z eqn:E1; [apply Z.eqb_eq in E1; subst z; reflexivity|].
  destruct (z =? PK_MANDATORY)%Z eqn:E2; [apply Z.eqb_eq in E2; subst z; reflexivity|]. destruct (z =? PK_CONDITIONAL)%Z eqn:E3; [apply Z.eqb_eq in E3; subst z; reflexivity|]. reflexivity.
Qed.
Lemma pkg_attrs_any o p t : pkg_tree o p = Ok t ->
  exists a dict, t = Elem (S_ "packagereq") a [Text (ostr_tostr (p_name p))] /\
    attrs_dict rt_create a = Ok dict /\ check_attributes false TPackagereq dict = Ok [] /\ pkg_of_attrs op dict = Ok (pkg_shell o p).
Proof.
  unfold pkg_tree. destruct (arch_attr o (p_arches p)) as [a| |] eqn:Ea; cbn [bind]; try discriminate. intros E. apply Ok_inj in E. subst t. apply arches_attr_any in Ea.
  unfold pkg_of_attrs, pkg_shell. rewrite <- pkg_type_back.
  assert (Hreq : exists q, match p_requires p with Some s => match str_tostr s with [] => [] | c :: l => [(S_ "requires", c :: l)] end | None => [] end
     = match q with Some s => [(S_ "requires", s)] | None => [] end /\ req_after (p_requires p) = match q with Some s => Some (Some s) | None => None end).
  { unfold req_after. destruct (p_requires p) as [s|]; [|exists None; auto]. destruct (str_tostr s) as [|c l]; [exists None; auto|]. exists (Some (c :: l)). auto. }
  destruct Hreq as (q & Hreq & ->). rewrite Hreq. clear Hreq.
  set (y := pkg_type_str (p_type p)) in *. clearbody y.
  destruct Ea as [[-> ->]|(z & -> & ->)]; cbn [app]; destruct q as [q|]; destruct (p_bao p) as [z0|]; unfold bao_after; try destruct (z0 =? 0)%Z; destruct (x_bao o); cbn [app orb negb];
   match goal with |- exists _ _, Elem _ ?A _ = _ /\ _ => attrs_tac TPackagereq A; exists A, dict end;
   (split; [reflexivity|]); (split; [eassumption|]); (split; [eassumption|]); rewrite !Eg; reflexivity.
Qed.
Definition gid_shell (o : xopts) (g : gid) : gid := mkGid None (gi_def g) (arches_after o (gi_arches g)).
Lemma gid_attrs_any o p t : gid_tree o p = Ok t ->
  exists a dict, t = Elem (S_ "groupid") a [Text (ostr_tostr (gi_name p))] /\
    attrs_dict rt_create a = Ok dict /\ check_attributes false TGroupid dict = Ok [] /\ gid_of_attrs dict = Ok (gid_shell o p).
Proof.
  unfold gid_tree. destruct (arch_attr o (gi_arches p)) as [a| |] eqn:Ea; cbn [bind]; try discriminate. intros E. apply Ok_inj in E. subst t. apply arches_attr_any in Ea.
  unfold gid_of_attrs, gid_shell.
  destruct Ea as [[-> ->]|(z & -> & ->)]; cbn [app]; destruct (x_gid_default o), (gi_def p); cbn [app orb bool_str];
   match goal with |- exists _ _, Elem _ ?A _ = _ /\ _ => attrs_tac TGroupid A; exists A, dict end;
   (split; [reflexivity|]); (split; [eassumption|]); (split; [eassumption|]); rewrite !Eg; reflexivity.
Qed.
(** What becomes of a package, of a group id. *)
Definition pkg_after (o : xopts) (p p' : pkg) : Prop :=
  text_after (ostr_tostr (p_name p)) (p_name p') /\ p_requires p' = req_after (p_requires p) /\ p_bao p' = bao_after o (p_bao p) /\
  p_type p' = known_type (p_type p) /\ p_arches p' = arches_after o (p_arches p).
Definition name_after (s : str) (x : option ostr) : Prop := blank s /\ x = Some None \/ exists s', keeps s s' /\ ~ blank s' /\ x = Some (Some s').
Definition gid_after (o : xopts) (g g' : gid) : Prop :=
  name_after (ostr_tostr (gi_name g)) (gi_name g') /\ gi_def g' = gi_def g /\ gi_arches g' = arches_after o (gi_arches g).
Lemma seen_name s s' : seen s s' -> name_after s (Some (text_of s')).
Proof.
  intros [H [->|Hb]]; [left; split; [|reflexivity]; apply (thinner_blank _ _ (keeps_thinner _ _ H)); constructor|]. right. exists s'. split; [exact H|]. split; [exact Hb|].
  destruct s'; [elim Hb; constructor|reflexivity].
Qed.
Lemma base_of_group P l b pk d : pdoc d -> doc_parts d = with_groups P (l ++ [mkG b pk]) -> pb b.
Proof. intros Hd E. destruct Hd as (_ & Hg & _). rewrite E in Hg. cbn [with_groups pt_groups] in Hg. apply Forall_snoc in Hg. apply Hg. Qed.
Lemma play_pkg_any o p t t' P l b pk el sk nm cs d : pkg_tree o p = Ok t -> thin t t' -> el_type el = TPackagelist -> el_valid el = true -> pdoc d ->
  doc_parts d = with_groups P (l ++ [mkG b pk]) ->
  exists d' p' es, plays2 (el :: sk) (PLive d) nm (ser t' ++ cs) (el :: sk) (PLive d') nm cs es /\
    pdoc d' /\ same_head d d' /\ doc_parts d' = with_groups P (l ++ [mkG b (pk ++ [p'])]) /\ pkg_after o p p' /\ (es = [] <-> p_name p' <> None).
Proof.
  intros Etr Ht Et Ev Hd E. destruct (pkg_attrs_any o p t Etr) as (a & dict & -> & Ea & Ec & Ek). apply thin_leaf in Ht. destruct Ht as (s' & -> & Hs).
  pose proof (base_of_group _ _ _ _ _ Hd E) as Hb. set (k := pkg_shell o p) in *.
  destruct (upd_last_group_ok d l (mkG b pk) (mkG b (pk ++ [k])) tt (fun g => Ok (group_add_pkg g k, tt)) Hd) as (d1 & E1 & Hd1 & Hh1 & P1);
    [now rewrite E|reflexivity|exact Hb|].
  assert (Hstart : forall o' cs', no_attr cs' -> plays2 (el :: sk) (PLive d) o' (WStart (S_ "packagereq") :: map attr_call a ++ cs')
     (mkElem TPackagereq true dict :: el :: sk) (PLive d1) (S_ "packagereq" :: o') cs' []).
  { intros o' cs' Hna. apply plays2_of, plays_start with (dict := dict) (p1 := PLive d1); [exact Hna|exact Ea|exact Ec| |].
    - unfold elem_valid. gtype. cbn [ancestors existsb]. rewrite Et, Ev. reflexivity.
    - gtype. unfold preproc. cbn [el_type el_attrs live bind]. rewrite Ek. cbn [bind]. rewrite E1. reflexivity. }
  assert (Hend : exists d2 p' es, postproc op (mkElem TPackagereq true dict) (el :: sk) (PLive d1) (text_of s') = Ok (PLive d2, es, None) /\ pdoc d2 /\ same_head d1 d2 /\
     doc_parts d2 = with_groups P (l ++ [mkG b (pk ++ [p'])]) /\ pkg_after o p p' /\ (es = [] <-> p_name p' <> None)).
  { pose proof (seen_after _ _ Hs) as Ha. destruct s' as [|c s'].
    - destruct (doc_groups_ok d1 (proj1 Hd1)) as (d2 & Eg & Hw2 & Hh2 & P2).
      exists d2, k, [perr E_NOCONTENT [Some (info_name TPackagereq)]]. split; [unfold postproc; cbn [el_type live bind text_of]; rewrite Eg; reflexivity|].
      split; [split; [exact Hw2|rewrite P2; exact (proj2 Hd1)]|]. split; [exact Hh2|]. split; [now rewrite P2, P1, E|]. split; [repeat split; exact Ha|]. split; [discriminate|intros H; now elim H].
    - set (p' := pkg_set_name k (Some (c :: s'))).
      destruct (upd_last_group_ok d1 l (mkG b (pk ++ [k])) (mkG b (pk ++ [p'])) (@nil pentry) (fun g => l <- name_last_pkg (g_pkgs g) (c :: s') ;; Ok (mkG (g_base g) l, [])) Hd1)
        as (d2 & E2 & Hd2 & Hh2 & P2); [now rewrite P1| |exact Hb|].
      { cbn [g_pkgs g_base]. unfold name_last_pkg. rewrite split_last_app. reflexivity. }
      exists d2, p', []. split; [|split; [exact Hd2|split; [exact Hh2|split; [now rewrite P2, P1, E|split; [repeat split; exact Ha|split; [discriminate|reflexivity]]]]]].
      unfold postproc. cbn [el_type live bind text_of]. rewrite E2. reflexivity. }
  destruct Hend as (d2 & p' & es & Ep & Hd2 & Hh2 & P2 & Hp & He).
  exists d2, p', es. split; [|split; [exact Hd2|split; [now apply same_head_trans with d1|auto]]].
  cbn [ser flat_map app]. rewrite <- app_assoc. cbn [app]. change es with ([] ++ es). eapply plays2_trans; [apply Hstart; exact I|].
  apply plays2_text_end; [reflexivity|reflexivity|exact Ep].
Qed.
End Objects.
End Reader.
