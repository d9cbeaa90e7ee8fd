(** Facts about the Python document object: options, saving, questions. *)
From Coq Require Import Lia.
From Verif Require Import CStr CStrFacts HSListModel HSListFacts SetModel SetFacts
  RTreeModel RTreeFacts RTreeFacts2 RTreeFacts3 RTreeFacts4 MRTreeModel MRTreeFacts MRTreeFacts2
  SpecA SpecB ObjModel ObjFacts ObjFacts2 SpecC DocModel DocFacts DocFacts2 SpecD SpecD2
  ParseModel ParseFacts SpecF SpecF2 SpecF3 SpecF4 XmlModel SpecG ValidateModel ValidateFacts SpecE PyObjModel PyDictModel PyDocModel
  PyDocFacts PyDocFacts2 PyDocFacts3 PyDocFacts4 PyDocFacts5.

(** * Options *)
Local Open Scope string_scope. Local Open Scope list_scope.
(** The names of the options, and what they set. *)
Definition xml_table : list (str * (xopts -> bool)) :=
  [ (S_ "empty_groups", x_empty_groups); (S_ "empty_categories", x_empty_categories);
    (S_ "empty_environments", x_empty_environments); (S_ "empty_packages", x_empty_packages);
    (S_ "empty_grouplist", x_empty_grouplist); (S_ "empty_optionlist", x_empty_optionlist);
    (S_ "biarchonly_explicit", x_biarchonly); (S_ "uservisible_explicit", x_uservisible);
    (S_ "default_explicit", x_default); (S_ "gid_default_explicit", x_gid_default);
    (S_ "bao_explicit", x_bao); (S_ "arch_output", x_arch) ].
Definition def_table : list (str * (dopts -> bool)) :=
  [ (S_ "default_uservisible", o_uservisible); (S_ "default_biarchonly", o_biarchonly); (S_ "default_default", o_default) ].
Definition pkgtype_key : str := S_ "default_pkgtype".
Local Close Scope string_scope.
Lemma lookup_in l k v : lookup l k = Some v -> In (k, v) l.
Proof.
  induction l as [|[x u] l IH]; cbn [lookup]; [discriminate|]. destruct (streq_spec x k) as [->|_]; [intros [= ->]; now left|].
  intros H. right. auto.
Qed.
Lemma in_lookup l k v : NoDup (map fst l) -> In (k, v) l -> lookup l k = Some v.
Proof.
  induction l as [|[x u] l IH]; intros N H; [destruct H|]. cbn [map fst] in N. inversion N as [|? ? N1 N2]; subst. cbn [lookup].
  destruct H as [[= -> ->]|H]; [destruct (streq_spec k k); congruence|].
  destruct (streq_spec x k) as [->|_]; [|auto]. exfalso. apply N1. apply in_map_iff. exists (k, v). auto.
Qed.
Lemma opt_bool_law l k dflt : NoDup (map fst l) ->
  (forall b, In (k, PyBool b) l -> opt_bool l k dflt = b) /\ ((forall b, ~ In (k, PyBool b) l) -> opt_bool l k dflt = dflt).
Proof.
  intros N. unfold opt_bool. split.
  - intros b H. now rewrite (in_lookup _ _ _ N H).
  - intros H. destruct (lookup l k) as [v|] eqn:L; [|reflexivity]. apply lookup_in in L. destruct v; try reflexivity. now apply H in L.
Qed.
Lemma xml_field l k f : In (k, f) xml_table -> f (xml_opts l) = opt_bool l k (f default_xopts).
Proof. intros H. repeat (destruct H as [[= <- <-]|H]; [reflexivity|]). destruct H. Qed.
Theorem xml_opts_law l k f : NoDup (map fst l) -> In (k, f) xml_table ->
  (forall b, In (k, PyBool b) l -> f (xml_opts l) = b) /\ ((forall b, ~ In (k, PyBool b) l) -> f (xml_opts l) = f default_xopts).
Proof. intros N H. rewrite (xml_field l k f H). now apply opt_bool_law. Qed.
Lemma xopts_ext a b : (forall k f, In (k, f) xml_table -> f a = f b) -> a = b.
Proof.
  intros H. destruct a as [a1 a2 a3 a4 a5 a6 a7 a8 a9 a10 a11 a12], b as [b1 b2 b3 b4 b5 b6 b7 b8 b9 b10 b11 b12].
  assert (K : forall f, In f (map snd xml_table) -> f (mkXO a1 a2 a3 a4 a5 a6 a7 a8 a9 a10 a11 a12) = f (mkXO b1 b2 b3 b4 b5 b6 b7 b8 b9 b10 b11 b12)).
  { intros f Hf. apply in_map_iff in Hf. destruct Hf as ([k g] & <- & Hg). exact (H k g Hg). }
  clear H.
  assert (K1 := K x_empty_groups). assert (K2 := K x_empty_categories). assert (K3 := K x_empty_environments).
  assert (K4 := K x_empty_packages). assert (K5 := K x_empty_grouplist). assert (K6 := K x_empty_optionlist).
  assert (K7 := K x_biarchonly). assert (K8 := K x_uservisible). assert (K9 := K x_default).
  assert (K10 := K x_gid_default). assert (K11 := K x_bao). assert (K12 := K x_arch). clear K.
  unfold xml_table in *. cbn [map snd In x_empty_groups x_empty_categories x_empty_environments x_empty_packages x_empty_grouplist x_empty_optionlist
    x_biarchonly x_uservisible x_default x_gid_default x_bao x_arch] in *.
  rewrite K1, K2, K3, K4, K5, K6, K7, K8, K9, K10, K11, K12 by tauto. reflexivity.
Qed.
(** Only the named options count. *)
Theorem xml_opts_only l m : NoDup (map fst l) -> NoDup (map fst m) ->
  (forall k b, In k (map fst xml_table) -> (In (k, PyBool b) l <-> In (k, PyBool b) m)) -> xml_opts l = xml_opts m.
Proof.
  intros Nl Nm H. apply xopts_ext. intros k f Hf.
  destruct (xml_opts_law l k f Nl Hf) as [A1 A2]. destruct (xml_opts_law m k f Nm Hf) as [B1 B2].
  assert (Hk : In k (map fst xml_table)) by (apply in_map_iff; exists (k, f); auto).
  destruct (lookup l k) as [v|] eqn:L.
  - apply lookup_in in L. assert (D : (exists b, v = PyBool b) \/ forall b, v <> PyBool b) by (destruct v; eauto; right; discriminate).
    destruct D as [[b ->]|D].
    + rewrite (A1 b L). symmetry. apply B1. now apply H.
    + assert (N : forall b, ~ In (k, PyBool b) l).
      { intros b Hb. pose proof (in_lookup _ _ _ Nl L). pose proof (in_lookup _ _ _ Nl Hb). apply (D b). congruence. }
      rewrite (A2 N). symmetry. apply B2. intros b Hb. apply (N b). now apply H.
  - assert (N : forall b, ~ In (k, PyBool b) l) by (intros b Hb; pose proof (in_lookup _ _ _ Nl Hb); congruence).
    rewrite (A2 N). symmetry. apply B2. intros b Hb. apply (N b). now apply H.
Qed.
Theorem def_opts_law l k f : NoDup (map fst l) -> In (k, f) def_table ->
  (forall b, In (k, PyBool b) l -> f (fst (def_opts l)) = b) /\
  ((forall b, ~ In (k, PyBool b) l) -> f (fst (def_opts l)) = f default_dopts).
Proof.
  intros N H. assert (E : f (fst (def_opts l)) = opt_bool l k (f default_dopts)).
  { repeat (destruct H as [[= <- <-]|H]; [reflexivity|]). destruct H. }
  rewrite E. now apply opt_bool_law.
Qed.
(** The type of packages. *)
Definition pkgtypes : list Z := [PK_DEFAULT; PK_OPTIONAL; PK_CONDITIONAL; PK_MANDATORY].
Definition number_of (v : pyval) (z : Z) : Prop := v = PyInt z \/ exists b, v = PyBool b /\ z = (if b then 1 else 0)%Z.
Definition fits_long (z : Z) : Prop := (- 9223372036854775808 <= z <= 9223372036854775807)%Z.
Lemma as_long_spec v : (exists z, number_of v z /\ fits_long z /\ as_long v = (z, false)) \/
  ((forall z, number_of v z -> ~ fits_long z) /\ as_long v = ((-1)%Z, true)).
Proof.
  unfold number_of, fits_long. destruct v as [|b|n|s| |s| |]; cbn [as_long];
    try (right; split; [intros y [H|(c & H & _)]; discriminate|reflexivity]).
  - left. exists (if b then 1 else 0)%Z. split; [right; eauto|]. split; [destruct b; lia|reflexivity].
  - destruct (Z.leb_spec (- 9223372036854775808) n) as [A|A]; [destruct (Z.leb_spec n 9223372036854775807) as [B|B]|]; cbn [andb].
    + left. exists n. split; [now left|]. auto.
    + right. split; [|reflexivity]. intros y [[= <-]|(c & H & _)]; [lia|discriminate].
    + right. split; [|reflexivity]. intros y [[= <-]|(c & H & _)]; [lia|discriminate].
Qed.
Lemma pkgtype_test z : ((z =? PK_DEFAULT) || (z =? PK_OPTIONAL) || (z =? PK_CONDITIONAL) || (z =? PK_MANDATORY))%Z = true <-> In z pkgtypes.
Proof. unfold pkgtypes. rewrite !Bool.orb_true_iff, !Z.eqb_eq. cbn [In]. split; intros H; decompose [or] H; subst; auto 10; contradiction. Qed.
Theorem pkgtype_law l : NoDup (map fst l) ->
  In (o_pkgtype (fst (def_opts l))) pkgtypes /\
  (forall v z, In (pkgtype_key, v) l -> number_of v z -> In z pkgtypes -> o_pkgtype (fst (def_opts l)) = z) /\
  ((forall v z, In (pkgtype_key, v) l -> number_of v z -> ~ In z pkgtypes) -> o_pkgtype (fst (def_opts l)) = o_pkgtype default_dopts) /\
  (snd (def_opts l) = true <-> exists v, In (pkgtype_key, v) l /\ forall z, number_of v z -> ~ fits_long z).
Proof.
  intros N. unfold def_opts. cbn [fst snd o_pkgtype]. change (S_ "default_pkgtype") with pkgtype_key.
  assert (Df : In (o_pkgtype default_dopts) pkgtypes) by (vm_compute; tauto).
  assert (Fun : forall v a b, number_of v a -> number_of v b -> a = b).
  { intros v a b [->|(c & -> & ->)] [H|(c' & H & ->)]; try congruence. injection H as ->. reflexivity. }
  assert (Small : forall z, In z pkgtypes -> fits_long z).
  { unfold fits_long, pkgtypes, PK_DEFAULT, PK_OPTIONAL, PK_CONDITIONAL, PK_MANDATORY. intros z H. cbn [In] in H. lia. }
  destruct (lookup l pkgtype_key) as [v|] eqn:L; cbn [fst snd].
  - pose proof (lookup_in _ _ _ L) as Hin.
    assert (Uni : forall u, In (pkgtype_key, u) l -> u = v) by (intros u Hu; pose proof (in_lookup _ _ _ N Hu); congruence).
    destruct (as_long_spec v) as [(z & Nz & Fz & E)|[Nz E]]; rewrite E; cbn [fst snd].
    + destruct (((z =? PK_DEFAULT) || (z =? PK_OPTIONAL) || (z =? PK_CONDITIONAL) || (z =? PK_MANDATORY))%Z) eqn:T.
      * apply pkgtype_test in T. split; [exact T|]. split; [|split; [|split; [discriminate|]]].
        -- intros u y Hu Hy _. rewrite (Uni u Hu) in Hy. exact (Fun _ _ _ Nz Hy).
        -- intros H. exfalso. exact (H v z Hin Nz T).
        -- intros (u & Hu & H). rewrite (Uni u Hu) in H. exfalso. exact (H z Nz Fz).
      * assert (Tn : ~ In z pkgtypes) by (intros H; apply pkgtype_test in H; congruence).
        split; [exact Df|]. split; [|split; [reflexivity|split; [discriminate|]]].
        -- intros u y Hu Hy Hi. rewrite (Uni u Hu) in Hy. rewrite (Fun _ _ _ Hy Nz) in Hi. contradiction.
        -- intros (u & Hu & H). rewrite (Uni u Hu) in H. exfalso. exact (H z Nz Fz).
    + change ((-1 =? PK_DEFAULT) || (-1 =? PK_OPTIONAL) || (-1 =? PK_CONDITIONAL) || (-1 =? PK_MANDATORY))%Z with false.
      split; [exact Df|]. split; [|split; [reflexivity|split; [|reflexivity]]].
      * intros u y Hu Hy Hi. rewrite (Uni u Hu) in Hy. exfalso. exact (Nz y Hy (Small y Hi)).
      * intros _. exists v. auto.
  - assert (No : forall u, ~ In (pkgtype_key, u) l) by (intros u Hu; pose proof (in_lookup _ _ _ N Hu); congruence).
    split; [exact Df|]. split; [intros u y Hu; now apply No in Hu|]. split; [reflexivity|]. split; [discriminate|].
    intros (u & Hu & _). now apply No in Hu.
Qed.

(** * Saving *)
Section Saving.
Variable accepts : list (call * bool) -> call -> bool.
Variable text : logitem -> str.
Lemma texts_map l ts : texts text l = Ok ts -> ts = map text l /\ Forall (fun i => utf8 (text i) = true) l.
Proof.
  revert ts. induction l as [|i l IH]; intros ts E; cbn [texts] in E; [injection E as <-; auto|].
  destruct (utf8 (text i)) eqn:U; [|discriminate]. apply bind_ok in E. destruct E as (r & E1 & E). injection E as <-.
  destruct (IH _ E1) as [-> F]. split; [reflexivity|]. constructor; assumption.
Qed.
Lemma texts_ok l : Forall (fun i => utf8 (text i) = true) l -> texts text l = Ok (map text l).
Proof. induction 1 as [|i l U F IH]; cbn [texts map]; [reflexivity|]. rewrite U, IH. reflexivity. Qed.
Lemma parser_errors l : filter is_error (map FromParser l) = map FromParser (filter (fun e => negb (pe_warn e)) l).
Proof. induction l as [|a l IH]; cbn [map filter is_error]; [reflexivity|]. destruct (negb (pe_warn a)); cbn [map]; now rewrite IH. Qed.
Lemma loaded_messages w d o st w' x : loads w d o st w' -> nth_error (w_docs w') d = Some x -> Forall (fun e => utf8 (text (FromParser e)) = true) (ps_log st) ->
  last_log text x = Ok (map (fun e => text (FromParser e)) (ps_log st)) /\
  last_errors text x = Ok (map (fun e => text (FromParser e)) (filter (fun e => negb (pe_warn e)) (ps_log st))).
Proof.
  intros (n & x' & _ & E & L & _) E' F. assert (x' = x) by congruence. subst x'. unfold last_log, last_errors. rewrite L. split.
  - rewrite texts_ok; [now rewrite map_map|]. apply Forall_map. exact F.
  - rewrite parser_errors, texts_ok; [now rewrite map_map|]. apply Forall_map. apply (incl_Forall (incl_filter _ _) F).
Qed.
Lemma writer_errors l : filter is_error (map FromWriter l) = map FromWriter l.
Proof. induction l as [|a l IH]; cbn [map filter is_error]; [reflexivity|]. now rewrite IH. Qed.
Definition named (enc : option ostr) : option ostr := match enc with Some e => Some e | None => Some (Some utf8_name) end.
Lemma relog_shows w d x0 x : inv w -> nth_error (w_docs w) d = Some x0 -> pd_objs x = pd_objs x0 -> pd_cache x = pd_cache x0 ->
  forall d' p v, doc_shows (with_pd w d x) d' p v <-> doc_shows w d' p v.
Proof.
  intros I X Eo Ec. destruct (relog_inv w d x0 x I X Eo Ec) as [I' _]. intros d' p v.
  apply (shows_others w (with_pd w d x) d x0 x (fun _ => True) I I'); auto.
  - intros l u H. exact H.
  - intros q _. now rewrite Eo.
Qed.
Lemma view_relog w x y : pd_objs y = pd_objs x -> view w y = bind (view w x) (fun n => Ok (mkDoc (d_objs n) (pd_enc y) (pd_name y) (pd_sysid y) (pd_pubid y))).
Proof.
  intros E. unfold view. assert (K : forall ps t, put_all w y ps t = put_all w x ps t).
  { induction ps as [|p ps IH]; intros t; cbn [put_all]; [reflexivity|]. rewrite E. destruct (match pd_objs x p with Some _ => _ | None => _ end); cbn [bind]; auto. }
  rewrite K. destruct (put_all w x all_parts rt_create); reflexivity.
Qed.
Theorem save_file_result w d fname saved x o w' r : inv w -> save_file accepts text w d fname saved x o = Ok (w', r) ->
  match xml_arg x, def_arg o with
  | Some xo, Some (df, pending) =>
      exists y n out c y', nth_error (w_docs w) d = Some y /\ view w y = Ok n /\
        comps2xml_f accepts fname saved xo df (mkDoc (d_objs n) (named (d_enc n)) (d_name n) (d_sysid n) (d_pubid n)) (mkW [] []) = Ok (out, c) /\
        w_docs w' = set_at (w_docs w) d y' /\ pd_log y' = map FromWriter (w_log out) /\ pd_enc y' = named (pd_enc y) /\
        last_log text y' = Ok (map text (pd_log y')) /\ last_errors text y' = last_log text y' /\
        r = (if pending || (c =? -1)%Z then DRetSet (VTexts (map text (pd_log y'))) else DRet (VTexts (map text (pd_log y')))) /\
        (forall d' p v, doc_shows w' d' p v <-> doc_shows w d' p v)
  | _, _ => w' = w /\ r = DRaise EType
  end.
Proof.
  intros I E. unfold save_file in E. destruct (at_ (w_docs w) d) as [y| |] eqn:X; cbn [bind] in E; try discriminate. apply at_ok in X.
  destruct (xml_arg x) as [xo|]; [|injection E as <- <-; auto].
  destruct (def_arg o) as [[df pending]|]; [|injection E as <- <-; auto].
  change (match pd_enc y with Some o0 => Some o0 | None => Some (Some utf8_name) end) with (named (pd_enc y)) in E.
  set (y1 := with_log_pd (with_enc y (named (pd_enc y))) []) in E.
  rewrite (view_relog w y y1 eq_refl) in E. destruct (view_spec w y (proj1 (good_at _ _ _ I X))) as (n & V & _ & _ & H1 & H2 & H3 & H4).
  rewrite V in E. cbn [bind] in E.
  destruct (comps2xml_f accepts fname saved xo df _ _) as [[out c]| |] eqn:C; cbn [bind fst snd] in E; try discriminate.
  set (y' := with_log_pd y1 (map FromWriter (w_log out))) in E.
  destruct (texts text (pd_log y')) as [ts| |] eqn:T; cbn [bind] in E; try discriminate.
  destruct (texts_map _ _ T) as [-> U].
  exists y, n, out, c, y'. split; [exact X|]. split; [exact V|]. split; [rewrite H1, H2, H3, H4; exact C|].
  assert (w' = with_pd w d y') as -> by congruence. split; [reflexivity|]. split; [reflexivity|]. split; [reflexivity|]. split; [exact T|]. split.
  - unfold last_errors, last_log. f_equal. unfold y'. apply writer_errors.
  - split; [|exact (relog_shows w d y y' I X eq_refl eq_refl)].
    unfold give in E. destruct (pending || (c =? -1)%Z); congruence.
Qed.
(** A file that could not be written. *)
Lemma unwritten ac name x df d : forall w1 w' r, comps2xml_f ac name true x df d w1 = Ok (w', r) ->
  comps2xml_f ac name false x df d w1 = Ok (mkW (w_calls w') (w_log w' ++ [(E_WRITEF, [Some (PStr (Some name))])]), r).
Proof.
  intros w1 w' r. unfold comps2xml_f, wbind, unless. intros E.
  repeat match type of E with
  | context [emit ?a ?b ?c] => destruct (emit a b c) as [[? []]| |] eqn:?; cbn [bind fst snd wret wlog] in *
  | context [doc_xml ?a ?b ?c ?e ?f] => destruct (doc_xml a b c e f) as [[? ?]| |] eqn:?; cbn [bind fst snd wret wlog] in *
  end; try discriminate; inversion E; subst; cbn [w_calls w_log]; reflexivity.
Qed.
Definition not_written (fname : str) : logitem := FromWriter (E_WRITEF, [Some (PStr (Some fname))]).
Theorem save_unwritten w d fname x o w' ts : save_file accepts text w d fname true x o = Ok (w', DRet (VTexts ts)) ->
  utf8 (text (not_written fname)) = true ->
  exists w2, save_file accepts text w d fname false x o = Ok (w2, DRet (VTexts (ts ++ [text (not_written fname)]))).
Proof.
  unfold save_file. intros E U. destruct (at_ (w_docs w) d) as [y| |]; cbn [bind] in *; try discriminate.
  destruct (xml_arg x) as [xo|]; [|discriminate]. destruct (def_arg o) as [[df pending]|]; [|discriminate].
  set (y1 := with_log_pd (with_enc y _) []) in *. destruct (view w y1) as [n| |]; cbn [bind] in *; try discriminate.
  destruct (comps2xml_f accepts fname true xo df n (mkW [] [])) as [[out c]| |] eqn:C; cbn [bind fst snd] in *; try discriminate.
  rewrite (unwritten _ _ _ _ _ _ _ _ C). cbn [bind fst snd w_log pd_log with_log_pd] in *.
  destruct (texts text (map FromWriter (w_log out))) as [l| |] eqn:T; cbn [bind] in E; try discriminate.
  destruct (texts_map _ _ T) as [-> F]. rewrite texts_ok.
  - cbn [bind]. unfold give in *. destruct (pending || (c =? -1)%Z); [discriminate|]. injection E as _ <-. rewrite !map_app. cbn [map]. eauto.
  - rewrite map_app. apply Forall_app. split; [exact F|]. cbn [map]. constructor; [exact U|constructor].
Qed.
Theorem save_str_result w d x o w' r : inv w -> save_str accepts w d x o = Ok (w', r) ->
  match xml_arg x, def_arg o with
  | Some xo, Some (df, pending) =>
      exists y n out y', nth_error (w_docs w) d = Some y /\ view w y = Ok n /\ comps2xml_str accepts xo df n (mkW [] []) = Ok (out, tt) /\
        w_docs w' = set_at (w_docs w) d y' /\ pd_log y' = pd_log y ++ map FromWriter (w_log out) /\ pd_enc y' = pd_enc y /\
        r = (if pending then DRetSet (VCalls (w_calls out)) else DRet (VCalls (w_calls out))) /\
        (forall d' p v, doc_shows w' d' p v <-> doc_shows w d' p v)
  | _, _ => w' = w /\ r = DRaise EType
  end.
Proof.
  intros I E. unfold save_str in E. destruct (at_ (w_docs w) d) as [y| |] eqn:X; cbn [bind] in E; try discriminate. apply at_ok in X.
  destruct (xml_arg x) as [xo|]; [|injection E as <- <-; auto].
  destruct (def_arg o) as [[df pending]|]; [|injection E as <- <-; auto].
  destruct (view_spec w y (proj1 (good_at _ _ _ I X))) as (n & V & _). rewrite V in E. cbn [bind] in E.
  destruct (comps2xml_str accepts xo df n (mkW [] [])) as [[out []]| |] eqn:C; cbn [bind fst snd] in E; try discriminate.
  exists y, n, out, (with_log_pd y (pd_log y ++ map FromWriter (w_log out))).
  split; [exact X|]. split; [exact V|]. split; [exact C|].
  assert (w' = with_pd w d (with_log_pd y (pd_log y ++ map FromWriter (w_log out)))) as -> by congruence.
  split; [reflexivity|]. split; [reflexivity|]. split; [reflexivity|]. split; [unfold give in E; congruence|].
  exact (relog_shows w d y (with_log_pd y (pd_log y ++ map FromWriter (w_log out))) I X eq_refl eq_refl).
Qed.
End Saving.

(** A writer that accepts every call. *)
Section Accepting.
Variable ac : list (call * bool) -> call -> bool.
Hypothesis always : forall h c, ac h c = true.
Definition taken (w : wst) : Prop := Forall (fun c => snd c = true) (w_calls w).
Definition clean {A} (m : wm A) : Prop := forall w w' a, taken w -> m w = Ok (w', a) -> taken w'.
Lemma clean_ret {A} (a : A) : clean (wret a). Proof. intros w w' b T [= <- _]. exact T. Qed.
Lemma clean_emit c : clean (emit ac c).
Proof. intros w w' b T [= <- _]. unfold taken. cbn. apply Forall_app. split; [exact T|]. constructor; [apply always|constructor]. Qed.
Lemma clean_log c l : clean (wlog c l). Proof. intros w w' b T [= <- _]. exact T. Qed.
Lemma clean_lift {A} (x : res A) : clean (wlift x).
Proof. intros w w' b T E. unfold wlift in E. destruct x; cbn in E; try discriminate. injection E as <- _. exact T. Qed.
Lemma clean_bind {A B} (m : wm A) (f : A -> wm B) : clean m -> (forall a, clean (f a)) -> clean (wbind m f).
Proof.
  intros Hm Hf w w' b T E. unfold wbind in E. destruct (m w) as [[w1 a]| |] eqn:M; cbn [bind fst snd] in E; try discriminate.
  exact (Hf a _ _ _ (Hm _ _ _ T M) E).
Qed.
Lemma clean_check r k : clean k -> clean (check r k).
Proof. intros H. unfold check. destruct r; [exact H|]. apply clean_bind; [apply clean_log|intros; apply clean_ret]. Qed.
Lemma clean_ub {A} : clean (fun _ => UB : res (wst * A)). Proof. intros w w' a _ E. discriminate. Qed.
Ltac cl := repeat (cbv zeta; first
  [ apply clean_ret | apply clean_emit | apply clean_log | apply clean_lift | apply clean_ub | assumption
  | apply clean_check | (apply clean_bind; [|intros ?])
  | match goal with |- clean (match ?x with _ => _ end) => destruct x end ]).
Lemma clean_prop k v : clean (xml_prop ac k v). Proof. unfold xml_prop. cl. Qed.
Lemma clean_arch l : clean (xml_arch ac l). Proof. unfold xml_arch. cl. Qed.
Lemma clean_pkg o p : clean (pkg_xml ac o p). Proof. unfold pkg_xml. cl; try apply clean_arch. Qed.
Lemma clean_gid o p : clean (gid_xml ac o p). Proof. unfold gid_xml. cl; try apply clean_arch. Qed.
Lemma clean_pairs t l k : clean k -> clean (pairs_xml ac t l k).
Proof. intros H. induction l as [|[a b] l IH]; cbn [pairs_xml]; [exact H|]. cl. Qed.
Lemma clean_rows b rows k : clean k -> clean (rows_xml ac b rows k).
Proof.
  intros H. induction rows as [|r rows IH]; cbn [rows_xml]; [exact H|].
  destruct r; (apply clean_bind; [apply clean_lift|intros v]).
  - cl; apply clean_prop.
  - cl; apply clean_prop.
  - now apply clean_pairs.
  - now apply clean_pairs.
Qed.
Lemma clean_each {A} (f : A -> wm Z) l : (forall x, clean (f x)) -> clean (each_xml f l).
Proof. intros H. induction l as [|x l IH]; cbn [each_xml]; [apply clean_ret|]. apply clean_bind; [apply H|intros; exact IH]. Qed.
Lemma clean_members {A} t b (f : A -> wm Z) l k : (forall x, clean (f x)) -> clean k -> clean (members_xml ac t b f l k).
Proof. intros H Hk. pose proof (clean_each f l H) as He. unfold members_xml. cl; try (apply clean_each; exact H); exact Hk. Qed.
Lemma clean_object o t b rows m : (forall k, clean k -> clean (m k)) -> clean (object_xml ac o t b rows m).
Proof.
  intros H. unfold object_xml. apply clean_bind; [apply clean_emit|intros r]. apply clean_check. apply clean_bind; [cl; apply clean_arch|intros r'].
  apply clean_check, clean_rows, H. cl.
Qed.
Lemma clean_skipped b : clean (skipped_xml b). Proof. unfold skipped_xml. cl. Qed.
Lemma clean_group o df g : clean (group_xml ac o df g).
Proof.
  unfold group_xml. assert (H : forall l, clean (object_xml ac o (S_ "group") (g_base g) (group_rows o df) (members_xml ac (S_ "packagelist") (x_empty_packages o) (pkg_xml ac o) l))).
  { intros l. apply clean_object. intros k Hk. apply clean_members; [apply clean_pkg|exact Hk]. }
  destruct (g_pkgs g); [destruct (x_empty_groups o); [apply H|apply clean_skipped]|apply H].
Qed.
Lemma clean_category o g : clean (category_xml ac o g).
Proof.
  unfold category_xml. assert (H : forall l, clean (object_xml ac o (S_ "category") (c_base g) common_rows (members_xml ac (S_ "grouplist") (x_empty_grouplist o) (gid_xml ac o) l))).
  { intros l. apply clean_object. intros k Hk. apply clean_members; [apply clean_gid|exact Hk]. }
  destruct (c_gids g); [destruct (x_empty_categories o); [apply H|apply clean_skipped]|apply H].
Qed.
Lemma clean_env o g : clean (env_xml ac o g).
Proof.
  unfold env_xml. assert (H : forall l m, clean (object_xml ac o (S_ "environment") (e_base g) common_rows
     (fun k => members_xml ac (S_ "grouplist") (x_empty_grouplist o) (gid_xml ac o) l (members_xml ac (S_ "optionlist") (x_empty_optionlist o) (gid_xml ac o) m k)))).
  { intros l m. apply clean_object. intros k Hk. apply clean_members; [apply clean_gid|]. apply clean_members; [apply clean_gid|exact Hk]. }
  destruct (e_groups g); [destruct (e_options g); [destruct (x_empty_environments o); [apply H|apply clean_skipped]|apply H]|apply H].
Qed.
Lemma clean_objs {A} (f : A -> wm Z) l k : (forall x, clean (f x)) -> (forall z, clean (k z)) -> forall z, clean (objs_xml f l z k).
Proof.
  intros H Hk. induction l as [|x l IH]; intros z; cbn [objs_xml]; [apply Hk|]. apply clean_bind; [apply H|intros r].
  destruct (r =? -1)%Z; [apply clean_ret|apply IH].
Qed.
Lemma clean_entries t a b l k : clean k -> clean (entries_xml ac t a b l k).
Proof. intros H. induction l as [|[x y] l IH]; cbn [entries_xml]; [exact H|]. cl. Qed.
Lemma clean_dict t e a b l k : clean k -> clean (dict_xml ac t e a b l k).
Proof.
  intros H. unfold dict_xml. apply clean_bind; [apply clean_emit|intros r]. apply clean_check, clean_entries.
  apply clean_bind; [apply clean_emit|intros r']. now apply clean_check.
Qed.
Lemma clean_doc o df d : clean (doc_xml ac o df d).
Proof.
  unfold doc_xml. destruct (d_name d); [|apply clean_ub]. destruct (d_pubid d); [|apply clean_ub]. destruct (d_sysid d); [|apply clean_ub].
  apply clean_bind; [apply clean_emit|intros r]. apply clean_bind; [apply clean_emit|intros _]. apply clean_check.
  apply clean_bind; [apply clean_emit|intros r1]. apply clean_check. apply clean_bind; [apply clean_lift|intros pg].
  apply clean_objs; [apply clean_group|intros z1]. apply clean_bind; [apply clean_lift|intros pc].
  apply clean_objs; [apply clean_category|intros z2]. apply clean_bind; [apply clean_lift|intros pe].
  apply clean_objs; [apply clean_env|intros z3]. apply clean_bind; [apply clean_lift|intros pl]. cbv zeta.
  assert (F : clean (r <~ emit ac WEnd ;; check r (wret z3))) by cl.
  assert (W : forall dd, clean (pw <~ wlift (doc_whiteout dd) ;; if (mlen (snd pw) =? 0)%Z then r <~ emit ac WEnd ;; check r (wret z3)
     else l <~ wlift (ps <- mt_pairs (snd pw) ;; mpairs_texts ps) ;; dict_xml ac (S_ "whiteout") (S_ "ignoredep") (S_ "requires") (S_ "package") l (r <~ emit ac WEnd ;; check r (wret z3)))).
  { intros dd. apply clean_bind; [apply clean_lift|intros pw]. destruct (mlen (snd pw) =? 0)%Z; [exact F|].
    apply clean_bind; [apply clean_lift|intros l]. now apply clean_dict. }
  match goal with |- clean (if _ then ?b else _) => assert (B : clean b) end.
  { apply clean_bind; [apply clean_lift|intros pb]. destruct (mlen (snd pb) =? 0)%Z; [apply W|].
    apply clean_bind; [apply clean_lift|intros l]. apply clean_dict, W. }
  destruct (tlen (snd pl) =? 0); [exact B|]. apply clean_bind; [apply clean_lift|intros l]. apply clean_dict, B.
Qed.
Lemma clean_save name saved x df d : clean (comps2xml_f ac name saved x df d).
Proof.
  unfold comps2xml_f, unless. apply clean_bind; [apply clean_emit|intros r]. apply clean_bind; [cl|intros _].
  apply clean_bind; [apply clean_doc|intros z]. cl.
Qed.
Lemma accepted name saved x df d out c : comps2xml_f ac name saved x df d w0 = Ok (out, c) -> Forall (fun k => snd k = true) (w_calls out).
Proof. intros E. apply (clean_save name saved x df d w0 out c); [constructor|exact E]. Qed.

(** What the returned list says. *)
Variable text : logitem -> str.
Theorem save_messages w d fname x o w' r y n : inv w -> Forall sound (w_heap w) ->
  nth_error (w_docs w) d = Some y -> view w y = Ok n ->
  save_file ac text w d fname true x o = Ok (w', r) -> r <> DRaise EType ->
  exists xo df pending ig ic ie, xml_arg x = Some xo /\ def_arg o = Some (df, pending) /\
    ids_left (group_left_out (opt_xopts xo)) g_base (pt_groups (doc_parts n)) ig /\
    ids_left (cat_left_out (opt_xopts xo)) c_base (pt_cats (doc_parts n)) ic /\
    ids_left (env_left_out (opt_xopts xo)) e_base (pt_envs (doc_parts n)) ie /\
    let ts := map (fun v => text (FromWriter (E_PKGLIST_EMPTY, [v]))) (ig ++ ic ++ ie) in
    (pending = false /\ length ts mod 256 <> 255 -> r = DRet (VTexts ts)) /\
    (pending = true \/ length ts mod 256 = 255 -> r = DRetSet (VTexts ts)).
Proof.
  intros I F X V E Nr. pose proof (save_file_result _ _ _ _ _ _ _ _ _ _ I E) as R.
  destruct (xml_arg x) as [xo|]; [|destruct R; contradiction]. destruct (def_arg o) as [[df pending]|]; [|destruct R; contradiction].
  destruct R as (y0 & n0 & out & c & y' & X0 & V0 & C & _ & Lg & _ & _ & _ & Rr & _).
  replace y0 with y in * by congruence. replace n0 with n in * by congruence.
  destruct (view_wf w d y I F X) as (n1 & V1 & W & _). replace n1 with n in * by congruence.
  set (m := mkDoc _ _ _ _ _) in C.
  assert (Wm : docwf m) by exact W. assert (Pm : doc_parts m = doc_parts n) by reflexivity.
  destruct (save_result ac fname true xo df m out c Wm C (accepted _ _ _ _ _ _ _ C)) as (ig & ic & ie & S1 & S2 & S3 & S4 & (q & S5) & S6).
  exists xo, df, pending, ig, ic, ie. rewrite Pm in S1, S2, S3. split; [reflexivity|]. split; [reflexivity|]. split; [exact S1|]. split; [exact S2|]. split; [exact S3|].
  cbn zeta. rewrite app_nil_r in S4. rewrite Lg, S4, !map_map in Rr. rewrite map_length.
  assert (K : (c =? -1)%Z = true <-> length (ig ++ ic ++ ie) mod 256 = 255).
  { set (k := length (ig ++ ic ++ ie)) in *. clearbody k. rewrite Z.eqb_eq. pose proof (Nat2Z.inj_mod k 256) as M.
    change (Z.of_nat 256) with 256%Z in M.
    assert (Q : (Z.of_nat k mod 256 = c mod 256)%Z) by (rewrite S5, Z.mul_comm, Z_mod_plus_full; reflexivity).
    split; intros H.
    - rewrite H in Q. change ((-1) mod 256)%Z with 255%Z in Q. apply Nat2Z.inj. rewrite M, Q. reflexivity.
    - assert (C255 : (c mod 256 = 255)%Z) by (rewrite <- Q, <- M, H; reflexivity).
      pose proof (Z.div_mod c 256 ltac:(discriminate)) as D. rewrite C255 in D. lia. }
  split.
  - intros [-> H]. destruct (c =? -1)%Z; [exfalso; apply H, K; reflexivity|exact Rr].
  - intros H. assert (Hp : pending || (c =? -1)%Z = true).
    { apply Bool.orb_true_iff. destruct H as [H|H]; [now left|right; now apply K]. }
    rewrite Hp in Rr. exact Rr.
Qed.
(** Saving is defined. *)
Theorem save_defined ac' w d fname saved x o y n : inv w -> Forall sound (w_heap w) ->
  nth_error (w_docs w) d = Some y -> view w y = Ok n -> pd_name y <> None -> pd_sysid y <> None -> pd_pubid y <> None ->
  (forall xo, xml_arg x = Some xo -> doc_printable (opt_xopts xo) (doc_parts n)) -> (forall i, utf8 (text i) = true) ->
  exists w' r, save_file ac' text w d fname saved x o = Ok (w', r).
Proof.
  intros I F X V N1 N2 N3 P U. unfold save_file, at_. rewrite X. cbn [bind].
  destruct (xml_arg x) as [xo|]; [|eauto]. destruct (def_arg o) as [[df pending]|]; [|eauto].
  set (y1 := with_log_pd _ _). rewrite (view_relog w y y1 eq_refl).
  destruct (view_wf w d y I F X) as (n' & V' & W & _). replace n' with n in * by congruence. rewrite V. cbn [bind].
  set (m := mkDoc _ _ _ _ _). assert (Wm : docwf m) by exact W.
  destruct (save_total ac' fname saved xo df m Wm N1 N3 N2 (P xo eq_refl) (mkW [] [])) as (out & c & ->). cbn [bind fst snd].
  rewrite texts_ok; [cbn [bind]; eauto|]. apply Forall_forall. intros i _. apply U.
Qed.
End Accepting.

(** * Questions *)
Definition nonempty_v (v : vres) : Prop := v <> VErr [].
Lemma execute_nonempty {A} (o : A) rules : (forall r v, In r rules -> snd r o = Ok v -> nonempty_v v) ->
  forall acc v, acc <> Some [] -> execute_loop o rules acc = Ok v -> nonempty_v v.
Proof.
  induction rules as [|[msg chk] rules IH]; intros H acc v Ha E; cbn [execute_loop] in E.
  - injection E as <-. destruct acc as [l|]; [|discriminate]. intros K. apply Ha. congruence.
  - apply bind_ok in E. destruct E as (t & Et & E).
    assert (H' : forall r u, In r rules -> snd r o = Ok u -> nonempty_v u) by (intros r u Hr; apply H; now right).
    destruct t as [|l]; [exact (IH H' acc v Ha E)|].
    assert (Nl : l <> []). { intros ->. apply (H (msg, chk) (VErr []) (or_introl eq_refl) Et). reflexivity. }
    cbn [valgenres_prefix] in E. rewrite prefix_msgs_ok in E. cbn [bind valgenres_concat] in E.
    refine (IH H' _ v _ E). intros [= K]. apply app_eq_nil in K. destruct K as [_ K]. destruct l; [congruence|discriminate].
Qed.
Lemma listobjs_nonempty {A} (rules : list (rule A)) l : (forall o v, execute o rules = Ok v -> nonempty_v v) ->
  forall i acc v, acc <> Some [] -> listobjs_loop rules l i acc = Ok v -> nonempty_v v.
Proof.
  intros H. induction l as [|o l IH]; intros i acc v Ha E; cbn [listobjs_loop] in E.
  - injection E as <-. destruct acc as [e|]; [|discriminate]. intros K. apply Ha. congruence.
  - apply bind_ok in E. destruct E as (t & Et & E). destruct t as [|e]; [exact (IH _ acc v Ha E)|].
    assert (Nl : e <> []). { intros ->. apply (H _ _ Et). reflexivity. }
    apply bind_ok in E. destruct E as (p & _ & E).
    cbn [valgenres_prefix] in E. rewrite prefix_msgs_ok in E. cbn [bind valgenres_concat] in E.
    refine (IH _ _ v _ E). intros [= K]. apply app_eq_nil in K. destruct K as [_ K]. destruct e; [congruence|discriminate].
Qed.
Lemma unique_nonempty {A} (cmp : A -> A -> bool) o whole l : forall x set acc v, acc <> Some [] ->
  unique_loop cmp o whole l x set acc = Ok v -> nonempty_v v.
Proof.
  induction l as [|d l IH]; intros x set acc v Ha E; cbn [unique_loop] in E.
  - injection E as <-. destruct acc as [e|]; [|discriminate]. intros K. apply Ha. congruence.
  - destruct (set_data_at (tag_cmp cmp) set d) as [data|].
    + destruct (tag_index whole (fst data) 0); [|discriminate]. apply bind_ok in E. destruct E as (m & _ & E).
      refine (IH _ _ _ v _ E). intros [= K]. apply app_eq_nil in K. destruct K as [_ K]. discriminate.
    + apply bind_ok in E. destruct E as (s & _ & E). exact (IH _ _ acc v Ha E).
Qed.
Lemma empty_nonempty o p v : empty_check o p = Ok v -> nonempty_v v.
Proof. unfold empty_check. destruct p as [[[[|]|]| |]|]; intros [= <-]; discriminate. Qed.
Lemma doc_validate_nonempty d l : doc_validate d = Ok (VErr l) -> l <> [].
Proof.
  intros E ->. assert (K : nonempty_v (VErr [])); [|now apply K].
  assert (Hid : forall o b v, (p <- base_get b (S_ "id") ;; empty_check o p) = Ok v -> nonempty_v v).
  { intros o b v H. apply bind_ok in H. destruct H as (p & _ & H). exact (empty_nonempty _ _ _ H). }
  assert (Hun : forall A (cmp : A -> A -> bool) o l v, unique_check cmp o (own_tags l) = Ok v -> nonempty_v v).
  { intros A cmp o l v H. refine (unique_nonempty cmp o _ _ _ _ _ _ _ H). discriminate. }
  refine (execute_nonempty d doc_rules _ None (VErr []) _ E); [|discriminate].
  intros r v Hr Hv. cbn [doc_rules In] in Hr.
  destruct Hr as [<-|[<-|[<-|[]]]]; cbn [snd] in Hv; apply bind_ok in Hv; destruct Hv as (p & _ & Hv);
    (refine (listobjs_nonempty _ _ _ _ _ _ _ Hv); [|discriminate]); intros o u Hu;
    (refine (execute_nonempty o _ _ None u _ Hu); [|discriminate]); intros rr uu Hin Huu;
    cbn [group_rules category_rules env_rules In] in Hin; repeat (destruct Hin as [<-|Hin]; [cbn [snd] in Huu; eauto|]); destruct Hin.
Qed.
(** validate and validate_nf. *)
Theorem validate_agree w x l : validate_nf w x = Ok l ->
  match l with
  | [] => validate w x = Ok (DRet VNone)
  | m :: _ => validate w x = Ok (DRaise (EValue m))
  end.
Proof.
  unfold validate_nf, validate. intros E. apply bind_ok in E. destruct E as (n & V & E). rewrite V. cbn [bind].
  apply bind_ok in E. destruct E as (r & R & E). rewrite R. cbn [bind]. destruct r as [|e]; injection E as <-; [reflexivity|].
  pose proof (doc_validate_nonempty _ _ R) as N. destruct e as [|[o m] e]; [congruence|]. reflexivity.
Qed.
Theorem validate_iff w d x n : inv w -> Forall sound (w_heap w) -> nth_error (w_docs w) d = Some x -> view w x = Ok n ->
  checkable (doc_parts n) ->
  (exists l, validate_nf w x = Ok l) /\ (validate w x = Ok (DRet VNone) <-> doc_valid (doc_parts n)).
Proof.
  intros I F X V C. destruct (view_wf w d x I F X) as (n' & V' & W & _). replace n' with n in * by congruence.
  destruct (doc_checked n W C) as (out & _ & E). split.
  - unfold validate_nf. rewrite V. cbn [bind]. rewrite E. cbn [bind]. destruct (verdict out); eauto.
  - rewrite <- (doc_ok_iff n W C). unfold validate. rewrite V. cbn [bind]. rewrite E. cbn [bind].
    destruct out as [|[o m] out]; cbn [verdict]; split; congruence.
Qed.
(** == and !=. *)
Theorem compare_iff w d e x y a b : inv w -> Forall sound (w_heap w) ->
  nth_error (w_docs w) d = Some x -> nth_error (w_docs w) e = Some y -> view w x = Ok a -> view w y = Ok b ->
  exists c, compare w OpEq x (DSame y) = Ok (DAnswer c) /\ compare w OpNe x (DSame y) = Ok (DAnswer (negb c)) /\ (c = true <-> docs_same a b).
Proof.
  intros I F X Y Va Vb. destruct (view_wf w d x I F X) as (a' & Va' & Wa & _). replace a' with a in * by congruence.
  destruct (view_wf w e y I F Y) as (b' & Vb' & Wb & _). replace b' with b in * by congruence.
  destruct (doc_cmp_spec a b Wa Wb) as (a1 & b1 & c & E & H & _). exists c. unfold compare. rewrite Va, Vb. cbn [bind]. rewrite E. cbn [bind snd].
  auto.
Qed.

(** ** Options that are no dictionary *)
Lemma Ok_inj {A} (a b : A) : Ok a = Ok b -> a = b.
Proof. congruence. Qed.
Lemma give_raise {R} b (r : R) e : give b r <> DRaise e.
Proof. destruct b; discriminate. Qed.
Lemma no_dictionary strict accepts text w op w' r : step_doc strict accepts text w op = Ok (w', r) ->
  match op with
  | OSaveFile _ _ _ x o | OSaveStr _ x o => (x = OptOther \/ o = OptOther -> w' = w) /\ (x = OptOther \/ o = OptOther <-> r = DRaise EType)
  | OLoadFile _ _ o | OLoadStr _ _ o => (o = OptOther -> w' = w) /\ (o = OptOther <-> r = DRaise EType)
  | _ => True
  end.
Proof.
  destruct op; cbn [step_doc]; try (intros; exact I).
  - unfold load_str. destruct (at_ (w_docs w) d); cbn [bind]; try discriminate. destruct o; cbn [def_arg]; intros E.
    1,2: split; [discriminate|]; split; [discriminate|]; intros ->; revert E;
      repeat match goal with |- bind ?m _ = _ -> _ => destruct m; cbn [bind]; try discriminate end;
      match goal with |- (if ?b then _ else _) = _ -> _ => destruct b; [discriminate|] end;
      match goal with |- bind ?m _ = _ -> _ => destruct m; cbn [bind]; try discriminate end;
      intros E; apply Ok_inj in E; apply pair_equal_spec in E; destruct E as [_ E]; elim (give_raise _ _ _ E).
    injection E as <- <-. tauto.
  - unfold load_file. destruct (at_ (w_docs w) d); cbn [bind]; try discriminate. destruct o; cbn [def_arg]; intros E.
    1,2: split; [discriminate|]; split; [discriminate|]; intros ->; revert E; destruct f; [|discriminate];
      repeat match goal with |- bind ?m _ = _ -> _ => destruct m; cbn [bind]; try discriminate end;
      intros E; apply Ok_inj in E; apply pair_equal_spec in E; destruct E as [_ E]; revert E;
      match goal with |- (if ?b then _ else _) = _ -> _ => destruct b; [discriminate|] end; intros E; elim (give_raise _ _ _ E).
    injection E as <- <-. tauto.
  - unfold save_file. destruct (at_ (w_docs w) d); cbn [bind]; try discriminate.
    destruct x, o; cbn [xml_arg def_arg]; intros E; try (injection E as <- <-; tauto);
      (split; [intros [?|?]; discriminate|]; split; [intros [?|?]; discriminate|]; intros ->; revert E; cbv zeta;
       repeat match goal with |- bind ?m _ = _ -> _ => destruct m; cbn [bind]; try discriminate end;
       intros E; apply Ok_inj in E; apply pair_equal_spec in E; destruct E as [_ E]; elim (give_raise _ _ _ E)).
  - unfold save_str. destruct (at_ (w_docs w) d); cbn [bind]; try discriminate.
    destruct x, o; cbn [xml_arg def_arg]; intros E; try (injection E as <- <-; tauto);
      (split; [intros [?|?]; discriminate|]; split; [intros [?|?]; discriminate|]; intros ->; revert E; cbv zeta;
       repeat match goal with |- bind ?m _ = _ -> _ => destruct m; cbn [bind]; try discriminate end;
       intros E; apply Ok_inj in E; apply pair_equal_spec in E; destruct E as [_ E]; elim (give_raise _ _ _ E)).
Qed.
