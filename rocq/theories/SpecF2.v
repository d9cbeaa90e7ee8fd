(** Safe events never make the parser go wrong. *)
From Coq Require Import NArith Nnat.
From Verif Require Import CStr CStrFacts HSListModel HSListFacts RTreeModel RTreeFacts RTreeFacts2 RTreeFacts3 RTreeFacts4
  MRTreeModel MRTreeFacts MRTreeFacts2 ObjModel ObjFacts2 Dec StrModel DocModel DocFacts2 SpecA SpecC ParseModel ParseFacts SpecF.

(** ** Numerals *)
Lemma skip_space_split s : exists ws, s = ws ++ skip_space s /\ blank ws.
Proof.
  induction s as [|c s (ws & E & H)]; cbn [skip_space]; [exists []; split; [reflexivity|constructor]|].
  destruct (is_space c) eqn:Ec.
  - exists (c :: ws). split; [cbn; now f_equal|]. constructor; [now apply is_space_white|exact H].
  - exists []. split; [reflexivity|constructor].
Qed.
Lemma take_digits_split s : exists rest, s = take_digits s ++ rest /\ forallb is_digit (take_digits s) = true /\
  (forall c r, rest = c :: r -> is_digit c = false).
Proof.
  induction s as [|c s (rest & E & H & Hr)]; cbn [take_digits]; [exists []; split; [reflexivity|]; split; [reflexivity|discriminate]|].
  destruct (is_digit c) eqn:Ec.
  - exists rest. split; [cbn; now f_equal|]. split; [cbn; now rewrite Ec|exact Hr].
  - exists (c :: s). split; [reflexivity|]. split; [reflexivity|]. intros c' r' E'. now inversion E'; subst.
Qed.
Lemma skip_blank ws s : blank ws -> skip_space (ws ++ s) = skip_space s.
Proof.
  induction 1 as [|c ws Hc _ IH]; [reflexivity|]. cbn [app skip_space]. now rewrite (proj2 (is_space_white c) Hc).
Qed.
Lemma take_digits_app ds rest : forallb is_digit ds = true -> (forall c r, rest = c :: r -> is_digit c = false) ->
  take_digits (ds ++ rest) = ds.
Proof.
  intros H Hr. induction ds as [|c ds IH]; cbn [app take_digits forallb] in *.
  - destruct rest as [|c r]; [reflexivity|]. cbn [take_digits]. now rewrite (Hr c r eq_refl).
  - apply andb_true_iff in H. destruct H as [H1 H2]. rewrite H1. f_equal. auto.
Qed.
Lemma digit_plain c : is_digit c = true -> is_space c = false /\ Ascii.eqb c "-" = false /\ Ascii.eqb c "+" = false.
Proof.
  destruct c as [a b c d e f g h]; destruct a, b, c, d, e, f, g, h; vm_compute; intros H; try discriminate; auto.
Qed.
Lemma numeral_scan s z : numeral s z -> scan_int s = if in_int z then Ok (Some z) else UB.
Proof.
  intros (ws & sg & ds & rest & -> & Hw & Hne & Hd & Hr & Hz). unfold scan_int.
  rewrite skip_blank by exact Hw. destruct ds as [|c ds]; [congruence|].
  assert (Hc := Hd). cbn [forallb] in Hc. apply andb_true_iff in Hc. destruct (digit_plain c (proj1 Hc)) as (P1 & P2 & P3).
  assert (T : take_digits (c :: ds ++ rest) = c :: ds) by (apply (take_digits_app (c :: ds) rest Hd Hr)).
  destruct Hz as [[[->| ->] ->]|[-> ->]].
  - change ([] ++ (c :: ds) ++ rest) with (c :: ds ++ rest). replace (skip_space (c :: ds ++ rest)) with (c :: ds ++ rest) by (cbn [skip_space]; now rewrite P1).
    rewrite P2, P3. cbv beta iota zeta. rewrite T. reflexivity.
  - change (skip_space (S_ "+" ++ (c :: ds) ++ rest)) with ("+"%char :: c :: ds ++ rest).
    cbn -[take_digits value in_int Z.of_N]. rewrite T. reflexivity.
  - change (skip_space (S_ "-" ++ (c :: ds) ++ rest)) with ("-"%char :: c :: ds ++ rest).
    cbn -[take_digits value in_int Z.of_N]. rewrite T. reflexivity.
Qed.
Lemma scan_int_total s : (forall z, numeral s z -> (-2147483648 <= z <= 2147483647)%Z) -> exists n, scan_int s = Ok n.
Proof.
  intros H. unfold scan_int. destruct (skip_space_split s) as (ws & Es & Hw).
  remember (skip_space s) as s1 eqn:E1. clear E1.
  assert (Hgo : forall (neg : bool) sg s2, s1 = sg ++ s2 ->
     (neg = true /\ sg = S_ "-" \/ neg = false /\ (sg = [] \/ sg = S_ "+")) ->
     exists n, (match take_digits s2 with [] => Ok None
       | _ :: _ => if in_int (if neg then (- Z.of_N (value (take_digits s2)))%Z else Z.of_N (value (take_digits s2)))
           then Ok (Some (if neg then (- Z.of_N (value (take_digits s2)))%Z else Z.of_N (value (take_digits s2)))) else UB end) = Ok n).
  { intros neg sg s2 E Hsg. destruct (take_digits s2) as [|c ds] eqn:Et; [eauto|]. rewrite <- Et.
    destruct (take_digits_split s2) as (rest & Er & Hd & Hr).
    assert (Hn : numeral s (if neg then (- Z.of_N (value (take_digits s2)))%Z else Z.of_N (value (take_digits s2)))).
    { exists ws, sg, (take_digits s2), rest. split; [rewrite Es, E, <- Er; reflexivity|]. split; [exact Hw|].
      split; [rewrite Et; discriminate|]. split; [exact Hd|]. split; [exact Hr|].
      destruct Hsg as [[-> ->]|[-> Hsg]]; [right|left]; auto. }
    specialize (H _ Hn). unfold in_int.
    set (z := if neg then _ else _) in *. destruct (Z.leb_spec (-2147483648) z); [|lia]. destruct (Z.leb_spec z 2147483647); [|lia].
    cbn [andb]. eauto. }
  destruct s1 as [|c r].
  - specialize (Hgo false [] [] eq_refl). cbn [take_digits] in *. apply Hgo. auto.
  - destruct (Ascii.eqb c "-") eqn:Em.
    { apply Ascii.eqb_eq in Em. subst c. specialize (Hgo true (S_ "-") r eq_refl). destruct (take_digits r); apply Hgo; auto. }
    destruct (Ascii.eqb c "+") eqn:Ep.
    { apply Ascii.eqb_eq in Ep. subst c. specialize (Hgo false (S_ "+") r eq_refl). destruct (take_digits r); apply Hgo; auto. }
    specialize (Hgo false [] (c :: r) eq_refl). destruct (take_digits (c :: r)); apply Hgo; auto.
Qed.

(** ** What the document must hold for the elements that are open *)
Inductive need := NGroup | NPkg | NCat | NCGid | NEnv | NEGid | NOGid.
Definition has (p : parts) (n : need) : Prop :=
  match n with
  | NGroup => pt_groups p <> []
  | NPkg => exists l g, pt_groups p = l ++ [g] /\ g_pkgs g <> []
  | NCat => pt_cats p <> []
  | NCGid => exists l c, pt_cats p = l ++ [c] /\ c_gids c <> []
  | NEnv => pt_envs p <> []
  | NEGid => exists l e, pt_envs p = l ++ [e] /\ e_groups e <> []
  | NOGid => exists l e, pt_envs p = l ++ [e] /\ e_options e <> []
  end.
Definition le_parts (p p' : parts) : Prop := forall n, has p n -> has p' n.
Lemma le_refl p : le_parts p p.
Proof. intros n H. exact H. Qed.
Lemma snoc_eq {A} (l l' : list A) x x' : l ++ [x] = l' ++ [x'] -> l = l' /\ x = x'.
Proof. intros H. apply app_inj_tail in H. exact H. Qed.
Lemma snoc_ne {A} (l : list A) x : l ++ [x] <> [].
Proof. destruct l; discriminate. Qed.
Lemma le_groups p l g g' : pt_groups p = l ++ [g] -> (g_pkgs g <> [] -> g_pkgs g' <> []) ->
  le_parts p (with_groups p (l ++ [g'])).
Proof.
  intros E H n Hn. destruct n; cbn [has with_groups pt_groups pt_cats pt_envs] in *; auto.
  - apply snoc_ne.
  - destruct Hn as (l1 & g1 & E1 & H1). rewrite E in E1. apply snoc_eq in E1. destruct E1 as [-> ->]. eauto.
Qed.
Lemma le_cats p l c c' : pt_cats p = l ++ [c] -> (c_gids c <> [] -> c_gids c' <> []) -> le_parts p (with_cats p (l ++ [c'])).
Proof.
  intros E H n Hn. destruct n; cbn [has with_cats pt_groups pt_cats pt_envs] in *; auto.
  - apply snoc_ne.
  - destruct Hn as (l1 & g1 & E1 & H1). rewrite E in E1. apply snoc_eq in E1. destruct E1 as [-> ->]. eauto.
Qed.
Lemma le_envs p l e e' : pt_envs p = l ++ [e] -> (e_groups e <> [] -> e_groups e' <> []) -> (e_options e <> [] -> e_options e' <> []) ->
  le_parts p (with_envs p (l ++ [e'])).
Proof.
  intros E H H' n Hn. destruct n; cbn [has with_envs pt_groups pt_cats pt_envs] in *; auto.
  - apply snoc_ne.
  - destruct Hn as (l1 & g1 & E1 & H1). rewrite E in E1. apply snoc_eq in E1. destruct E1 as [-> ->]. eauto.
  - destruct Hn as (l1 & g1 & E1 & H1). rewrite E in E1. apply snoc_eq in E1. destruct E1 as [-> ->]. eauto.
Qed.

Definition need_of (names : list str) : option need :=
  match names with
  | [] => None
  | n :: up =>
      match get_type n with
      | TGroup => Some NGroup
      | TPackagereq => Some NPkg
      | TCategory => Some NCat
      | TEnv => Some NEnv
      | TGroupid =>
          match up with
          | p :: q :: _ => if etype_eqb (get_type p) TOptlist then Some NOGid
                           else if etype_eqb (get_type q) TEnv then Some NEGid else Some NCGid
          | _ => None
          end
      | _ => None
      end
  end.
Definition needed (names : list str) (p : docptr) : Prop :=
  exists d, p = PLive d /\ match need_of names with Some n => has (doc_parts d) n | None => True end.
Fixpoint held (names : list str) (p : docptr) : Prop :=
  match names with
  | [] => True
  | n :: up => held up p /\ (legit (n :: up) -> needed (n :: up) p)
  end.
Definition plive (p : docptr) : Prop := match p with PLive d => pdoc d | _ => True end.
(** No group, category or environment is open outside of an open comps. *)
Fixpoint pure (names : list str) : Prop :=
  match names with
  | [] => True
  | n :: up => pure up /\ (n = S_ "comps" -> forall x, In x objects -> ~ In x up)
  end.

Lemma held_le names d d' : le_parts (doc_parts d) (doc_parts d') -> held names (PLive d) -> held names (PLive d').
Proof.
  intros Hle. induction names as [|n up IH]; cbn [held]; [auto|]. intros [H1 H2]. split; [auto|]. intros Hl.
  destruct (H2 Hl) as (d1 & E & Hn). inversion E; subst d1. exists d'. split; [reflexivity|].
  destruct (need_of (n :: up)); auto.
Qed.

Lemma legit_parent n up : legit (n :: up) -> n <> S_ "comps" -> exists p r, up = p :: r /\ may_be_in n p /\ legit (p :: r).
Proof. intros H Hn. inversion H; subst; [now elim Hn|eauto]. Qed.
Lemma legit_known n up : legit (n :: up) -> get_type n <> TUnknown.
Proof.
  intros Hl Et. destruct (streq n (S_ "comps")) eqn:E; [apply streq_iff in E; subst n; discriminate Et|].
  destruct (legit_parent n up Hl) as (p & r & _ & Hm & _); [intros ->; rewrite streq_refl in E; discriminate|].
  apply may_be_inb_iff in Hm. rewrite unknown_in in Hm by exact Et. discriminate.
Qed.
(** The parent of an element of a given type. *)
Lemma may_in_types n p : may_be_in n p -> In (get_type p) (ancestors (get_type n)).
Proof.
  intros H. apply may_be_inb_iff in H.
  assert (Nu : get_type n <> TUnknown) by (intros E; rewrite (unknown_in n p E) in H; discriminate).
  assert (Nd : get_type n <> TDoc).
  { intros E. rewrite (get_type_inv n TDoc E) in H by discriminate. vm_compute in H. discriminate. }
  rewrite <- ancestors_table in H by assumption. apply existsb_exists in H. destruct H as (t & Hin & Et).
  apply etype_eqb_iff in Et. now subst t.
Qed.
Lemma legit_up n up : legit (n :: up) -> get_type n <> TDoc ->
  exists p r, up = p :: r /\ In (get_type p) (ancestors (get_type n)) /\ legit (p :: r).
Proof.
  intros H Hn. destruct (legit_parent n up H) as (p & r & -> & Hm & Hl); [intros ->; now apply Hn|].
  exists p, r. split; [reflexivity|]. split; [now apply may_in_types|exact Hl].
Qed.
Lemma object_name n : In (get_type n) [TGroup; TCategory; TEnv] -> In n objects.
Proof.
  cbn [In]. intros [H|[H|[H|[]]]]; symmetry in H; apply get_type_inv in H; try discriminate; subst n; vm_compute; tauto.
Qed.
Lemma need_object names : legit names -> need_of names <> None -> exists x, In x objects /\ In x names.
Proof.
  intros Hl Hn. destruct names as [|n up]; [cbn in Hn; congruence|]. cbn [need_of] in Hn.
  destruct (get_type n) eqn:Et; try congruence;
    try (exists n; split; [apply object_name; rewrite Et; cbn; tauto|now left]).
  - (* packagereq *)
    destruct (legit_up n up Hl) as (p & r & -> & Hp & Hlp); [rewrite Et; discriminate|]. rewrite Et in Hp. cbn in Hp. destruct Hp as [Hp|[]].
    destruct (legit_up p r Hlp) as (q & r' & -> & Hq & _); [rewrite <- Hp; discriminate|]. rewrite <- Hp in Hq. cbn in Hq. destruct Hq as [Hq|[]].
    exists q. split; [apply object_name; rewrite <- Hq; cbn; tauto|right; right; now left].
  - (* groupid *)
    destruct (legit_up n up Hl) as (p & r & -> & Hp & Hlp); [rewrite Et; discriminate|]. rewrite Et in Hp. cbn in Hp.
    assert (Hnd : get_type p <> TDoc) by (destruct Hp as [Hp|[Hp|[]]]; rewrite <- Hp; discriminate).
    destruct (legit_up p r Hlp Hnd) as (q & r' & -> & Hq & _).
    exists q. split; [|right; right; now left]. apply object_name.
    destruct Hp as [Hp|[Hp|[]]]; rewrite <- Hp in Hq; cbn in Hq; cbn; tauto.
Qed.
Lemma held_light names d : (forall x, In x objects -> ~ In x names) -> held names (PLive d).
Proof.
  induction names as [|n up IH]; intros H; cbn [held]; [exact I|]. split.
  - apply IH. intros x Hx Hi. apply (H x Hx). now right.
  - intros Hl. exists d. split; [reflexivity|]. destruct (need_of (n :: up)) as [nd|] eqn:En; [|exact I].
    destruct (need_object (n :: up) Hl) as (x & Hx & Hi); [congruence|]. exfalso. exact (H x Hx Hi).
Qed.

(** ** The callbacks *)
Lemma base_of_attrs_ok attrs : exists b, base_of_attrs attrs = Ok b /\ pb b.
Proof.
  unfold base_of_attrs. rewrite rt_get_look. cbn [bind]. destruct (look (troot attrs) (S_ "arch")) as [s|]; [|eauto using pb_create].
  destruct (set_arches_ok base_create (split_arches s) pb_create) as (b & E & Hb & _). eauto.
Qed.
Lemma pkg_of_attrs_ok o attrs : exists k, pkg_of_attrs o attrs = Ok k.
Proof. unfold pkg_of_attrs. rewrite !rt_get_look. cbn [bind]. eauto. Qed.
Lemma gid_of_attrs_ok attrs : exists k, gid_of_attrs attrs = Ok k.
Proof. unfold gid_of_attrs. rewrite !rt_get_look. cbn [bind]. eauto. Qed.
Lemma pair_of_attrs_ok a t kk vk : attrs_dict rt_create a = Ok t -> has_attr a kk -> exists kv, pair_of_attrs t kk vk = Ok kv.
Proof.
  intros E (H1 & H2 & H3). unfold pair_of_attrs. rewrite (attrs_dict_latest a t H1 H2 E kk), rt_get_look. cbn [bind].
  destruct (latest a kk); [eauto|congruence].
Qed.
Lemma snoc_nonnil {A} (l : list A) x : l <> [] -> l ++ [x] <> [].
Proof. destruct l; discriminate. Qed.

Lemma pd_groups d l g : pdoc d -> pt_groups (doc_parts d) = l ++ [g] -> pb (g_base g).
Proof. intros (_ & H & _) E. rewrite E, Forall_snoc in H. apply H. Qed.
Lemma pd_cats d l g : pdoc d -> pt_cats (doc_parts d) = l ++ [g] -> pb (c_base g).
Proof. intros (_ & _ & H & _) E. rewrite E, Forall_snoc in H. apply H. Qed.
Lemma pd_envs d l g : pdoc d -> pt_envs (doc_parts d) = l ++ [g] -> pb (e_base g).
Proof. intros (_ & _ & _ & H) E. rewrite E, Forall_snoc in H. apply H. Qed.

Lemma preproc_ok opts enc n a o s el p :
  same_stack o s -> el_type el = get_type n -> attrs_dict rt_create a = Ok (el_attrs el) ->
  legit (n :: map fst o) -> safe1 o [] (EStart n a) -> held (map fst o) p -> plive p -> pure (map fst o) ->
  exists p', preproc opts enc el s p = Ok p' /\ plive p' /\ held (n :: map fst o) p'.
Proof.
  intros Hs Et Ea Hl Hsafe Hh Hp Hpu. inversion Hsafe as [n' a' Hcomps Hattr E1| | |]; subst n' a'. specialize (Hattr Hl).
  assert (Hcons : forall d, held (map fst o) (PLive d) -> match need_of (n :: map fst o) with Some x => has (doc_parts d) x | None => True end ->
            held (n :: map fst o) (PLive d)).
  { intros d H1 H2. split; [exact H1|]. intros _. exists d. auto. }
  unfold preproc. rewrite Et.
  destruct (get_type n) eqn:Etn;
    try match goal with |- context [Ok p] =>
      exists p; split; [reflexivity|]; split; [exact Hp|];
      destruct (legit_up n _ Hl) as (q & r & Eup & Hq & Hlq); [rewrite Etn; discriminate|];
      rewrite Eup in *; cbn [held] in Hh; destruct Hh as [Hh0 Hh1]; destruct (Hh1 Hlq) as (d & -> & Hnd);
      apply Hcons; [split; auto|cbn [need_of]; rewrite Etn; exact I] end.
  - (* comps *)
    destruct (doc_create_ok enc) as (d & -> & Hd & _). cbn [bind]. exists (PLive d). split; [reflexivity|]. split; [exact Hd|].
    apply Hcons; [|cbn [need_of]; rewrite Etn; exact I].
    apply held_light. apply Hcomps. apply (get_type_inv n TDoc Etn). discriminate.
  - (* group *)
    destruct (legit_up n _ Hl) as (q & r & Eup & Hq & Hlq); [rewrite Etn; discriminate|]. rewrite Etn in Hq. cbn in Hq. destruct Hq as [Hq|[]].
    rewrite Eup in *. cbn [held] in Hh. destruct Hh as [_ Hh]. destruct (Hh Hlq) as (d & -> & _). cbn [live bind plive] in *.
    destruct (base_of_attrs_ok (el_attrs el)) as (b & -> & Hb). cbn [bind].
    destruct (add_group_ok d (mkG b []) Hp Hb) as (d' & -> & Hd' & _ & Hp'). cbn [bind]. exists (PLive d'). split; [reflexivity|]. split; [exact Hd'|].
    apply Hcons.
    + apply held_light. cbn [pure] in Hpu. destruct Hpu as [_ Hpu]. intros x Hx Hi.
      rewrite (get_type_inv q TDoc (eq_sym Hq)) in * by discriminate. destruct Hi as [<-|Hi]; [|exact (Hpu eq_refl x Hx Hi)].
      vm_compute in Hx. intuition discriminate.
    + cbn [need_of]. rewrite Etn. cbn [has]. rewrite Hp'. apply snoc_ne.
  - (* packagereq *)
    destruct (legit_up n _ Hl) as (q & r & Eup & Hq & Hlq); [rewrite Etn; discriminate|]. rewrite Etn in Hq. cbn in Hq. destruct Hq as [Hq|[]].
    destruct (legit_up q r Hlq) as (q2 & r2 & Er & Hq2 & Hlq2); [rewrite <- Hq; discriminate|]. rewrite <- Hq in Hq2. cbn in Hq2. destruct Hq2 as [Hq2|[]].
    assert (Hx : needed (q2 :: r2) p).
    { rewrite Eup, Er in Hh. cbn [held] in Hh. apply Hh. exact Hlq2. }
    destruct Hx as (d & -> & Hnd). cbn [need_of] in Hnd. rewrite <- Hq2 in Hnd. cbn [has] in Hnd. cbn [live bind plive] in *.
    destruct (nonnil_snoc _ Hnd) as (l & g & El). destruct (pkg_of_attrs_ok opts (el_attrs el)) as (k & ->). cbn [bind].
    destruct (upd_last_group_ok d l g (group_add_pkg g k) tt (fun g => Ok (group_add_pkg g k, tt)) Hp El eq_refl) as (d' & -> & Hd' & _ & Hp').
    { exact (pd_groups d l g Hp El). }
    cbn [bind fst]. exists (PLive d'). split; [reflexivity|]. split; [exact Hd'|]. apply Hcons.
    + apply (held_le _ d d'); [|exact Hh]. rewrite Hp'. apply (le_groups _ l g); [exact El|]. intros _. apply snoc_ne.
    + cbn [need_of]. rewrite Etn. cbn [has]. rewrite Hp'. exists l, (group_add_pkg g k). split; [reflexivity|apply snoc_ne].
  - (* category *)
    destruct (legit_up n _ Hl) as (q & r & Eup & Hq & Hlq); [rewrite Etn; discriminate|]. rewrite Etn in Hq. cbn in Hq. destruct Hq as [Hq|[]].
    rewrite Eup in *. cbn [held] in Hh. destruct Hh as [_ Hh]. destruct (Hh Hlq) as (d & -> & _). cbn [live bind plive] in *.
    destruct (base_of_attrs_ok (el_attrs el)) as (b & -> & Hb). cbn [bind].
    destruct (add_cat_ok d (mkC b []) Hp Hb) as (d' & -> & Hd' & _ & Hp'). cbn [bind]. exists (PLive d'). split; [reflexivity|]. split; [exact Hd'|].
    apply Hcons.
    + apply held_light. cbn [pure] in Hpu. destruct Hpu as [_ Hpu]. intros x Hx Hi.
      rewrite (get_type_inv q TDoc (eq_sym Hq)) in * by discriminate. destruct Hi as [<-|Hi]; [|exact (Hpu eq_refl x Hx Hi)].
      vm_compute in Hx. intuition discriminate.
    + cbn [need_of]. rewrite Etn. cbn [has]. rewrite Hp'. apply snoc_ne.
  - (* groupid *)
    destruct (gid_of_attrs_ok (el_attrs el)) as (k & Ek).
    destruct (legit_up n _ Hl) as (q & r & Eup & Hq & Hlq); [rewrite Etn; discriminate|]. rewrite Etn in Hq. cbn in Hq.
    assert (Hnd : get_type q <> TDoc) by (destruct Hq as [Hq|[Hq|[]]]; rewrite <- Hq; discriminate).
    destruct (legit_up q r Hlq Hnd) as (q2 & r2 & Er & Hq2 & Hlq2). clear Hnd.
    assert (Hx : needed (q2 :: r2) p).
    { rewrite Eup, Er in Hh. cbn [held] in Hh. apply Hh. exact Hlq2. }
    destruct Hx as (d & -> & Hnd). cbn [need_of] in Hnd. cbn [live bind plive] in *. rewrite Ek. cbn [bind].
    destruct o as [|[q0 a0] o]; [discriminate|]. cbn [map fst] in Eup. injection Eup as -> Eup.
    destruct o as [|[q1 a1] o]; [rewrite Er in Eup; discriminate|]. cbn [map fst] in Eup. rewrite Er in Eup. injection Eup as -> Eup.
    inversion Hs as [|? ? ? e1 s1 Hs1 Et1 _ _]; subst. inversion Hs1 as [|? ? ? e2 s2 Hs2 Et2 _ _]; subst.
    cbn [map fst] in *. unfold gid_place. cbn [parent_type grand_type bind]. rewrite Et1, Et2.
    destruct Hq as [Hq|[Hq|[]]]; rewrite <- Hq in *; cbn [ancestors In] in Hq2; cbn [etype_eqb bind].
    + destruct Hq2 as [Hq2|[Hq2|[]]]; rewrite <- Hq2 in *; cbn [etype_eqb bind].
      * destruct (nonnil_snoc _ Hnd) as (l & g & El).
        destruct (upd_last_cat_ok d l g (category_add_gid g k) tt (fun c => Ok (category_add_gid c k, tt)) Hp El eq_refl) as (d' & -> & Hd' & _ & Hp').
        { exact (pd_cats d l g Hp El). }
        cbn [bind fst]. exists (PLive d'). split; [reflexivity|]. split; [exact Hd'|]. apply Hcons.
        -- apply (held_le _ d d'); [|exact Hh]. rewrite Hp'. apply (le_cats _ l g); [exact El|]. intros _. apply snoc_ne.
        -- cbn [need_of]. rewrite Etn, <- Hq, <- Hq2. cbn [etype_eqb has]. rewrite Hp'. exists l, (category_add_gid g k). split; [reflexivity|apply snoc_ne].
      * destruct (nonnil_snoc _ Hnd) as (l & g & El).
        destruct (upd_last_env_ok d l g (env_add_group g k) tt (fun c => Ok (env_add_group c k, tt)) Hp El eq_refl) as (d' & -> & Hd' & _ & Hp').
        { exact (pd_envs d l g Hp El). }
        cbn [bind fst]. exists (PLive d'). split; [reflexivity|]. split; [exact Hd'|]. apply Hcons.
        -- apply (held_le _ d d'); [|exact Hh]. rewrite Hp'. apply (le_envs _ l g); [exact El| |auto]. intros _. apply snoc_ne.
        -- cbn [need_of]. rewrite Etn, <- Hq, <- Hq2. cbn [etype_eqb has]. rewrite Hp'. exists l, (env_add_group g k). split; [reflexivity|apply snoc_ne].
    + destruct Hq2 as [Hq2|[]]; rewrite <- Hq2 in *.
      destruct (nonnil_snoc _ Hnd) as (l & g & El).
      destruct (upd_last_env_ok d l g (env_add_option g k) tt (fun c => Ok (env_add_option c k, tt)) Hp El eq_refl) as (d' & -> & Hd' & _ & Hp').
      { exact (pd_envs d l g Hp El). }
      cbn [bind fst]. exists (PLive d'). split; [reflexivity|]. split; [exact Hd'|]. apply Hcons.
      -- apply (held_le _ d d'); [|exact Hh]. rewrite Hp'. apply (le_envs _ l g); [exact El|auto|]. intros _. apply snoc_ne.
      -- cbn [need_of]. rewrite Etn, <- Hq. cbn [etype_eqb has]. rewrite Hp'. exists l, (env_add_option g k). split; [reflexivity|apply snoc_ne].
  - (* environment *)
    destruct (legit_up n _ Hl) as (q & r & Eup & Hq & Hlq); [rewrite Etn; discriminate|]. rewrite Etn in Hq. cbn in Hq. destruct Hq as [Hq|[]].
    rewrite Eup in *. cbn [held] in Hh. destruct Hh as [_ Hh]. destruct (Hh Hlq) as (d & -> & _). cbn [live bind plive] in *.
    destruct (base_of_attrs_ok (el_attrs el)) as (b & -> & Hb). cbn [bind].
    destruct (add_env_ok d (mkE b [] []) Hp Hb) as (d' & -> & Hd' & _ & Hp'). cbn [bind]. exists (PLive d'). split; [reflexivity|]. split; [exact Hd'|].
    apply Hcons.
    + apply held_light. cbn [pure] in Hpu. destruct Hpu as [_ Hpu]. intros x Hx Hi.
      rewrite (get_type_inv q TDoc (eq_sym Hq)) in * by discriminate. destruct Hi as [<-|Hi]; [|exact (Hpu eq_refl x Hx Hi)].
      vm_compute in Hx. intuition discriminate.
    + cbn [need_of]. rewrite Etn. cbn [has]. rewrite Hp'. apply snoc_ne.
  - (* match *)
    destruct (legit_up n _ Hl) as (q & r & Eup & Hq & Hlq); [rewrite Etn; discriminate|].
    assert (Hx : needed (q :: r) p). { rewrite Eup in Hh. cbn [held] in Hh. apply Hh. exact Hlq. }
    destruct Hx as (d & -> & _). cbn [live bind plive] in *.
    destruct (pair_of_attrs_ok a (el_attrs el) (S_ "name") (S_ "install") Ea) as ([k v] & ->).
    { apply Hattr. left. apply (get_type_inv n TMatch Etn). discriminate. }
    cbn [bind fst snd]. destruct (add_langpack_ok d k v Hp) as (d' & t & -> & Hd' & _ & _ & Hp'). cbn [bind].
    exists (PLive d'). split; [reflexivity|]. split; [exact Hd'|]. apply Hcons; [|cbn [need_of]; rewrite Etn; exact I].
    apply (held_le _ d d'); [|exact Hh]. rewrite Hp'. intros nd H. destruct nd; exact H.
  - (* package *)
    destruct (legit_up n _ Hl) as (q & r & Eup & Hq & Hlq); [rewrite Etn; discriminate|].
    assert (Hx : needed (q :: r) p). { rewrite Eup in Hh. cbn [held] in Hh. apply Hh. exact Hlq. }
    destruct Hx as (d & -> & _). cbn [live bind plive] in *.
    destruct (pair_of_attrs_ok a (el_attrs el) (S_ "name") (S_ "arch") Ea) as ([k v] & ->).
    { apply Hattr. right. apply (get_type_inv n TPackage Etn). discriminate. }
    cbn [bind fst snd]. destruct (add_blacklist_ok d k v Hp) as (d' & t & -> & Hd' & _ & _ & Hp'). cbn [bind].
    exists (PLive d'). split; [reflexivity|]. split; [exact Hd'|]. apply Hcons; [|cbn [need_of]; rewrite Etn; exact I].
    apply (held_le _ d d'); [|exact Hh]. rewrite Hp'. intros nd H. destruct nd; exact H.
  - (* ignoredep *)
    destruct (legit_up n _ Hl) as (q & r & Eup & Hq & Hlq); [rewrite Etn; discriminate|].
    assert (Hx : needed (q :: r) p). { rewrite Eup in Hh. cbn [held] in Hh. apply Hh. exact Hlq. }
    destruct Hx as (d & -> & _). cbn [live bind plive] in *.
    destruct (pair_of_attrs_ok a (el_attrs el) (S_ "requires") (S_ "package") Ea) as ([k v] & ->).
    { apply Hattr. apply (get_type_inv n TIgnoredep Etn). discriminate. }
    cbn [bind fst snd]. destruct (add_whiteout_ok d k v Hp) as (d' & t & -> & Hd' & _ & _ & Hp'). cbn [bind].
    exists (PLive d'). split; [reflexivity|]. split; [exact Hd'|]. apply Hcons; [|cbn [need_of]; rewrite Etn; exact I].
    apply (held_le _ d d'); [|exact Hh]. rewrite Hp'. intros nd H. destruct nd; exact H.
Qed.

Definition owner_need (w : owner) : need := match w with OGroup => NGroup | OCat => NCat | OEnv => NEnv end.
Definition total_on {A} (f : base -> res (base * A)) : Prop := forall b, pb b -> exists b' a, f b = Ok (b', a) /\ pb b'.
Lemma upd_base_ok {A} w d (f : base -> res (base * A)) : pdoc d -> has (doc_parts d) (owner_need w) -> total_on f ->
  exists d' a, upd_base w d f = Ok (d', a) /\ pdoc d' /\ le_parts (doc_parts d) (doc_parts d').
Proof.
  intros Hd Hn Hf. destruct w; cbn [owner_need has upd_base] in *; destruct (nonnil_snoc _ Hn) as (l & g & El).
  - destruct (Hf _ (pd_groups d l g Hd El)) as (b' & a & Ef & Hb).
    destruct (upd_last_group_ok d l g (mkG b' (g_pkgs g)) a (fun g => r <- f (g_base g) ;; Ok (mkG (fst r) (g_pkgs g), snd r)) Hd El) as (d' & E & Hd' & _ & Hp).
    { rewrite Ef. reflexivity. } { exact Hb. }
    exists d', a. split; [exact E|]. split; [exact Hd'|]. rewrite Hp. apply (le_groups _ l g); auto.
  - destruct (Hf _ (pd_cats d l g Hd El)) as (b' & a & Ef & Hb).
    destruct (upd_last_cat_ok d l g (mkC b' (c_gids g)) a (fun c => r <- f (c_base c) ;; Ok (mkC (fst r) (c_gids c), snd r)) Hd El) as (d' & E & Hd' & _ & Hp).
    { rewrite Ef. reflexivity. } { exact Hb. }
    exists d', a. split; [exact E|]. split; [exact Hd'|]. rewrite Hp. apply (le_cats _ l g); auto.
  - destruct (Hf _ (pd_envs d l g Hd El)) as (b' & a & Ef & Hb).
    destruct (upd_last_env_ok d l g (mkE b' (e_groups g) (e_options g)) a
      (fun e => r <- f (e_base e) ;; Ok (mkE (fst r) (e_groups e) (e_options e), snd r)) Hd El) as (d' & E & Hd' & _ & Hp).
    { rewrite Ef. reflexivity. } { exact Hb. }
    exists d', a. split; [exact E|]. split; [exact Hd'|]. rewrite Hp. apply (le_envs _ l g); auto.
Qed.
Lemma base_get_look b k : base_get b k = Ok (look (troot (b_props b)) k).
Proof. apply rt_get_look. Qed.
Lemma required_ok b : exists es, required b = Ok es.
Proof. unfold required, check_required. rewrite !base_get_look. cbn [bind]. eauto. Qed.
Lemma fill_ok b k v : pb b -> In k prop_keys -> exists b', fill b k v = Ok b' /\ pb b'.
Proof.
  intros Hb Hk. unfold fill. rewrite base_get_look. cbn [bind]. destruct (look (troot (b_props b)) k); [eauto|].
  destruct (set_num_ok b k (if v then 1%Z else 0%Z) Hb Hk) as (b' & E & Hb' & _). eauto.
Qed.
Lemma set_bool_ok k tmp : In k prop_keys -> total_on (fun b => set_bool b k tmp).
Proof.
  intros Hk b Hb. unfold set_bool.
  destruct (set_num_ok b k 0%Z Hb Hk) as (b0 & E0 & Hb0 & _). destruct (set_num_ok b k 1%Z Hb Hk) as (b1 & E1 & Hb1 & _).
  destruct (match tmp with Some s => streq s (S_ "false") | None => false end); [rewrite E0; cbn [bind]; eauto|].
  destruct (match tmp with Some s => streq s (S_ "true") | None => false end); [rewrite E1; cbn [bind]; eauto|]. eauto.
Qed.
Lemma plain_ok k s : In k prop_keys -> k <> S_ "display_order" ->
  total_on (fun b => v <- base_get b k ;; b' <- set_prop_str b k s ;; Ok (b', check_already v k)).
Proof.
  intros Hk Hd b Hb. rewrite base_get_look. destruct (set_prop_str_ok b k s Hb Hk Hd) as (b' & -> & Hb' & _). cbn [bind]. eauto.
Qed.
Lemma set_text_ok t attrs s : total_on (set_text t attrs s).
Proof.
  intros b Hb. unfold set_text.
  assert (P := plain_ok). unfold total_on in P.
  assert (Hi : exists b' a, (v <- base_get b (S_ "id") ;; b' <- set_prop_str b (S_ "id") s ;; Ok (b', check_already v (S_ "id"))) = Ok (b', a) /\ pb b')
    by (apply P; [in_keys|vm_compute; congruence|exact Hb]).
  assert (Hn : exists b' a, (v <- base_get b (S_ "name") ;; b' <- set_prop_str b (S_ "name") s ;; Ok (b', check_already v (S_ "name"))) = Ok (b', a) /\ pb b')
    by (apply P; [in_keys|vm_compute; congruence|exact Hb]).
  assert (Hd : exists b' a, (v <- base_get b (S_ "desc") ;; b' <- set_prop_str b (S_ "desc") s ;; Ok (b', check_already v (S_ "desc"))) = Ok (b', a) /\ pb b')
    by (apply P; [in_keys|vm_compute; congruence|exact Hb]).
  rewrite rt_get_look. cbn [bind].
  destruct t; try exact Hi; destruct (look (troot attrs) (S_ "xml:lang")) as [l|]; try exact Hn; try exact Hd;
    try (destruct (set_desc_ok b l (Some s) Hb) as (b' & -> & Hb' & _); cbn [bind]; eauto; fail).
  destruct (set_name_ok b l (Some s) Hb) as (b' & -> & Hb' & _); cbn [bind]; eauto.
Qed.
Lemma langonly_ok tmp : total_on (fun b => v <- base_get b (S_ "langonly") ;; b' <- base_set_str b (S_ "langonly") tmp ;;
             Ok (b', check_already v (S_ "langonly"))).
Proof.
  intros b Hb. rewrite base_get_look. cbn [bind]. unfold base_set_str.
  destruct tmp as [s|]; [|cbn [bind]; eauto].
  destruct (set_prop_ok b (S_ "langonly") (Some (PStr (Some s))) Hb) as (t & -> & Hb' & _);
    [in_keys|vm_compute; congruence|]. cbn [bind]. eauto.
Qed.
Lemma set_order_ok s : (forall z, numeral s z -> (-2147483648 <= z <= 2147483647)%Z) -> total_on (set_order (Some s)).
Proof.
  intros H b Hb. unfold set_order. rewrite base_get_look. cbn [bind non_null]. destruct (scan_int_total s H) as (n & ->). cbn [bind].
  assert (Hk : In (S_ "display_order") prop_keys) by in_keys.
  assert (P := fun z => set_num_ok b (S_ "display_order") z Hb Hk).
  destruct (look (troot (b_props b)) (S_ "display_order")) as [v|] eqn:El.
  - destruct Hb as (_ & _ & Ho). destruct (Ho v El) as (z & ->).
    destruct (P (match n with Some z => z | None => z end)) as (b' & -> & Hb' & _). cbn [bind]. eauto.
  - destruct (P (match n with Some z => z | None => 0%Z end)) as (b' & -> & Hb' & _). cbn [bind]. eauto.
Qed.
Lemma ro_ok : total_on (fun b => es <- required b ;; Ok (b, es)).
Proof. intros b Hb. destruct (required_ok b) as (es & ->). cbn [bind]. eauto. Qed.
Lemma const_ok {A} (x : A) : total_on (fun b => Ok (b, x)).
Proof. intros b Hb. eauto. Qed.
Lemma text_of_some t : t <> [] -> text_of t = Some t.
Proof. destruct t; [congruence|reflexivity]. Qed.

Lemma postproc_ok opts n a o el anc d t :
  same_stack ((n, a) :: o) (el :: anc) -> legit (n :: map fst o) -> safe1 ((n, a) :: o) t (EEnd n) ->
  held (n :: map fst o) (PLive d) -> pdoc d ->
  exists d' es tmp', postproc opts el anc (PLive d) (text_of t) = Ok (PLive d', es, tmp') /\ pdoc d' /\ le_parts (doc_parts d) (doc_parts d').
Proof.
  intros Hs Hl Hsafe Hh Hd.
  inversion Hs as [|n' a' o' el' s' Hs' Et Ev Ea E1 E2]; subst n' a' o' el' s'.
  inversion Hsafe as [|n' Hx E| |]; subst n'. cbn [map fst] in Hx. specialize (Hx Hl). destruct Hx as [Hx1 Hx2].
  assert (Hsame : exists d' es tmp', Ok (PLive d, @nil pentry, text_of t) = Ok (PLive d', es, tmp') /\ pdoc d' /\ le_parts (doc_parts d) (doc_parts d'))
    by (exists d, [], (text_of t); split; [reflexivity|]; split; [exact Hd|apply le_refl]).
  assert (Hown : match need_of (n :: map fst o) with Some x => has (doc_parts d) x | None => True end).
  { cbn [held] in Hh. destruct Hh as [_ Hh]. destruct (Hh Hl) as (d1 & E1 & Hn). inversion E1; subst d1. exact Hn. }
  (* the parent, if the type has one *)
  assert (Hup : get_type n <> TDoc -> exists q r e1 s1, map fst o = q :: r /\ anc = e1 :: s1 /\ el_type e1 = get_type q /\
     In (get_type q) (ancestors (get_type n)) /\ legit (q :: r) /\
     match need_of (q :: r) with Some x => has (doc_parts d) x | None => True end).
  { intros Hnd. destruct (legit_up n _ Hl Hnd) as (q & r & Eup & Hq & Hlq).
    destruct o as [|[q0 a0] o]; [discriminate|]. cbn [map fst] in Eup. injection Eup as -> Er.
    inversion Hs' as [|? ? ? e1 s1 Hs1 Et1 _ _]; subst. exists q, (map fst o), e1, s1. do 5 (split; [reflexivity || assumption|]).
    cbn [held map fst] in Hh. destruct Hh as [[_ Hh] _]. destruct (Hh Hlq) as (d1 & E1 & Hn). inversion E1; subst d1. exact Hn. }
  assert (Hub : forall (w : owner) (f : base -> res (base * list pentry)) (tmp2 : ostr),
     has (doc_parts d) (owner_need w) -> total_on f ->
     exists d' es tmp', (r <- upd_base w d f ;; Ok (PLive (fst r), snd r, tmp2)) = Ok (PLive d', es, tmp') /\ pdoc d' /\ le_parts (doc_parts d) (doc_parts d')).
  { intros w f tmp2 Hw Hf. destruct (upd_base_ok w d f Hd Hw Hf) as (d' & es & -> & Hd' & Hle). cbn [bind fst snd]. eauto 10. }
  unfold postproc. cbn [live bind]. rewrite Et.
  destruct (get_type n) eqn:Etn; try exact Hsame;
    try (assert (Hup' := Hup ltac:(discriminate)); clear Hup; destruct Hup' as (q & r & e1 & s1 & Eup & Eanc & Ete & Hq & Hlq & Hnq);
         subst anc; cbn [parent_type bind]; try rewrite Ete); cbn [ancestors In] in *.
  - (* group *)
    cbn [need_of] in Hown. rewrite Etn in Hown. destruct (nonnil_snoc _ Hown) as (l & g & El).
    assert (Hb := pd_groups d l g Hd El). destruct (required_ok (g_base g)) as (es & Ee).
    destruct (fill_ok (g_base g) (S_ "def") (o_default opts) Hb) as (b1 & E1 & Hb1); [in_keys|].
    destruct (fill_ok b1 (S_ "uservisible") (o_uservisible opts) Hb1) as (b2 & E2 & Hb2); [in_keys|].
    destruct (fill_ok b2 (S_ "biarchonly") (o_biarchonly opts) Hb2) as (b3 & E3 & Hb3); [in_keys|].
    match goal with |- context [upd_last_group d ?f] =>
      destruct (upd_last_group_ok d l g (mkG b3 (g_pkgs g)) es f Hd El) as (d' & E & Hd' & _ & Hp) end.
    { rewrite Ee. cbn [bind]. rewrite E1. cbn [bind]. rewrite E2. cbn [bind]. rewrite E3. reflexivity. } { exact Hb3. }
    rewrite E. cbn [bind fst snd]. do 3 eexists. split; [reflexivity|]. split; [exact Hd'|]. rewrite Hp. apply (le_groups _ l g); auto.
  - (* id *)
    assert (Hw : has (doc_parts d) (owner_need (if etype_eqb (get_type q) TGroup then OGroup else if etype_eqb (get_type q) TCategory then OCat else OEnv))).
    { cbn [need_of] in Hnq. destruct Hq as [Hq|[Hq|[Hq|[]]]]; rewrite <- Hq in *; exact Hnq. }
    destruct (text_of t) as [s|]; apply Hub; auto using set_text_ok; apply const_ok.
  - (* name *)
    assert (Hw : has (doc_parts d) (owner_need (if etype_eqb (get_type q) TGroup then OGroup else if etype_eqb (get_type q) TCategory then OCat else OEnv))).
    { cbn [need_of] in Hnq. destruct Hq as [Hq|[Hq|[Hq|[]]]]; rewrite <- Hq in *; exact Hnq. }
    destruct (text_of t) as [s|]; apply Hub; auto using set_text_ok; apply const_ok.
  - (* description *)
    assert (Hw : has (doc_parts d) (owner_need (if etype_eqb (get_type q) TGroup then OGroup else if etype_eqb (get_type q) TCategory then OCat else OEnv))).
    { cbn [need_of] in Hnq. destruct Hq as [Hq|[Hq|[Hq|[]]]]; rewrite <- Hq in *; exact Hnq. }
    destruct (text_of t) as [s|]; apply Hub; auto using set_text_ok; apply const_ok.
  - (* default *)
    destruct Hq as [Hq|[]]. cbn [need_of] in Hnq. rewrite <- Hq in Hnq.
    apply Hub; [exact Hnq|apply set_bool_ok; in_keys].
  - (* langonly *)
    destruct Hq as [Hq|[]]. cbn [need_of] in Hnq. rewrite <- Hq in Hnq.
    apply Hub; [exact Hnq|apply langonly_ok].
  - (* uservisible *)
    destruct Hq as [Hq|[]]. cbn [need_of] in Hnq. rewrite <- Hq in Hnq.
    rewrite text_of_some; [|apply Hx1; left; apply (get_type_inv n TUservisible Etn); discriminate]. cbn [non_null bind].
    apply Hub; [exact Hnq|apply set_bool_ok; in_keys].
  - (* biarchonly *)
    destruct Hq as [Hq|[]]. cbn [need_of] in Hnq. rewrite <- Hq in Hnq.
    rewrite text_of_some; [|apply Hx1; right; left; apply (get_type_inv n TBiarchonly Etn); discriminate]. cbn [non_null bind].
    apply Hub; [exact Hnq|apply set_bool_ok; in_keys].
  - (* packagelist *)
    destruct Hq as [Hq|[]]. cbn [need_of] in Hnq. rewrite <- Hq in Hnq. destruct (nonnil_snoc _ Hnq) as (l & g & El).
    match goal with |- context [upd_last_group d ?f] =>
      destruct (upd_last_group_ok d l g g (match g_pkgs g with [] => [perr E_LIST_EMPTY [Some (info_name TPackagelist)]] | _ => [] end) f Hd El eq_refl (pd_groups d l g Hd El)) as (d' & E & Hd' & _ & Hp) end.
    rewrite E. cbn [bind fst snd]. do 3 eexists. split; [reflexivity|]. split; [exact Hd'|]. rewrite Hp. apply (le_groups _ l g); auto.
  - (* packagereq *)
    cbn [need_of] in Hown. rewrite Etn in Hown. destruct Hown as (l & g & El & Hne). destruct (nonnil_snoc _ Hne) as (lp & k & Ek).
    destruct (text_of t) as [s|].
    + match goal with |- context [upd_last_group d ?f] =>
        destruct (upd_last_group_ok d l g (mkG (g_base g) (lp ++ [pkg_set_name k (Some s)])) [] f Hd El) as (d' & E & Hd' & _ & Hp) end.
      { unfold name_last_pkg. rewrite Ek, split_last_app. reflexivity. } { exact (pd_groups d l g Hd El). }
      rewrite E. cbn [bind fst snd]. do 3 eexists. split; [reflexivity|]. split; [exact Hd'|]. rewrite Hp. apply (le_groups _ l g); auto.
      intros _. cbn [g_pkgs]. apply snoc_ne.
    + destruct Hd as (Hd0 & Hd1). destruct (doc_groups_ok d Hd0) as (d1 & -> & Hd2 & _ & Hp). cbn [bind fst snd].
      do 3 eexists. split; [reflexivity|]. split; [split; [exact Hd2|now rewrite Hp]|]. rewrite Hp. apply le_refl.
  - (* category *)
    cbn [need_of] in Hown. rewrite Etn in Hown. apply Hub; [exact Hown|apply ro_ok].
  - (* grouplist *)
    cbn [need_of] in Hnq. destruct Hq as [Hq|[Hq|[]]]; rewrite <- Hq in *; cbn [etype_eqb].
    + destruct (nonnil_snoc _ Hnq) as (l & g & El).
      match goal with |- context [upd_last_cat d ?f] =>
        destruct (upd_last_cat_ok d l g g (match c_gids g with [] => [perr E_LIST_EMPTY [Some (info_name TGrouplist)]] | _ => [] end) f Hd El eq_refl (pd_cats d l g Hd El)) as (d' & E & Hd' & _ & Hp) end.
      rewrite E. cbn [bind fst snd]. do 3 eexists. split; [reflexivity|]. split; [exact Hd'|]. rewrite Hp. apply (le_cats _ l g); auto.
    + destruct (nonnil_snoc _ Hnq) as (l & g & El).
      match goal with |- context [upd_last_env d ?f] =>
        destruct (upd_last_env_ok d l g g (match e_groups g with [] => [perr E_LIST_EMPTY [Some (info_name TGrouplist)]] | _ => [] end) f Hd El eq_refl (pd_envs d l g Hd El)) as (d' & E & Hd' & _ & Hp) end.
      rewrite E. cbn [bind fst snd]. do 3 eexists. split; [reflexivity|]. split; [exact Hd'|]. rewrite Hp. apply (le_envs _ l g); auto.
  - (* groupid *)
    assert (Hnd : get_type q <> TDoc) by (destruct Hq as [Hq|[Hq|[]]]; rewrite <- Hq; discriminate).
    destruct (legit_up q r Hlq Hnd) as (q2 & r2 & Er & Hq2 & Hlq2). clear Hnd.
    destruct o as [|[q0 a0] o]; [discriminate|]. cbn [map fst] in Eup. injection Eup as -> Eup.
    destruct o as [|[q1 a1] o]; [rewrite Er in Eup; discriminate|]. cbn [map fst] in Eup. rewrite Er in Eup. injection Eup as -> Eup.
    inversion Hs' as [|? ? ? e1' s1' Hs1 Et1 _ _]; subst. inversion Hs1 as [|? ? ? e2 s2 Hs2 Et2 _ _]; subst.
    cbn [map fst need_of] in Hown. rewrite Etn in Hown.
    unfold gid_place. cbn [parent_type grand_type bind]. rewrite Et1, Et2.
    destruct Hq as [Hq|[Hq|[]]]; rewrite <- Hq in *; cbn [ancestors In] in Hq2; cbn [etype_eqb bind] in *.
    + destruct Hq2 as [Hq2|[Hq2|[]]]; rewrite <- Hq2 in *; cbn [etype_eqb bind] in *; destruct Hown as (l & g & El & Hne); destruct (nonnil_snoc _ Hne) as (lp & k & Ek).
      * match goal with |- context [upd_last_cat d ?f] =>
          destruct (upd_last_cat_ok d l g (mkC (c_base g) (lp ++ [gid_set_name k (text_of t)])) [] f Hd El) as (d' & E & Hd' & _ & Hp) end.
        { unfold name_last_gid. rewrite Ek, split_last_app. reflexivity. } { exact (pd_cats d l g Hd El). }
        rewrite E. cbn [bind fst snd]. do 3 eexists. split; [reflexivity|]. split; [exact Hd'|]. rewrite Hp. apply (le_cats _ l g); auto.
        intros _. cbn [c_gids]. apply snoc_ne.
      * match goal with |- context [upd_last_env d ?f] =>
          destruct (upd_last_env_ok d l g (mkE (e_base g) (lp ++ [gid_set_name k (text_of t)]) (e_options g)) [] f Hd El) as (d' & E & Hd' & _ & Hp) end.
        { unfold name_last_gid. rewrite Ek, split_last_app. reflexivity. } { exact (pd_envs d l g Hd El). }
        rewrite E. cbn [bind fst snd]. do 3 eexists. split; [reflexivity|]. split; [exact Hd'|]. rewrite Hp. apply (le_envs _ l g); auto.
        intros _. cbn [e_groups]. apply snoc_ne.
    + destruct Hown as (l & g & El & Hne); destruct (nonnil_snoc _ Hne) as (lp & k & Ek).
      match goal with |- context [upd_last_env d ?f] =>
          destruct (upd_last_env_ok d l g (mkE (e_base g) (e_groups g) (lp ++ [gid_set_name k (text_of t)])) [] f Hd El) as (d' & E & Hd' & _ & Hp) end.
      { unfold name_last_gid. rewrite Ek, split_last_app. reflexivity. } { exact (pd_envs d l g Hd El). }
      rewrite E. cbn [bind fst snd]. do 3 eexists. split; [reflexivity|]. split; [exact Hd'|]. rewrite Hp. apply (le_envs _ l g); auto.
      intros _. cbn [e_options]. apply snoc_ne.
  - (* display_order *)
    assert (Hw : has (doc_parts d) (owner_need (if etype_eqb (get_type q) TCategory then OCat else if etype_eqb (get_type q) TEnv then OEnv else OGroup))).
    { cbn [need_of] in Hnq. destruct Hq as [Hq|[Hq|[Hq|[]]]]; rewrite <- Hq in *; exact Hnq. }
    assert (En : n = S_ "display_order") by (apply (get_type_inv n TDisplayorder Etn); discriminate).
    rewrite text_of_some by auto. apply Hub; [exact Hw|]. apply set_order_ok. auto.
  - (* environment *)
    cbn [need_of] in Hown. rewrite Etn in Hown. apply Hub; [exact Hown|apply ro_ok].
Qed.

(** ** Whole runs *)
Definition fit (o : list frame) (t : str) (st : pst) : Prop :=
  sim o t st /\ held (map fst o) (ps_doc st) /\ plive (ps_doc st) /\ pure (map fst o).
Lemma check_attributes_ok t attrs : exists es, check_attributes false t attrs = Ok es.
Proof. unfold check_attributes, rt_keys. rewrite rt_pairs_ents. cbn. eauto. Qed.
Lemma step_ok o t e o1 t1 st : fit o t st -> nested1 o e o1 -> text1 t e t1 -> safe1 o t e ->
  exists st1, step false st e = Ok st1 /\ fit o1 t1 st1.
Proof.
  intros (Hsim & Hh & Hp & Hpu) Hn Hx Hsafe.
  assert (Hgoal : (exists st1, step false st e = Ok st1 /\ held (map fst o1) (ps_doc st1) /\ plive (ps_doc st1) /\ pure (map fst o1)) ->
    exists st1, step false st e = Ok st1 /\ fit o1 t1 st1).
  { intros (st1 & E & H). exists st1. split; [exact E|]. split; [|exact H]. exact (step_sim false _ _ _ _ _ _ _ Hsim Hn Hx E). }
  apply Hgoal. clear Hgoal. destruct Hsim as (Hs & Ht & Ec).
  destruct e as [n a|n|s|n s p]; cbn [step].
  - inversion Hn; subst o1. clear Hn Hx. unfold start_handler.
    destruct (attrs_dict_ok a rt_create wft_create) as (dict & Ed & _). rewrite Ed. cbn [bind].
    rewrite (elem_valid_legit o _ n Hs). set (el := mkElem (get_type n) (legitb (n :: map fst o)) dict).
    destruct (check_attributes_ok (get_type n) dict) as (es & ->). cbn [bind].
    assert (Hpu' : pure (n :: map fst o)).
    { cbn [pure]. split; [exact Hpu|]. inversion Hsafe; subst; assumption. }
    destruct (el_valid el) eqn:Ev.
    + assert (Hl : legit (n :: map fst o)) by (apply legitb_iff; exact Ev).
      assert (Hsafe' : safe1 o [] (EStart n a)) by (inversion Hsafe; subst; constructor; assumption).
      destruct (preproc_ok (ps_opts st) (ps_enc st) n a o (ps_stack st) el (ps_doc st) Hs eq_refl Ed Hl Hsafe' Hh Hp Hpu) as (p' & E & Hp' & Hh').
      destruct (ps_text st) as [|x r] eqn:Ex; cbn [logged with_stack with_text ps_doc ps_opts ps_enc]; rewrite E; cbn [bind];
        (eexists; split; [reflexivity|]; cbn [with_doc ps_doc map fst]; auto).
    + assert (Hh' : held (n :: map fst o) (ps_doc st)).
      { split; [exact Hh|]. intros Hl. apply legitb_iff in Hl. cbn [el_valid el] in Ev. congruence. }
      eexists. split; [reflexivity|]. cbn [logged ps_text].
      destruct (ps_text st); cbn [logged with_stack with_text ps_doc map fst]; auto.
  - inversion Hn as [|o' n' a' E1 E2 E3| |]; subst. clear Hn. unfold end_handler.
    rewrite (end_text st _ Ht eq_refl). cbn [bind with_text ps_stack ps_opts ps_doc].
    inversion Hs as [|n' a'' o'' el s' Hs' Et Ev Ea E4 E5]; subst. rewrite <- Et, etype_eqb_refl.
    cbn [map fst pure] in Hpu. cbn [map fst] in Hh.
    destruct (el_valid el) eqn:Evl.
    + assert (Hl : legit (n :: map fst o1)) by (apply legitb_iff; congruence).
      assert (Hd : exists d, ps_doc st = PLive d) by (destruct Hh as [_ Hh]; destruct (Hh Hl) as (d & -> & _); eauto).
      destruct Hd as (d & Ed). rewrite Ed in *. cbn [plive] in Hp. rewrite <- E5 in Hs.
      destruct (postproc_ok (ps_opts st) n a' o1 el s' d _ Hs Hl Hsafe Hh Hp) as (d' & es & tmp' & -> & Hd' & Hle).
      cbn [bind]. eexists. split; [reflexivity|]. cbn [with_stack logged with_doc ps_doc].
      split; [|split; [exact Hd'|apply Hpu]]. apply (held_le _ d d' Hle). apply Hh.
    + cbn [bind]. eexists. split; [reflexivity|]. cbn [with_stack logged with_doc ps_doc].
      split; [apply Hh|]. split; [exact Hp|apply Hpu].
  - inversion Hn; subst. eexists. split; [reflexivity|]. unfold chars_handler. destruct (forallb is_space s); auto.
  - inversion Hn; subst. eexists. split; [reflexivity|]. auto.
Qed.
Lemma run_ok es : forall o t o' st, fit o t st -> safe o t es o' -> exists st' t', run false st es = Ok st' /\ fit o' t' st'.
Proof.
  induction es as [|e es IH]; intros o t o' st Hf Hs; inversion Hs as [|? ? ? o1 t1 ? ? Hn Hx H1 H2]; subst; cbn [run]; [eauto|].
  destruct (step_ok _ _ _ _ _ _ Hf Hn Hx H1) as (st1 & -> & Hf1). cbn [bind]. eauto.
Qed.
Lemma fit_init enc : fit [] [] (parsed_init enc).
Proof. split; [apply sim_init|]. split; [exact I|]. split; exact I. Qed.
