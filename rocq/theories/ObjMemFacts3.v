(** Facts about the memory of the document objects: members, and copies. *)
From Verif Require Import CStr CStrFacts ObjMemModel ObjMemFacts1 ObjMemFacts2.

#[global] Arguments room : simpl never.
#[global] Arguments seqb : simpl never.
#[global] Arguments f_props : simpl never.
#[global] Arguments f_names : simpl never.
#[global] Arguments f_descs : simpl never.
#[global] Arguments f_pkgs : simpl never.
#[global] Arguments f_gids : simpl never.
#[global] Arguments f_groups : simpl never.
#[global] Arguments f_options : simpl never.
#[global] Arguments f_name : simpl never.
#[global] Arguments f_requires : simpl never.
#[global] Arguments f_basearch : simpl never.
#[global] Arguments f_arches : simpl never.
#[global] Arguments f_log : simpl never.
#[global] Arguments f_objects : simpl never.
#[global] Arguments f_enc : simpl never.
#[global] Arguments f_dtname : simpl never.
#[global] Arguments f_dtsys : simpl never.
#[global] Arguments f_dtpub : simpl never.
#[global] Arguments o_groups : simpl never.
#[global] Arguments o_cats : simpl never.
#[global] Arguments o_envs : simpl never.
#[global] Arguments o_lang : simpl never.
#[global] Arguments o_black : simpl never.
#[global] Arguments o_white : simpl never.
(** * Slots *)
Lemma seqb_true a b : seqb a b = true <-> a = b.
Proof. unfold seqb. destruct (list_eq_dec ascii_dec a b); split; auto; discriminate. Qed.
Lemma seqb_refl a : seqb a a = true.
Proof. now apply seqb_true. Qed.
Lemma find_in k s v : find_slot k s = Some v -> In (k, v) s.
Proof.
  induction s as [|(k', v') s IH]; cbn; [discriminate|]. destruct (seqb k' k) eqn:E; intros H.
  - apply seqb_true in E. subst k'. injection H as <-. now left.
  - right. auto.
Qed.
Lemma put_fst k v v0 s : find_slot k s = Some v0 -> map fst (put_slot k v s) = map fst s.
Proof. induction s as [|(k', v') s IH]; cbn; [discriminate|]. destruct (seqb k' k); cbn; intros H; [reflexivity|]. now rewrite IH. Qed.
Lemma put_refs k v v0 s x : find_slot k s = Some v0 ->
  cnt x (refs (map snd (put_slot k v s))) + cnt x (sref v0) = cnt x (refs (map snd s)) + cnt x (sref v).
Proof.
  unfold refs. induction s as [|(k', v') s IH]; cbn; [discriminate|]. destruct (seqb k' k); cbn; intros H.
  - injection H as <-. rewrite !count_occ_app. lia.
  - rewrite !count_occ_app. specialize (IH H). lia.
Qed.
Lemma put_forall (P : str * slot -> Prop) k v s : Forall P s -> P (k, v) -> Forall P (put_slot k v s).
Proof.
  induction 1 as [|(k', v') s H1 H2 IH]; cbn; intros Hv; [constructor; auto|]. destruct (seqb k' k) eqn:E; constructor; auto. apply seqb_true in E. now subst.
Qed.
Lemma put_put k v v' s : put_slot k v' (put_slot k v s) = put_slot k v' s.
Proof. induction s as [|(k', w) s IH]; cbn; [now rewrite seqb_refl|]. destruct (seqb k' k) eqn:E; cbn; rewrite E; [reflexivity|]. now rewrite IH. Qed.
Lemma put_hole k r s : In Hole (map snd (put_slot k (Ptr r) s)) -> In Hole (map snd s).
Proof.
  induction s as [|(k', w) s IH]; cbn; [intros [H|[]]; discriminate|]. destruct (seqb k' k); cbn; intros [H|H]; auto. discriminate.
Qed.
Lemma find_put k v v0 s : find_slot k s = Some v0 -> find_slot k (put_slot k v s) = Some v.
Proof. induction s as [|(k', w) s IH]; cbn; [discriminate|]. destruct (seqb k' k) eqn:E; cbn; rewrite E; auto. Qed.

(** * Objects as they are *)
Definition isres (h : mem) (a : addr) (k : tag) (ss : list (str * slot)) : Prop := exists c, cell_at h a c /\ kind c = k /\ slots c = ss.
Lemma isres_live h a k ss : isres h a k ss -> live h a.
Proof. intros (c & H & _). now exists c. Qed.
Lemma isres_lt h a k ss : isres h a k ss -> a < length h.
Proof. intros H. apply live_lt. eapply isres_live; eauto. Qed.
Lemma isres_same n h h' a k ss : isres h a k ss -> k <> KDict DObjs -> same n h h' -> a < n -> live h' a -> isres h' a k ss.
Proof.
  intros (c & H & K & Es) Hk [L S] Hn (c' & H'). destruct (S a (at_lt _ _ _ H)) as [E|(c0 & c1 & H0 & H1 & K1 & P)]; [congruence|].
  assert (c0 = c) by congruence. assert (c1 = c') by congruence. subst c0 c1. exists c'. split; [exact H'|]. split; [congruence|].
  destruct (P Hn) as [E|(D & _)]; congruence.
Qed.
Lemma isres_shrinks h h' a k ss : isres h a k ss -> shrinks h h' -> live h' a -> isres h' a k ss.
Proof.
  intros (c & H & K & Es) [L S] (c' & H'). destruct (S a c' H') as (c0 & H0 & K0 & E0 & _). assert (c0 = c) by congruence. subst c0.
  exists c'. split; [exact H'|]. split; congruence.
Qed.
Lemma isres_upd h h' a b k ss : isres h a k ss -> upd b h h' -> a <> b -> isres h' a k ss.
Proof. intros (c & H & K) (_ & O & _) Hne. exists c. split; [now rewrite O|exact K]. Qed.
Lemma isres_shape X h ext a k ss : G X h ext -> isres h a k ss -> shape h k ss.
Proof. intros I (c & H & <- & <-). exact (g_shape _ _ _ I _ _ H). Qed.
Lemma isres_kid X h ext a k ss f b : G X h ext -> isres h a k ss -> In (f, Ptr (Some b)) ss -> live h b.
Proof.
  intros I (c & H & <- & <-) Hf. eapply (Inv_kid_live h ext [] a); [apply (g_inv _ _ _ I)|intros []|]. rewrite (kidsof_at _ _ _ H). eapply kids_in; eauto.
Qed.
Lemma isres_via h ext a k ss f b : isres h a k ss -> via h ext a -> In (f, Ptr (Some b)) ss -> via h ext b.
Proof. intros (c & H & <- & <-) V Hf. eapply via_kid; [exact V|exact H|]. eapply kids_in; eauto. Qed.
(** What a member points to. *)
Definition has_kind (h : mem) (a : addr) (k : tag) : Prop := exists c, cell_at h a c /\ kind c = k.
Lemma isres_fits X h ext a k ss f b : G X h ext -> isres h a k ss -> In (f, Ptr (Some b)) ss -> exists t, has_kind h b t /\ fits k f t.
Proof.
  intros I H Hf. destruct (isres_kid _ _ _ _ _ _ _ _ I H Hf) as (cb & Hb). exists (kind cb). split; [now exists cb|].
  destruct (isres_shape _ _ _ _ _ _ I H) as [_ [S _]]. rewrite Forall_forall in S. exact (S _ Hf cb Hb).
Qed.
Lemma isres_null X h ext a k ss f : G X h ext -> isres h a k ss -> In (f, Ptr None) ss -> nullable k f.
Proof. intros I H Hf. destruct (isres_shape _ _ _ _ _ _ I H) as [_ [S _]]. rewrite Forall_forall in S. exact (S _ Hf). Qed.
Lemma isres_solid X h ext a k ss : G X h ext -> isres h a k ss -> ~ In a X -> ~ In Hole (map snd ss).
Proof. intros I (c & H & <- & <-) Ha Hh. apply Ha. eapply g_holes; eauto. Qed.
Lemma has_kind_same n h h' a k : has_kind h a k -> same n h h' -> live h' a -> has_kind h' a k.
Proof.
  intros (c & H & K) [L S] (c' & H'). destruct (S a (at_lt _ _ _ H)) as [E|(c0 & c1 & H0 & H1 & K1 & P)]; [congruence|]. exists c'. split; [exact H'|congruence].
Qed.
Lemma has_kind_fun h a k k' : has_kind h a k -> has_kind h a k' -> k = k'.
Proof. intros (c & H & K) (c' & H' & K'). congruence. Qed.
Lemma has_kind_live h a k : has_kind h a k -> live h a.
Proof. intros (c & H & _). now exists c. Qed.
Lemma isres_kind h a k ss : isres h a k ss -> has_kind h a k.
Proof. intros (c & H & K & _). now exists c. Qed.
Lemma has_kind_res h a k : has_kind h a k -> exists ss, isres h a k ss.
Proof. intros (c & H & K). exists (slots c), c. auto. Qed.
Lemma G_unhole X h ext a k ss : G (a :: X) h ext -> isres h a k ss -> ~ In Hole (map snd ss) -> G X h ext.
Proof.
  intros [I Ho S] (c & H & _ & E) Hn. constructor; auto. intros b cb Hb Hh. destruct (Ho b cb Hb Hh) as [<-|Hx]; [|exact Hx].
  exfalso. apply Hn. rewrite <- E. assert (cb = c) by congruence. subst cb. exact Hh.
Qed.

(** * Members *)
Lemma wp_member h a k ss f r (Q : mem -> ref -> Prop) : isres h a k ss -> find_slot f ss = Some (Ptr r) -> Q h r -> wp (member a f) h Q.
Proof. intros (c & H & _ & E) F HQ. unfold member. apply wp_bind. eapply wp_look; [exact H|]. rewrite E, F. now apply wp_ret. Qed.
Definition opened (v : slot) (a : addr) (X : list addr) : list addr := match v with Hole => a :: X | Ptr _ => X end.
Lemma wp_put X h ext ext' a k ss f v v0 : G X h ext -> isres h a k ss -> find_slot f ss = Some v0 ->
  (forall x, cnt x ext' + cnt x (sref v) = cnt x ext + cnt x (sref v0)) -> slot_ok h k (f, v) ->
  wp (rewrite_slots a (put_slot f v ss)) h (fun h' _ => G (opened v a X) h' ext' /\ upd a h h' /\ isres h' a k (put_slot f v ss)).
Proof.
  intros I (c & H & K & E) F Hn Hv. subst k ss.
  destruct (g_shape _ _ _ I a c H) as [S1 [S2 S3]].
  eapply wp_mono; [eapply (wp_rewrite X (opened v a X) h ext ext' a c _ I H)|].
  - intros x. pose proof (put_refs f v v0 (slots c) x F). specialize (Hn x). unfold kids. lia.
  - split; [intros L; rewrite (put_fst f v v0) by exact F; auto|]. split; [now apply put_forall|]. intros L. rewrite (put_fst f v v0) by exact F. auto.
  - destruct v as [|r]; intros Hh; [now left|]. apply put_hole in Hh. cbn. eapply g_holes; eauto.
  - intros x Hx. right. destruct v; cbn; auto.
  - cbn. intros h' _ (G' & U & C). split; [exact G'|]. split; [exact U|]. eexists. split; [exact C|]. auto.
Qed.
Lemma wp_set_member X h ext ext' a k ss f v v0 : G X h ext -> isres h a k ss -> find_slot f ss = Some v0 ->
  (forall x, cnt x ext' + cnt x (sref v) = cnt x ext + cnt x (sref v0)) -> slot_ok h k (f, v) ->
  wp (set_member a f v) h (fun h' _ => G (opened v a X) h' ext' /\ upd a h h' /\ isres h' a k (put_slot f v ss)).
Proof.
  intros I R F Hn Hv. pose proof R as (c & H & K & E). unfold set_member. apply wp_bind. eapply wp_look; [exact H|]. rewrite E, F. eapply wp_put; eauto.
Qed.
Lemma upd_length a h h' : upd a h h' -> length h' = length h. Proof. now intros (L & _). Qed.
Lemma same_length n h h' : same n h h' -> length h <= length h'. Proof. now intros (L & _). Qed.
(** Destroying what a member points to. *)
Lemma wp_drop X h ext a k ss f r : G X h ext -> isres h a k ss -> find_slot f ss = Some (Ptr r) -> via h ext a -> (forall x, In x X -> live h x -> via h ext x \/ x = a) ->
  X = [] \/ (forall x, In x X -> In x ext) ->
  wp (drop_member a f) h (fun h' _ => G (a :: X) h' ext /\ isres h' a k (put_slot f Hole ss) /\ forall n, n <= a -> same n h h').
Proof.
  intros I R F V HX HX2. unfold drop_member. apply wp_bind. eapply wp_member; [exact R|exact F|].
  eapply wp_seq; [eapply (wp_set_member X h ext (somes [r] ++ ext)); [exact I|exact R|exact F| |exact Logic.I]|].
  { intros x. rewrite count_occ_app. destruct r; cbn; lia. }
  cbn [opened]. intros h1 _ (I1 & U1 & R1). pose proof U1 as (L1 & O1 & _).
  assert (V1 : via h1 ext a) by (eapply via_self; eauto).
  eapply wp_mono; [eapply wp_release; [exact I1|]|].
  - intros x [<-|Hx] Hl; [exact V1|]. destruct HX2 as [->|HX2]; [destruct Hx|]. apply via_in. auto.
  - intros h2 _ (I2 & S2). split; [exact I2|]. split.
    + eapply isres_shrinks; [exact R1|exact S2|]. eapply via_live; [exact I2|]. eapply reach_shrinks; [apply (g_inv _ _ _ I2)|apply incl_refl|exact S2|exact V1].
    + intros n Hn. eapply same_trans; [eapply upd_same; eauto|now apply shrinks_same].
Qed.

(** * What an object shows *)
Inductive tree := T (k : tag) (l : list (str * option tree)).
Definition root (t : tree) : tag := let 'T k _ := t in k.
Definition plain (k : tag) : bool := match k with KMDict | KDoc | KDict DObjs => false | _ => true end.
Section Back.
Variable f : addr -> option tree.
Fixpoint rbs (s : list (str * slot)) : option (list (str * option tree)) :=
  match s with
  | [] => Some []
  | (_, Hole) :: _ => None
  | (k, Ptr None) :: r => option_map (cons (k, None)) (rbs r)
  | (k, Ptr (Some b)) :: r => match f b with Some t => option_map (cons (k, Some t)) (rbs r) | None => None end
  end.
End Back.
Fixpoint rb (d : nat) (h : mem) (a : addr) : option tree :=
  match d with
  | O => None
  | S d' => match nth_error h a with
            | Some (Some c) => if plain (kind c) then option_map (T (kind c)) (rbs (rb d' h) (slots c)) else None
            | _ => None
            end
  end.
Lemma rbs_ext (f g : addr -> option tree) s ts : (forall k b t, In (k, Ptr (Some b)) s -> f b = Some t -> g b = Some t) -> rbs f s = Some ts -> rbs g s = Some ts.
Proof.
  revert ts. induction s as [|(k, v) s IH]; cbn; intros ts H E; [exact E|]. destruct v as [|[b|]]; [discriminate| |].
  - destruct (f b) as [t|] eqn:Eb; [|discriminate]. rewrite (H k b t (or_introl eq_refl) Eb). destruct (rbs f s) as [l|]; [|discriminate]. rewrite (IH l); auto. intros k' b' t' H'. apply (H k' b' t'). now right.
  - destruct (rbs f s) as [l|]; [|discriminate]. rewrite (IH l); auto. intros k' b' t' H'. apply (H k' b' t'). now right.
Qed.
Lemma rbs_holey f s : In Hole (map snd s) -> rbs f s = None.
Proof.
  induction s as [|(k, v) s IH]; cbn; [intros []|]. intros [H|H].
  - now rewrite H.
  - destruct v as [|[b|]]; [reflexivity| |]; rewrite (IH H); [destruct (f b)|]; reflexivity.
Qed.
Lemma rbs_app f s1 s2 : rbs f (s1 ++ s2) = match rbs f s1, rbs f s2 with Some a, Some b => Some (a ++ b) | _, _ => None end.
Proof.
  induction s1 as [|(k, v) s IH]; cbn; [now destruct (rbs f s2)|]. destruct v as [|[b|]]; [reflexivity| |].
  - destruct (f b); [|reflexivity]. rewrite IH. destruct (rbs f s), (rbs f s2); reflexivity.
  - rewrite IH. destruct (rbs f s), (rbs f s2); reflexivity.
Qed.
Lemma rb_at d h a t : rb d h a = Some t -> exists c d' ts, d = S d' /\ cell_at h a c /\ plain (kind c) = true /\ rbs (rb d' h) (slots c) = Some ts /\ t = T (kind c) ts.
Proof.
  destruct d as [|d']; cbn; [discriminate|]. destruct (nth_error h a) as [[c|]|]; try discriminate. destruct (plain (kind c)) eqn:Ep; [|discriminate].
  destruct (rbs (rb d' h) (slots c)) as [ts|] eqn:E; [|discriminate]. intros H. injection H as <-. exists c, d', ts. auto.
Qed.
Lemma rb_kind d h a t : rb d h a = Some t -> has_kind h a (root t).
Proof. intros H. destruct (rb_at _ _ _ _ H) as (c & d' & ts & -> & Hc & _ & _ & ->). now exists c. Qed.
Lemma rb_more d : forall h a t, rb d h a = Some t -> rb (S d) h a = Some t.
Proof.
  induction d as [|d IH]; intros h a t H; [discriminate|]. destruct (rb_at _ _ _ _ H) as (c & d' & ts & Ed & Hc & Hp & Hr & ->). injection Ed as <-.
  cbn [rb]. rewrite Hc, Hp. change (option_map (T (kind c)) (rbs (rb (S d) h) (slots c)) = Some (T (kind c) ts)).
  now rewrite (rbs_ext (rb d h) (rb (S d) h) (slots c) ts) by (auto || (intros; apply IH; auto)).
Qed.
Lemma rb_up d d' h a t : d <= d' -> rb d h a = Some t -> rb d' h a = Some t.
Proof. induction 1; auto. intros H'. apply rb_more. auto. Qed.
Lemma rb_same d : forall h h' e0 e1 ext X X' a t, G X h e0 -> incl ext e0 -> same (length h) h h' -> G X' h' e1 -> incl ext e1 -> via h ext a ->
  rb d h a = Some t -> rb d h' a = Some t.
Proof.
  induction d as [|d IH]; intros h h' e0 e1 ext X X' a t I Hi S I' Hi' V H; [discriminate|].
  destruct (rb_at _ _ _ _ H) as (c & d' & ts & Ed & Hc & Hp & Hr & ->). injection Ed as <-.
  destruct (via_same _ _ _ _ _ _ _ _ I Hi S I' Hi' V) as (V' & c0 & c' & H0 & H' & K & P). assert (c0 = c) by congruence. subst c0.
  assert (Es : slots c' = slots c) by (destruct P as [E|(D & _)]; [exact E|rewrite D in Hp; discriminate]).
  cbn [rb]. rewrite H', K, Hp, Es. erewrite rbs_ext; [reflexivity| |exact Hr]. intros k b t Hb Ht. eapply (IH h h' e0 e1 ext X X'); auto. eapply via_kid; [exact V|exact Hc|]. eapply kids_in; eauto.
Qed.
Lemma rb_upd d : forall h h' a c b t, upd a h h' -> cell_at h a c -> holey c -> rb d h b = Some t -> rb d h' b = Some t.
Proof.
  induction d as [|d IH]; intros h h' a c b t U Ha Hh H; [discriminate|].
  destruct (rb_at _ _ _ _ H) as (cb & d' & ts & Ed & Hc & Hp & Hr & ->). injection Ed as <-.
  assert (Hne : b <> a) by (intros ->; assert (cb = c) by congruence; subst cb; rewrite rbs_holey in Hr by exact Hh; discriminate).
  pose proof U as (_ & O & _). cbn [rb]. rewrite O by exact Hne. rewrite Hc, Hp. erewrite rbs_ext; [reflexivity| |exact Hr]. intros k x t Hx Ht. eapply IH; eauto.
Qed.
Definition rank (k : tag) : nat :=
  match k with
  | KVal _ | KLog => 0 | KList LStr | KDict DLang => 1 | KDict DProp | KMDict | KPkg | KGid => 2
  | KList LPkg | KList LGid => 3 | KGroup | KCat | KEnv => 4 | KList _ => 5 | KDict DObjs => 6 | KDoc => 7
  end.
Lemma obj_kind_rank f : rank (obj_kind f) < 6.
Proof. unfold obj_kind. repeat match goal with |- context [if ?b then _ else _] => destruct b end; cbn; lia. Qed.
Lemma fits_rank k f t : fits k f t -> rank t < rank k.
Proof.
  destruct k as [v|e|dd| | | | | | | |]; cbn [fits rank plain]; try tauto.
  - destruct e; cbn; intros H; try (subst t; cbn; lia). destruct t; cbn in *; try tauto; lia.
  - destruct dd; cbn [fits rank].
    + destruct (seqb f f_arches); [intros ->; cbn; lia|]. destruct t; cbn; try tauto; lia.
    + destruct t; cbn; try tauto; lia.
    + intros ->. pose proof (obj_kind_rank f). lia.
  - intros ->. cbn. lia.
  - destruct (seqb f f_arches); [intros ->; cbn; lia|]. destruct t; cbn; try tauto; lia.
  - destruct (seqb f f_arches); [intros ->; cbn; lia|]. destruct t; cbn; try tauto; lia.
  - unfold list_of. repeat match goal with |- context [if ?b then _ else _] => destruct b end; intros ->; cbn; lia.
  - unfold list_of. repeat match goal with |- context [if ?b then _ else _] => destruct b end; intros ->; cbn; lia.
  - unfold list_of. repeat match goal with |- context [if ?b then _ else _] => destruct b end; intros ->; cbn; lia.
  - destruct (seqb f f_log); [intros ->; cbn; lia|]. destruct (seqb f f_objects); [intros ->; cbn; lia|]. destruct t; cbn; try tauto; lia.
Qed.
Lemma fits_plain k f t : plain k = true -> fits k f t -> plain t = true.
Proof.
  destruct k as [v|e|dd| | | | | | | |]; cbn [fits rank plain]; try discriminate; try tauto; intros Hp.
  - destruct e; cbn; intros H; try (now subst t). destruct t; cbn in *; tauto.
  - destruct dd; cbn [fits rank]; try discriminate.
    + destruct (seqb f f_arches); [now intros ->|]. destruct t; cbn; tauto.
    + destruct t; cbn; tauto.
  - destruct (seqb f f_arches); [now intros ->|]. destruct t; cbn; tauto.
  - destruct (seqb f f_arches); [now intros ->|]. destruct t; cbn; tauto.
  - repeat match goal with |- context [if ?b then _ else _] => destruct b end; now intros ->.
  - repeat match goal with |- context [if ?b then _ else _] => destruct b end; now intros ->.
  - repeat match goal with |- context [if ?b then _ else _] => destruct b end; now intros ->.
Qed.
Lemma rb_total d : forall h ext a k, G [] h ext -> has_kind h a k -> plain k = true -> rank k < d -> exists t, rb d h a = Some t.
Proof.
  induction d as [|d IH]; intros h ext a k I Hk Hp Hr; [lia|].
  destruct (has_kind_res _ _ _ Hk) as (ss & R). pose proof (isres_solid _ _ _ _ _ _ I R (fun x => x)) as Hs.
  assert (E : exists ts, rbs (rb d h) ss = Some ts).
  { assert (Hf : forall f b, In (f, Ptr (Some b)) ss -> exists t, rb d h b = Some t).
    { intros f b Hb. destruct (isres_fits _ _ _ _ _ _ _ _ I R Hb) as (t & Ht & F). apply (IH h ext b t I Ht); [eapply fits_plain; eauto|]. pose proof (fits_rank _ _ _ F). lia. }
    clear R. induction ss as [|(f, v) ss IHs]; [exists []; reflexivity|].
    destruct IHs as (ts & E); [intros H; apply Hs; now right|intros f' b Hb; apply (Hf f' b); now right|]. cbn [rbs]. rewrite E. destruct v as [|[b|]].
    - exfalso. apply Hs. now left.
    - destruct (Hf f b (or_introl eq_refl)) as (t & ->). eexists; reflexivity.
    - eexists; reflexivity. }
  destruct E as (ts & E). destruct R as (c & H & K & Es). exists (T k ts). cbn [rb]. rewrite H, K, Hp, Es, E. reflexivity.
Qed.
Lemma rb_room h ext a k : G [] h ext -> has_kind h a k -> plain k = true -> exists t, rb room h a = Some t /\ root t = k.
Proof.
  intros I H Hp. destruct (rb_total room h ext a k I H Hp) as (t & E).
  - unfold room. destruct k as [v|[]|[]| | | | | | | |]; cbn in *; try discriminate; lia.
  - exists t. split; [exact E|]. apply rb_kind in E. eapply has_kind_fun; eauto.
Qed.

(** * Copies *)
Lemma empty_all s : all_holes (empty_slots s).
Proof. unfold all_holes, empty_slots. apply Forall_forall. intros x Hx. apply in_map_iff in Hx. now destruct Hx as (y & <- & _). Qed.
Lemma empty_fst s : map fst (empty_slots s) = map fst s.
Proof. unfold empty_slots. rewrite map_map. now apply map_ext. Qed.
Lemma empty_refs s : refs (map snd (empty_slots s)) = [].
Proof. unfold refs, empty_slots. induction s; cbn; auto. Qed.
Lemma refs_app a b : refs (a ++ b) = refs a ++ refs b.
Proof. apply flat_map_app. Qed.
Definition copies (d : nat) (cp : ref -> M ref) : Prop := cp None = ret None /\
  forall h X ext b t, rb d h b = Some t -> via h ext b -> G X h ext ->
    wp (cp (Some b)) h (fun h' r => exists m, r = Some m /\ length h <= m /\ G X h' (m :: ext) /\ same (length h) h h' /\ rb d h' m = Some t).
Lemma copy_slots_ok d cp (skip : str -> bool) h0 X ext k : copies d cp -> (forall f, skip f = false) -> k <> KDict DObjs -> G X h0 ext ->
  forall todo done h ts td, same (length h0) h0 h -> G (length h0 :: X) h (length h0 :: ext) -> isres h (length h0) k (done ++ empty_slots todo) ->
  Forall (fun fv => forall b, snd fv = Ptr (Some b) -> via h0 ext b) todo -> Forall (slot_ok h0 k) todo ->
  rbs (rb d h0) todo = Some ts -> rbs (rb d h) done = Some td ->
  wp (copy_slots cp (length h0) skip done todo) h (fun h' _ => exists sl, isres h' (length h0) k sl /\ G (length h0 :: X) h' (length h0 :: ext) /\
    same (length h0) h0 h' /\ rbs (rb d h') sl = Some (td ++ ts)).
Proof.
  intros [Hc0 Hc] Hskip Hk I0. induction todo as [|(f, v) todo IH]; intros done h ts td S I R Hv Hok Hts Htd; cbn [copy_slots].
  - cbn in *. rewrite app_nil_r in R. injection Hts as <-. rewrite app_nil_r. apply wp_ret. exists done. auto.
  - rewrite Hskip. inversion Hv as [|? ? Hv1 Hv2]; subst. inversion Hok as [|? ? Hok1 Hok2]; subst. cbn [rbs] in Hts.
    assert (L0 : length h0 < length h) by (eapply isres_lt; eauto).
    assert (HolN : exists c, cell_at h (length h0) c /\ holey c).
    { destruct R as (c & H & _ & E). exists c. split; [exact H|]. unfold holey. rewrite E, map_app. apply in_or_app. right. now left. }
    assert (Key : forall r h1 o, slot_ok h1 k (f, Ptr r) -> same (length h0) h0 h1 -> G (length h0 :: X) h1 (somes [r] ++ length h0 :: ext) ->
      isres h1 (length h0) k (done ++ empty_slots ((f, v) :: todo)) -> rbs (rb d h1) done = Some td -> rbs (rb d h1) [(f, Ptr r)] = Some [o] ->
      forall ts', rbs (rb d h0) todo = Some ts' -> ts = o :: ts' ->
      wp (rewrite_slots (length h0) (done ++ (f, Ptr r) :: empty_slots todo);;; copy_slots cp (length h0) skip (done ++ [(f, Ptr r)]) todo) h1
        (fun h' _ => exists sl, isres h' (length h0) k sl /\ G (length h0 :: X) h' (length h0 :: ext) /\ same (length h0) h0 h' /\ rbs (rb d h') sl = Some (td ++ ts))).
    { intros r h1 o Hs1 S1 I1 R1 Htd1 Hr1 ts' Hts' ->. pose proof R1 as (c & Hcn & Kn & En).
      destruct (g_shape _ _ _ I1 _ _ Hcn) as [Sh1 [Sh2 Sh3]].
      assert (Hh : holey c) by (unfold holey; rewrite En, map_app; apply in_or_app; right; now left).
      eapply wp_seq; [eapply (wp_rewrite (length h0 :: X) (length h0 :: X) h1 _ (length h0 :: ext) (length h0) c); [exact I1|exact Hcn| | | |]|].
      - intros x. unfold kids. rewrite En, !map_app, !refs_app. cbn [map snd]. cbn. rewrite !empty_refs. rewrite !count_occ_app. cbn.
        destruct r; cbn; rewrite ?count_occ_nil; lia.
      - rewrite Kn, En in Sh1, Sh3. rewrite Kn in Sh2 |- *. rewrite En in Sh2. split; [|split].
        + intros L. rewrite <- Sh1 by exact L. rewrite !map_app. cbn. reflexivity.
        + apply Forall_app in Sh2. destruct Sh2 as [Sd Se]. apply Forall_app. split; [exact Sd|]. constructor; [exact Hs1|]. inversion Se; assumption.
        + intros L. specialize (Sh3 L). rewrite !map_app in Sh3 |- *. exact Sh3.
      - intros _. now left.
      - intros x Hx. now right.
      - cbn. intros h2 _ (I2 & U2 & C2). specialize (IH (done ++ [(f, Ptr r)]) h2 ts' (td ++ [o])).
        rewrite <- app_assoc in IH. cbn [app] in IH. rewrite <- app_assoc in IH. cbn [app] in IH. apply IH; auto.
        + eapply same_trans; [exact S1|]. eapply upd_same; [|exact U2]. lia.
        + eexists. split; [exact C2|]. cbn. auto.
        + rewrite rbs_app. rewrite (rbs_ext (rb d h1) (rb d h2) done td) by (try exact Htd1; intros; eapply rb_upd; eauto).
          rewrite (rbs_ext (rb d h1) (rb d h2) [(f, Ptr r)] [o]) by (try exact Hr1; intros; eapply rb_upd; eauto). reflexivity. }
    destruct v as [|[b|]]; [discriminate| |].
    + destruct (rb d h0 b) as [t|] eqn:Eb; [|discriminate]. destruct (rbs (rb d h0) todo) as [ts'|] eqn:Et; [|discriminate]. injection Hts as <-.
      assert (Vb : via h0 ext b) by (now apply Hv1).
      destruct (via_same _ _ _ _ ext _ _ b I0 (incl_refl _) S I (ltac:(inc)) Vb) as (Vb' & _).
      pose proof (rb_same d _ _ _ _ ext _ _ _ _ I0 (incl_refl _) S I (ltac:(inc)) Vb Eb) as Eb'.
      eapply wp_seq; [eapply (Hc h (length h0 :: X) (length h0 :: ext) b t Eb'); [eapply via_mono; [|exact Vb']; inc|exact I]|].
      cbn. intros h1 r (m & -> & Hm & I1 & S1 & Em).
      apply (Key (Some m) h1 (f, Some t)) with (ts' := ts'); auto.
      * unfold slot_ok. cbn. intros cb Hcb. destruct (rb_kind _ _ _ _ Em) as (c2 & H2 & K2). assert (c2 = cb) by congruence. subst c2.
        destruct (rb_kind _ _ _ _ Eb) as (c3 & H3 & K3). specialize (Hok1 c3 H3). cbn in Hok1. congruence.
      * eapply same_trans; [exact S|]. eapply same_weak; [|exact S1]. lia.
      * eapply isres_same; [exact R|exact Hk|exact S1|exact L0|]. eapply Inv_ext_live; [apply (g_inv _ _ _ I1)|]. cbn. auto.
      * eapply rbs_ext; [|exact Htd]. intros k' x t' Hx Ht'. eapply (rb_same d h h1 (length h0 :: ext) _ (length h0 :: ext)); [exact I|apply incl_refl|exact S1|exact I1|inc| |exact Ht'].
        destruct R as (c & Hcn & _ & En). eapply via_kid; [apply via_in; now left|exact Hcn|]. eapply kids_in. rewrite En. apply in_or_app. left. exact Hx.
      * cbn [rbs]. rewrite Em. reflexivity.
    + destruct (rbs (rb d h0) todo) as [ts'|] eqn:Et; [|discriminate]. injection Hts as <-. rewrite Hc0. apply wp_bind, wp_ret.
      apply (Key None h (f, None)) with (ts' := ts'); auto.
Qed.
Lemma copy_ok d : copies d (copy d).
Proof.
  induction d as [|d IH].
  - split; [reflexivity|]. intros h X ext b t H. discriminate.
  - split; [reflexivity|]. intros h X ext b t H V I. destruct (rb_at _ _ _ _ H) as (c & d' & ts & Ed & Hc & Hp & Hr & ->). injection Ed as <-.
    cbn [copy]. apply wp_bind. eapply wp_look; [exact Hc|].
    assert (Key : forall k, kind c = k -> plain k = true ->
      wp (do n <- new k (empty_slots (slots c)); copy_slots (copy d) n (fun f => andb (doc_kind k) (seqb f (S_ "log"))) [] (slots c);;; ret (Some n)) h
      (fun h' r => exists m, r = Some m /\ length h <= m /\ G X h' (m :: ext) /\ same (length h) h h' /\ rb (S d) h' m = Some (T k ts))).
    { intros k Kc Hpk. destruct (g_shape _ _ _ I _ _ Hc) as [Sh1 [Sh2 Sh3]]. rewrite Kc in Sh1, Sh2, Sh3.
      eapply wp_seq; [apply (wp_new X h ext k (empty_slots (slots c)) I)|].
      - apply empty_all.
      - rewrite empty_fst. exact Sh1.
      - rewrite empty_fst. exact Sh3.
      - cbn. intros h1 n (-> & I1 & _ & S1 & C1).
        eapply wp_seq; [eapply (copy_slots_ok d (copy d) _ h X ext k IH) with (ts := ts) (td := [])|].
        + intros f. destruct k; cbn in *; try reflexivity. discriminate.
        + intros ->. discriminate.
        + exact I.
        + exact S1.
        + exact I1.
        + eexists. split; [exact C1|]. split; reflexivity.
        + apply Forall_forall. intros (f, v) Hf x Hx. cbn in Hx. subst v. eapply via_kid; [exact V|exact Hc|]. eapply kids_in; eauto.
        + exact Sh2.
        + exact Hr.
        + reflexivity.
        + cbn. intros h2 _ (sl & R2 & I2 & S2 & E2). apply wp_ret. exists (length h). split; [reflexivity|]. split; [lia|]. split; [|split; [exact S2|]].
          * eapply G_unhole; [exact I2|exact R2|]. intros Hh. rewrite rbs_holey in E2 by exact Hh. discriminate.
          * destruct R2 as (c2 & H2 & K2 & Es2). cbn [rb]. rewrite H2, K2, Hpk, Es2, E2. reflexivity. }
    specialize (Key (kind c) eq_refl Hp). destruct (kind c); try exact Key. discriminate.
Qed.
Lemma wp_copy_obj X h ext a t : G X h ext -> via h ext a -> rb room h a = Some t ->
  wp (copy_obj a) h (fun h' m => length h <= m /\ G X h' (m :: ext) /\ same (length h) h h' /\ rb room h' m = Some t /\ has_kind h' m (root t)).
Proof.
  intros I V H. unfold copy_obj. destruct (copy_ok room) as [_ C]. eapply wp_seq; [apply (C h X ext a t H V I)|].
  cbn. intros h' r (m & -> & L & I' & S & E). cbn [follow]. apply wp_ret. split; [exact L|]. split; [exact I'|]. split; [exact S|]. split; [exact E|]. exact (rb_kind _ _ _ _ E).
Qed.
