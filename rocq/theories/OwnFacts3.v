(** Whole histories of a dictionary. *)
From Coq Require Import Permutation.
From Verif Require Import CStr CStrFacts HSListModel HSListFacts RTreeModel RTreeFacts RTreeFacts2 RTreeFacts3 RTreeFacts4
  OwnModel OwnFacts OwnFacts2.

(** ** Vocabulary *)
Section Spec.
Context {V : Type}.
Notation node := (node V).

(** What a call hands to the dictionary: the pointer stored (made by the
    constructor), or one reference to the object. *)
Definition stored (kd : kind) (ctor : option V -> option V) (d : option V) : option V :=
  match kd with Objects => d | Plain _ => ctor d end.
Definition given1 kd ctor (o : oop V) : list V :=
  match o with
  | OSet _ _ d | OSetN _ _ _ d => olist (stored kd ctor d)
  | _ => []
  end.
Definition given kd ctor (os : list (oop V)) : list V := flat_map (given1 kd ctor) os.
(** The values passed to the destructor, in order. *)
Definition destroyed (effs : list (effect V)) : list V := flat_map (fun e => flat_map olist (e_destroyed e)) effs.
Definition results (effs : list (effect V)) : list (option V) := map e_result effs.
(** What the dictionary shows for a key ([None] also after a plain clear). *)
Definition shows (s : odict V) (k : str) : option V :=
  if o_dead s then None else match get_sub (length k) (o_root s) k with Ok v => v | _ => None end.

(** The keys set so far, newest first. *)
Definition set_key (o : oop V) : list str := match o with OSet _ k _ => [k] | _ => [] end.
Definition set_keys (os : list (oop V)) : list str := flat_map set_key os.
(** [k] was set in [os] and since then nothing was cleared and no prefix of [k]
    (in particular not [k] itself) was unset. *)
Definition bound (os : list (oop V)) (k : str) : Prop :=
  exists l1 own d l2, os = l1 ++ OSet own k d :: l2 /\
    (forall k', In (OUnset k') l2 -> ~ prefix k' k) /\ ~ In OClear l2.
(** Histories of plain [set] with non-NULL values and non-empty keys in which no
    key is set that is a proper prefix of a key set before, unless it is bound. *)
Definition orderly kd ctor (os : list (oop V)) : Prop :=
  (forall own k m d, ~ In (OSetN own k m d) os) /\
  (forall own k d, In (OSet own k d) os -> k <> [] /\ stored kd ctor d <> None) /\
  (forall l1 own k d l2, os = l1 ++ OSet own k d :: l2 ->
     bound l1 k \/ forall k', In k' (set_keys l1) -> ~ proper_prefix k k').
End Spec.

Section Facts.
Context {V : Type}.
Notation node := (node V).
Implicit Types (h : hsl node) (k : str) (d : option V) (kd : kind) (s : odict V).

Definition held s : list V := if o_dead s then [] else vals (hitems (o_root s)).
Definition wfo s : Prop := wff (o_root s).

Lemma live_dead s k : live s k = true -> o_dead s = true -> k = [].
Proof. unfold live. destruct k; [reflexivity|]. intros H E. now rewrite E in H. Qed.

Lemma own_set_full kd h k m d h' ev : owning kd ->
  wff h -> m <= length k -> own_set kd m h k m d = Ok (h', ev) ->
  wff h' /\ exists lost, Permutation (vals (hitems h') ++ somes ev ++ lost) (olist d ++ vals (hitems h)).
Proof.
  intros Ho Hw Hm E. destruct m as [|m].
  { cbn in E. assert (E' : Ok (h, @nil (option V)) = Ok (h', ev)) by (destruct k; exact E).
    inversion E'; subst. split; [exact Hw|]. exists (olist d). cbn. apply Permutation_app_comm. }
  destruct (own_set_n kd (S m) h k (S m) d Hw) as (k' & Hk' & E'); [lia|exact Hm|lia|].
  rewrite E' in E. split.
  - pose proof (own_set_tree kd Ho (length k') h k' d) as T. rewrite E in T.
    destruct (set_sub_spec (length k') h k' d Hw (le_n _)) as (h2 & b & E2 & Hw2 & _).
    rewrite E2 in T. cbn in T. now inversion T.
  - destruct (own_set_spec kd Ho _ _ _ _ _ _ Hw E) as (lost & Hp & _). eauto.
Qed.

Lemma own_unset_full kd h k h' ev isroot : owning kd -> wff h ->
  own_unset kd (length k) isroot h k = Ok (h', ev) ->
  wff h' /\ Permutation (vals (hitems h') ++ somes ev) (vals (hitems h)).
Proof.
  intros Ho Hw E. split.
  - pose proof (own_unset_tree kd Ho (length k) isroot h k) as T. rewrite E in T. cbn in T.
    pose proof (unset_sub_spec (length k) h k isroot Hw (le_n _)) as H. rewrite <- T in H. apply H.
  - destruct (own_unset_spec kd Ho _ _ _ _ _ _ Hw E) as (dk & Hp & Hv & _).
    apply (Permutation_map snd) in Hp. rewrite map_app, Hv in Hp. exact Hp.
Qed.

(** One call. *)
Lemma step_held kd ctor s o s' e : owning kd -> wfo s -> o_step kd ctor s o = Ok (s', e) ->
  wfo s' /\ exists lost, Permutation (held s' ++ somes (e_destroyed e) ++ lost) (given1 kd ctor o ++ held s).
Proof.
  intros Ho Hw E.
  assert (Hset : forall own k m d, o_set kd ctor s own k m d = Ok (s', e) ->
    wfo s' /\ exists lost, Permutation (held s' ++ somes (e_destroyed e) ++ lost) (olist (stored kd ctor d) ++ held s)).
  { clear E. intros own k m d E. unfold o_set in E. fold (stored kd ctor d) in E.
    destruct (m <=? length k) eqn:Em; [|discriminate]. apply Nat.leb_le in Em. cbn [andb] in E.
    destruct (live s (firstn m k)) eqn:El; [|discriminate].
    apply bind_ok in E. destruct E as ([h' ev] & Er & E). inversion E; subst s' e; clear E. cbn [fst snd e_destroyed] in *.
    destruct (own_set_full kd (o_root s) k m _ h' ev Ho Hw Em Er) as (Hw' & lost & Hp). split; [exact Hw'|].
    unfold held. cbn [o_dead o_root]. destruct (o_dead s) eqn:Ed; [|eauto].
    assert (m = 0) as ->.
    { pose proof (live_dead _ _ El Ed) as H. apply (f_equal (@length _)) in H. rewrite firstn_length in H. cbn in H. lia. }
    assert (E' : Ok (o_root s, @nil (option V)) = Ok (h', ev)) by (destruct k; exact Er).
    inversion E'; subst. exists (olist (stored kd ctor d)). cbn. now rewrite app_nil_r. }
  destruct o as [own k d|own k m d|own k|k|]; cbn [o_step given1] in *.
  - exact (Hset _ _ _ _ E).
  - exact (Hset _ _ _ _ E).
  - destruct (live s k); [|discriminate]. apply bind_ok in E. destruct E as (v & _ & E). inversion E; subst.
    split; [exact Hw|]. exists []. cbn. now rewrite app_nil_r.
  - destruct (live s k) eqn:El; [|discriminate]. apply bind_ok in E. destruct E as ([h' ev] & Er & E). inversion E; subst s' e; clear E.
    cbn [fst snd e_destroyed] in *. destruct (own_unset_full kd _ k h' ev true Ho Hw Er) as (Hw' & Hp).
    split; [exact Hw'|]. exists []. rewrite app_nil_r. unfold held. cbn [o_dead o_root app].
    destruct (o_dead s) eqn:Ed; [|exact Hp]. pose proof (live_dead _ _ El Ed) as ->. cbn in Er. inversion Er; subst. reflexivity.
  - unfold o_clear in E. destruct (o_dead s) eqn:Ed; [discriminate|].
    injection E as E1 E2. subst e. cbn [e_destroyed].
    assert (Hh : held s' = []).
    { rewrite <- E1. unfold held. destruct kd; [|reflexivity]. destruct (hitems (o_root s)); reflexivity. }
    split.
    { rewrite <- E1. unfold wfo. destruct kd; [|apply wff_empty]. destruct (hitems (o_root s)); [apply wff_empty|exact Hw]. }
    exists []. rewrite Hh, app_nil_r, list_destroy_somes by exact Ho. unfold held. rewrite Ed. reflexivity.
Qed.

Lemma destroyed_cons (e : effect V) effs : destroyed (e :: effs) = somes (e_destroyed e) ++ destroyed effs.
Proof. reflexivity. Qed.

Lemma run_held kd ctor : owning kd -> forall os s s' effs, wfo s -> o_run kd ctor s os = Ok (s', effs) ->
  wfo s' /\ exists lost, Permutation (held s' ++ destroyed effs ++ lost) (given kd ctor os ++ held s).
Proof.
  intros Ho. induction os as [|o os IH]; intros s s' effs Hw E; cbn [o_run] in E.
  - inversion E; subst. split; [exact Hw|]. exists []. cbn. now rewrite app_nil_r.
  - apply bind_ok in E. destruct E as ([s1 e] & E1 & E). apply bind_ok in E. destruct E as ([s2 es] & E2 & E).
    cbn [fst snd] in *. inversion E; subst s' effs; clear E.
    destruct (step_held kd ctor s o s1 e Ho Hw E1) as (Hw1 & lost1 & Hp1).
    destruct (IH _ _ _ Hw1 E2) as (Hw2 & lost2 & Hp2). split; [exact Hw2|].
    exists (lost2 ++ lost1). rewrite destroyed_cons. unfold given in *. cbn [flat_map]. rewrite <- !app_assoc.
    rewrite (Permutation_app_swap_app (given1 kd ctor o)), <- Hp1.
    rewrite (app_assoc _ (held s1)), <- Hp2, <- !app_assoc. apply Permutation_app_head.
    rewrite (Permutation_app_swap_app (somes (e_destroyed e))). apply Permutation_app_head.
    rewrite (Permutation_app_swap_app (somes (e_destroyed e))). reflexivity.
Qed.

(** ** Orderly histories lose nothing *)
Definition Inv (past : list (oop V)) s : Prop :=
  wfo s /\ tn (fun q => In q (set_keys past)) (o_root s) /\
  forall k, bound past k -> look (o_root s) k <> None /\ o_dead s = false.

Lemma bound_snoc past (o : oop V) k : bound (past ++ [o]) k ->
  (exists own d, o = OSet own k d) \/
  (bound past k /\ (forall k', o = OUnset k' -> ~ prefix k' k) /\ o <> OClear).
Proof.
  intros (l1 & own & d & l2 & E & H1 & H2).
  destruct l2 as [|x l2 _] using rev_ind.
  - apply app_inj_tail in E. destruct E as [_ ->]. eauto.
  - right. rewrite app_comm_cons, app_assoc in E. apply app_inj_tail in E. destruct E as [-> ->]. split.
    + exists l1, own, d, l2. split; [reflexivity|]. split.
      * intros k' Hk'. apply H1. apply in_or_app. now left.
      * intros Hc. apply H2. apply in_or_app. now left.
    + split.
      * intros k' ->. apply H1. apply in_or_app. right. now left.
      * intros ->. apply H2. apply in_or_app. right. now left.
Qed.

Definition fine kd ctor (past : list (oop V)) (o : oop V) : Prop :=
  match o with
  | OSetN _ _ _ _ => False
  | OSet _ k d => k <> [] /\ stored kd ctor d <> None /\ (bound past k \/ forall k', In k' (set_keys past) -> ~ proper_prefix k k')
  | _ => True
  end.

Lemma set_keys_app (a b : list (oop V)) : set_keys (a ++ b) = set_keys a ++ set_keys b.
Proof. apply flat_map_app. Qed.

Lemma step_orderly kd ctor past s o s' e : owning kd -> Inv past s -> fine kd ctor past o ->
  o_step kd ctor s o = Ok (s', e) ->
  Inv (past ++ [o]) s' /\ Permutation (held s' ++ somes (e_destroyed e)) (given1 kd ctor o ++ held s).
Proof.
  intros Ho (Hw & Ht & Hb) Hf E.
  destruct (step_held kd ctor s o s' e Ho Hw E) as (Hw' & _).
  destruct o as [own k d|own k m d|own k|k|]; cbn [o_step given1 fine] in *.
  - destruct Hf as (Hk & Hd & Hq). unfold o_set in E. fold (stored kd ctor d) in E. rewrite Nat.leb_refl, firstn_all in E.
    cbn [andb] in E. destruct (live s k) eqn:El; [|discriminate].
    apply bind_ok in E. destruct E as ([h' ev] & Er & E). inversion E; subst s' e; clear E. cbn [fst snd e_destroyed] in *.
    assert (Ed : o_dead s = false).
    { destruct (o_dead s) eqn:Ed; [|reflexivity]. now pose proof (live_dead _ _ El Ed). }
    destruct (stored kd ctor d) as [v|] eqn:Esd; [|congruence]. clear Hd.
    destruct (set_sub_spec (length k) (o_root s) k (Some v) Hw (le_n _)) as (h2 & b & E2 & Hw2 & Hl).
    assert (h2 = h') as ->.
    { pose proof (own_set_tree kd Ho (length k) (o_root s) k (Some v)) as T. rewrite Er, E2 in T. cbn in T. congruence. }
    destruct (set_sub_tn (length k) (o_root s) k (Some v) h' b (fun q => In q (set_keys past)) Hw (le_n _) Hk Ht) as [Hc Ht'].
    { destruct Hq as [Hq|Hq]; [left|right; exact Hq]. destruct (Hb k Hq) as [Hb' _].
      destruct (look (o_root s) k) as [w|] eqn:Ew; [|congruence].
      destruct (look_at_path _ _ _ Hw Ew) as (mm & Hm & _). eauto. }
    { exact E2. }
    specialize (Hl Hc).
    destruct (own_set_spec kd Ho _ _ _ _ _ _ Hw Er) as (lost & Hp & Hlost).
    rewrite (Hlost Hk Hc), app_nil_r in Hp. split.
    + split; [exact Hw'|]. cbn [o_root o_dead]. split.
      * apply (tn_mono h' Hw2 (addS (fun q => In q (set_keys past)) k)); [|exact Ht'].
        intros q Hq'. rewrite set_keys_app. apply in_or_app. cbn. destruct Hq' as [Hq'| ->]; auto.
      * intros k' Hb'. split; [|exact Ed]. rewrite Hl by exact Hk. destruct (streq_spec k' k) as [->|Hne]; [discriminate|].
        apply bound_snoc in Hb'. destruct Hb' as [(own' & d' & E')|[Hb' _]]; [congruence|]. now apply Hb.
    + unfold held. cbn [o_root o_dead]. rewrite Ed. exact Hp.
  - contradiction.
  - destruct (live s k); [|discriminate]. apply bind_ok in E. destruct E as (v & _ & E). inversion E; subst. split.
    + split; [exact Hw|]. split.
      * apply (tn_mono _ Hw (fun q => In q (set_keys past))); [|exact Ht].
        intros q Hq. rewrite set_keys_app. apply in_or_app. now left.
      * intros k' Hb'. apply bound_snoc in Hb'. destruct Hb' as [(own' & d' & E')|[Hb' _]]; [congruence|]. now apply Hb.
    + cbn. now rewrite app_nil_r.
  - destruct (live s k) eqn:El; [|discriminate]. apply bind_ok in E. destruct E as ([h' ev] & Er & E). inversion E; subst s' e; clear E.
    cbn [fst snd e_destroyed] in *. destruct (own_unset_full kd _ k h' ev true Ho Hw Er) as (Hw2 & Hp).
    pose proof (own_unset_tree kd Ho (length k) true (o_root s) k) as T. rewrite Er in T. cbn in T. symmetry in T.
    pose proof (unset_sub_spec (length k) (o_root s) k true Hw (le_n _)) as Hus. rewrite T in Hus.
    destruct Hus as (_ & _ & Hkeep & _ & _). split.
    + split; [exact Hw'|]. cbn [o_root o_dead]. split.
      * apply (tn_mono _ Hw2 (fun q => In q (set_keys past))).
        -- intros q Hq. rewrite set_keys_app. apply in_or_app. now left.
        -- exact (unset_sub_tn _ _ _ _ _ _ Hw Ht T).
      * intros k' Hb'. apply bound_snoc in Hb'. destruct Hb' as [(own' & d' & E')|(Hb' & Hn & _)]; [congruence|].
        rewrite Hkeep by (now apply Hn). now apply Hb.
    + unfold held. cbn [o_dead o_root app].
      destruct (o_dead s) eqn:Ed; [|exact Hp]. pose proof (live_dead _ _ El Ed) as ->. cbn in Er. inversion Er; subst. reflexivity.
  - unfold o_clear in E. destruct (o_dead s) eqn:Ed; [discriminate|].
    injection E as E1 E2. subst e. cbn [e_destroyed].
    assert (Hh : held s' = []).
    { rewrite <- E1. unfold held. destruct kd; [|reflexivity]. destruct (hitems (o_root s)); reflexivity. }
    split.
    + split; [exact Hw'|]. split.
      * rewrite <- E1.
        assert (Hmono : tn (fun q => In q (set_keys (past ++ [OClear]))) (o_root s)).
        { apply (tn_mono _ Hw (fun q => In q (set_keys past))); [|exact Ht].
          intros q Hq. rewrite set_keys_app. apply in_or_app. now left. }
        destruct kd; [|apply tn_empty]. destruct (hitems (o_root s)); [apply tn_empty|exact Hmono].
      * intros k' Hb'. apply bound_snoc in Hb'. destruct Hb' as [(own' & d' & E')|(_ & _ & Hn)]; congruence.
    + rewrite Hh, list_destroy_somes by exact Ho. unfold held. rewrite Ed. reflexivity.
Qed.

Lemma run_orderly kd ctor : owning kd -> forall os past s s' effs, Inv past s ->
  (forall l1 o l2, os = l1 ++ o :: l2 -> fine kd ctor (past ++ l1) o) ->
  o_run kd ctor s os = Ok (s', effs) ->
  Inv (past ++ os) s' /\ Permutation (held s' ++ destroyed effs) (given kd ctor os ++ held s).
Proof.
  intros Ho. induction os as [|o os IH]; intros past s s' effs HI Hf E; cbn [o_run] in E.
  - inversion E; subst. rewrite app_nil_r. split; [exact HI|]. cbn. now rewrite app_nil_r.
  - apply bind_ok in E. destruct E as ([s1 e] & E1 & E). apply bind_ok in E. destruct E as ([s2 es] & E2 & E).
    cbn [fst snd] in *. inversion E; subst s' effs; clear E.
    assert (Hf0 : fine kd ctor past o) by (specialize (Hf [] o os eq_refl); now rewrite app_nil_r in Hf).
    destruct (step_orderly kd ctor past s o s1 e Ho HI Hf0 E1) as (HI1 & Hp1).
    destruct (IH (past ++ [o]) s1 s2 es HI1) as (HI2 & Hp2).
    { intros l1 o' l2 ->. rewrite <- app_assoc. apply (Hf (o :: l1) o' l2). reflexivity. }
    { exact E2. }
    rewrite <- app_assoc in HI2. split; [exact HI2|].
    rewrite destroyed_cons. unfold given in *. cbn [flat_map]. rewrite <- !app_assoc.
    rewrite (Permutation_app_swap_app (given1 kd ctor o)), <- Hp1.
    rewrite (app_assoc _ (held s1)), <- Hp2, <- !app_assoc. apply Permutation_app_head. apply Permutation_app_comm.
Qed.

Lemma orderly_fine kd ctor os : orderly kd ctor os -> forall l1 o l2, os = l1 ++ o :: l2 -> fine kd ctor l1 o.
Proof.
  intros (H1 & H2 & H3) l1 o l2 ->. destruct o as [own k d|own k m d|own k|k|]; cbn; auto.
  - destruct (H2 own k d) as [Ha Hb]; [apply in_or_app; right; now left|]. split; [exact Ha|]. split; [exact Hb|].
    eapply H3. reflexivity.
  - apply (H1 own k m d). apply in_or_app. right. now left.
Qed.
Lemma Inv_create : Inv [] o_create.
Proof.
  split; [apply wff_empty|]. split; [apply tn_empty|]. intros k (l1 & own & d & l2 & E & _).
  destruct l1; discriminate.
Qed.

(** ** Statements *)
Lemma shows_held s k v : wfo s -> shows s k = Some v -> In v (held s).
Proof.
  intros Hw. unfold shows, held. destruct (o_dead s); [discriminate|].
  rewrite get_sub_look by auto. intros E. apply ents_look in E; [|exact Hw].
  apply (in_map snd) in E. exact E.
Qed.

Lemma history_safe kd ctor os s effs :
  owning kd -> o_run kd ctor o_create os = Ok (s, effs) ->
  exists ps lost, (forall k v, In (k, v) ps <-> shows s k = Some v) /\ NoDup (map fst ps) /\
    Permutation (map snd ps ++ destroyed effs ++ lost) (given kd ctor os).
Proof.
  intros Ho E. destruct (run_held kd ctor Ho os o_create s effs wff_empty E) as (Hw & lost & Hp).
  rewrite app_nil_r in Hp. unfold held in Hp.
  exists (if o_dead s then [] else ents (hitems (o_root s))), lost. split; [|split].
  - intros k v. unfold shows. destruct (o_dead s); [split; [easy|discriminate]|].
    rewrite get_sub_look by auto. apply ents_look. exact Hw.
  - destruct (o_dead s); [constructor|]. now apply ents_nodup.
  - destruct (o_dead s); exact Hp.
Qed.

Lemma destroy_held kd s ev : owning kd -> o_destroy kd s = Ok ev -> somes ev = held s.
Proof.
  intros Ho. unfold o_destroy, held. destruct (o_dead s); [discriminate|]. intros E. inversion E.
  now apply list_destroy_somes.
Qed.
Lemma history_complete kd ctor os s effs ev :
  owning kd -> orderly kd ctor os -> o_run kd ctor o_create os = Ok (s, effs) -> o_destroy kd s = Ok ev ->
  Permutation (destroyed effs ++ flat_map olist ev) (given kd ctor os).
Proof.
  intros Ho Hor E Ed.
  destruct (run_orderly kd ctor Ho os [] o_create s effs Inv_create (orderly_fine _ _ _ Hor) E) as (_ & Hp).
  rewrite app_nil_r in Hp. rewrite <- Hp. fold (somes ev). rewrite (destroy_held _ _ _ Ho Ed). apply Permutation_app_comm.
Qed.
End Facts.
