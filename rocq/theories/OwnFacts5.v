(** Single calls: set, set with a length, clear, dictionaries without destructor. *)
From Coq Require Import Permutation.
From Verif Require Import CStr CStrFacts HSListModel HSListFacts RTreeModel RTreeFacts RTreeFacts2 RTreeFacts3 RTreeFacts4
  OwnModel OwnFacts OwnFacts2 OwnFacts3.

Section Facts.
Context {V : Type}.
Notation node := (node V).
Implicit Types (h : hsl node) (k : str) (d : option V) (kd : kind) (s : odict V).

Lemma set_exact kd ctor s own k d s' e :
  o_step kd ctor s (OSet own k d) = Ok (s', e) -> o_dead s = false ->
  flat_map olist (e_destroyed e) = olist (shows s k).
Proof.
  cbn [o_step]. unfold o_set. destruct (_ && _); [|discriminate]. intros E Hd. apply bind_ok in E.
  destruct E as ([h' ev] & Er & E). inversion E; subst s' e; clear E. cbn [e_destroyed fst snd].
  destruct (own_set_events _ _ _ _ _ _ _ Er) as (v & Ev & Hv). unfold shows. rewrite Hd, Ev. exact Hv.
Qed.

Lemma set_n_exact kd ctor s own k m d : wfo s -> m <= length k ->
  exists k', (k' = k \/ k' = firstn m k) /\ o_step kd ctor s (OSetN own k m d) = o_step kd ctor s (OSet own k' d).
Proof.
  intros Hw Hm. cbn [o_step]. unfold o_set. rewrite (proj2 (Nat.leb_le _ _) Hm). cbn [andb].
  destruct m as [|m].
  { exists []. split; [now right|]. reflexivity. }
  destruct (live s (firstn (S m) k)) eqn:Hl.
  - destruct (own_set_n kd (S m) (o_root s) k (S m) (match kd with Objects => d | Plain _ => ctor d end) Hw)
      as (k' & Hk & E); [lia|exact Hm|lia|].
    exists k'. split; [exact Hk|]. rewrite E, Nat.leb_refl, firstn_all. cbn [andb].
    assert (Hl' : live s k' = true).
    { unfold live in *. destruct k' as [|c k']; [reflexivity|]. destruct k as [|c0 k]; [cbn in Hm; lia|]. exact Hl. }
    now rewrite Hl'.
  - exists k. split; [now left|]. rewrite Nat.leb_refl, firstn_all. cbn [andb].
    assert (Hl' : live s k = false).
    { unfold live in *. destruct k as [|c0 k]; [cbn in Hm; lia|]. exact Hl. }
    now rewrite Hl'.
Qed.

(** ** Keeping well-formed *)
Lemma run_wfo kd ctor : owning kd -> forall os s s' effs, wfo s -> o_run kd ctor s os = Ok (s', effs) -> wfo s'.
Proof. intros Ho os s s' effs Hw E. exact (proj1 (run_held kd ctor Ho os s s' effs Hw E)). Qed.

(** ** clear *)
Lemma clear_plain dtor ctor s s' e : o_step (Plain dtor) ctor s OClear = Ok (s', e) -> hitems (o_root s) <> [] ->
  (forall o, match o with
             | OSet _ k _ | OGet _ k | OUnset k => k <> []
             | OSetN _ _ m _ => m <> 0
             | OClear => True
             end -> o_step (Plain dtor) ctor s' o = UB) /\
  o_destroy (Plain dtor) s' = UB.
Proof.
  cbn [o_step]. unfold o_clear. destruct (o_dead s); [discriminate|]. intros E Hne.
  destruct (hitems (o_root s)) as [|n l]; [congruence|]. inversion E; subst s' e; clear E. split; [|reflexivity].
  intros [own k d|own k m d|own k|k|] Ho; cbn [o_step]; unfold o_set, live; cbn [o_dead negb]; try reflexivity.
  - rewrite firstn_all. destruct k; [congruence|]. now rewrite andb_false_r.
  - destruct m; [congruence|]. destruct k; [reflexivity|]. cbn [firstn]. now rewrite andb_false_r.
  - destruct k; [congruence|reflexivity].
  - destruct k; [congruence|reflexivity].
Qed.
(** An empty tree shows nothing, a well-formed tree with nodes was set. *)
Lemma shows_items s k v : shows s k = Some v -> hitems (o_root s) <> [].
Proof.
  unfold shows. destruct (o_dead s); [discriminate|]. intros E H.
  destruct k as [|c k]; [discriminate|]. cbn [length get_sub] in E. rewrite H in E. discriminate.
Qed.
Lemma clear_objects ctor s s' e : wfo s -> o_step Objects ctor s OClear = Ok (s', e) ->
  s' = o_create /\
  exists ps, (forall k v, In (k, v) ps <-> shows s k = Some v) /\ NoDup (map fst ps) /\
    flat_map olist (e_destroyed e) = map snd ps.
Proof.
  intros Hw. cbn [o_step]. unfold o_clear. destruct (o_dead s) eqn:Hd; [discriminate|]. intros E. inversion E; subst s' e; clear E.
  split; [reflexivity|]. exists (ents (hitems (o_root s))). cbn [e_destroyed]. split; [|split].
  - intros k v. unfold shows. rewrite Hd, get_sub_look by auto. now apply ents_look.
  - now apply ents_nodup.
  - fold (somes (list_destroy Objects (o_root s))). rewrite list_destroy_somes by discriminate. reflexivity.
Qed.

(** ** No destructor *)
Lemma node_destroy_none : forall n : node, node_destroy (Plain false) n = [].
Proof.
  apply node_ind'. intros k d l t H. cbn [node_destroy dispose]. cbn [app].
  induction H as [|n l Hn Hl IH]; [reflexivity|]. cbn [flat_map]. now rewrite Hn, IH.
Qed.
Lemma list_destroy_none h : list_destroy (Plain false) h = [].
Proof. unfold list_destroy. induction (hitems h) as [|n l IH]; [reflexivity|]. cbn [flat_map]. now rewrite node_destroy_none, IH. Qed.
Lemma own_set_none : forall fuel h k m d h' ev, own_set (Plain false) fuel h k m d = Ok (h', ev) -> ev = [].
Proof.
  induction fuel as [|fuel IH]; intros h k m d h' ev E; destruct m as [|m]; destruct k as [|c k]; cbn [own_set] in E; try discriminate;
    try (inversion E; reflexivity).
  destruct (find_child c (hitems h) 0 None) as [i n|lz]; [|inversion E; reflexivity].
  destruct (scan 1 (firstn m k) (tl (nkey n))) as [| |x|x]; try (cbn in E; discriminate); try (inversion E; reflexivity).
  - apply bind_ok in E. destruct E as (h1 & _ & E). now inversion E.
  - apply bind_ok in E. destruct E as ([h1 e1] & E1 & E). inversion E; subst. cbn [snd]. eapply IH. exact E1.
  - apply bind_ok in E. destruct E as (h1 & _ & E). now inversion E.
Qed.
Lemma own_unset_none : forall fuel isroot h k h' ev, own_unset (Plain false) fuel isroot h k = Ok (h', ev) -> ev = [].
Proof.
  induction fuel as [|fuel IH]; intros isroot h k h' ev E; destruct k as [|c k]; cbn [own_unset] in E; try discriminate;
    try (inversion E; reflexivity).
  destruct (find_child c (hitems h) 0 None) as [i n|lz]; [|inversion E; reflexivity].
  destruct (scan 1 k (tl (nkey n))) as [| |x|x]; try (inversion E; reflexivity).
  - apply bind_ok in E. destruct E as ([h1 e1] & E1 & E).
    assert (e1 = []).
    { destruct (htail (nsubs n)); try (cbn in E1; discriminate). inversion E1. apply node_destroy_none. }
    subst e1. destruct isroot; [now inversion E|]. cbn [fst] in E. destruct (htail h1); try discriminate; now inversion E.
  - apply bind_ok in E. destruct E as ([h1 e1] & E1 & E). inversion E; subst. cbn [snd]. eapply IH. exact E1.
Qed.
Lemma run_none ctor : forall os s s' effs, o_run (Plain false) ctor s os = Ok (s', effs) -> destroyed effs = [].
Proof.
  induction os as [|o os IH]; intros s s' effs E; cbn [o_run] in E; [now inversion E|].
  apply bind_ok in E. destruct E as ([s1 e1] & E1 & E). apply bind_ok in E. destruct E as ([s2 e2] & E2 & E).
  inversion E; subst. cbn [snd fst] in *. rewrite destroyed_cons, (IH _ _ _ E2), app_nil_r.
  destruct o as [own k d|own k m d|own k|k|]; cbn [o_step] in E1; unfold o_set, o_clear in E1.
  - destruct (_ && _); [|discriminate]. apply bind_ok in E1. destruct E1 as ([h' ev] & Er & E1). inversion E1; subst.
    cbn. now rewrite (own_set_none _ _ _ _ _ _ _ Er).
  - destruct (_ && _); [|discriminate]. apply bind_ok in E1. destruct E1 as ([h' ev] & Er & E1). inversion E1; subst.
    cbn. now rewrite (own_set_none _ _ _ _ _ _ _ Er).
  - destruct (live s k); [|discriminate]. apply bind_ok in E1. destruct E1 as (v & _ & E1). inversion E1; subst. reflexivity.
  - destruct (live s k); [|discriminate]. apply bind_ok in E1. destruct E1 as ([h' ev] & Er & E1). inversion E1; subst.
    cbn. now rewrite (own_unset_none _ _ _ _ _ _ Er).
  - destruct (o_dead s); [discriminate|]. inversion E1; subst. cbn [e_destroyed]. now rewrite list_destroy_none.
Qed.
Lemma null_dtor_set ctor s own k d v : shows s k = Some v -> o_step (Plain false) ctor s (OSet own k d) = UB
  \/ o_step (Plain false) ctor s (OSet own k d) = NoFuel.
Proof.
  intros Hs. destruct (o_step (Plain false) ctor s (OSet own k d)) as [[s' e]| |] eqn:E; auto. exfalso.
  assert (Hd : o_dead s = false) by (unfold shows in Hs; now destruct (o_dead s)).
  pose proof (set_exact _ _ _ _ _ _ _ _ E Hd) as H. rewrite Hs in H.
  assert (Hr : o_run (Plain false) ctor s [OSet own k d] = Ok (s', [e])) by (cbn [o_run]; rewrite E; reflexivity).
  apply run_none in Hr. rewrite destroyed_cons in Hr. unfold somes in Hr. rewrite H in Hr. discriminate.
Qed.
Lemma own_set_fueled kd : forall fuel h k m d, m <= fuel -> own_set kd fuel h k m d <> NoFuel.
Proof.
  induction fuel as [|fuel IH]; intros h k m d Hm; destruct m as [|m]; [discriminate|lia|discriminate|].
  destruct k as [|c k]; [discriminate|]. cbn [own_set].
  destruct (find_child c (hitems h) 0 None) as [i n|lz]; [|discriminate].
  destruct (scan 1 (firstn m k) (tl (nkey n))) as [| |x|x] eqn:Es; try discriminate.
  - unfold release. destruct kd as [[]|]; cbn; discriminate.
  - unfold hs_append. destruct (htail _); cbn; discriminate.
  - intros E. specialize (IH (nsubs n) (skipn x (c :: k)) (S m - x) d).
    destruct (own_set kd fuel (nsubs n) (skipn x (c :: k)) (S m - x) d); cbn in E; try discriminate.
    apply IH; [|reflexivity]. pose proof (scan_spec 1 (firstn m k) (tl (nkey n))) as Hs. rewrite Es in Hs. destruct Hs as (-> & _). lia.
  - destruct (strcmp (skipn x (c :: k)) (skipn x (nkey n))); cbn; discriminate.
Qed.
Lemma null_dtor_set_ub ctor s own k d v : shows s k = Some v -> o_step (Plain false) ctor s (OSet own k d) = UB.
Proof.
  intros Hs. destruct (null_dtor_set ctor s own k d v Hs) as [H|H]; [exact H|]. exfalso. cbn [o_step] in H. unfold o_set in H.
  destruct (_ && _); [|discriminate].
  pose proof (own_set_fueled (Plain false) (length k) (o_root s) k (length k) (ctor d) (le_n _)) as Hn.
  destruct (own_set (Plain false) (length k) (o_root s) k (length k) (ctor d)); cbn in H; congruence.
Qed.

Lemma has_data_path l q (m : node) v : at_path l q m -> ndata m = Some v -> existsb has_data l = true.
Proof.
  intros H. revert v. induction H as [l n Hn|l n q m Hn Hq IH]; intros v Hv; apply existsb_exists; exists n; (split; [exact Hn|]).
  - destruct n as [k d [l0 t]]. cbn in *. now rewrite Hv.
  - specialize (IH v Hv). destruct n as [k d [l0 t]]. cbn in *. destruct d; [reflexivity|exact IH].
Qed.
Lemma union_null dtor ctor cl1 s1 s k v : wfo s -> shows s k = Some v -> p_union dtor ctor cl1 None s1 s = UB.
Proof.
  intros Hw. unfold shows, p_union, p_clone. destruct (o_dead s); [discriminate|]. rewrite get_sub_look by auto.
  intros E. destruct (look_at_path _ _ _ Hw E) as (m & Hm & Hd). now rewrite (has_data_path _ _ _ _ Hm Hd).
Qed.
End Facts.
