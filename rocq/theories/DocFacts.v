(** Facts about the document model: its parts and how the accessors, union,
    intersection and filter act on them. *)
From Verif Require Import CStr CStrFacts HSListModel HSListFacts SetModel SetFacts
  RTreeModel RTreeFacts RTreeFacts2 RTreeFacts3 RTreeFacts4 MRTreeModel MRTreeFacts MRTreeFacts2
  SpecA ObjModel ObjFacts ObjFacts2 SpecC DocModel.

(** ** Merging and intersecting lists of objects by id *)
Section Merge.
Context {A : Type} (idc : A -> A -> bool) (cp : A -> A) (un : A -> A -> res A).
Context {I : Type} (I_dec : forall a b : I, {a = b} + {a <> b}) (ident : A -> I).
Context (ok : A -> Prop) (same : A -> A -> Prop) (united : A -> A -> A -> Prop).
Hypothesis idc_iff : forall a b, idc a b = true <-> ident a = ident b.
Hypothesis cp_spec : forall a, ok a -> ok (cp a) /\ same (cp a) a /\ ident (cp a) = ident a.
Hypothesis un_spec : forall a b, ok a -> ok b -> ident a = ident b ->
  exists u, un a b = Ok u /\ ok u /\ united a b u /\ ident u = ident b.

Definition has (i : I) (x : A) : bool := if I_dec (ident x) i then true else false.
Lemma has_iff i x : has i x = true <-> ident x = i.
Proof. unfold has. destruct (I_dec (ident x) i); split; intros; congruence. Qed.
(** The objects with id [i]: the first document's first one and all of the
    second's, in order. *)
Definition sources (l1 l2 : list A) (i : I) : list A :=
  match find (has i) l1 with Some x => [x] | None => [] end ++ filter (has i) l2.
Inductive merged : list A -> A -> Prop :=
| M_one x g : same g x -> merged [x] g
| M_more l x g g' : merged l g -> united g x g' -> merged (l ++ [x]) g'.

Lemma sources_snoc l1 l2 x i :
  sources l1 (l2 ++ [x]) i = sources l1 l2 i ++ (if has i x then [x] else []).
Proof. unfold sources. rewrite filter_app. cbn. rewrite <- app_assoc. now destruct (has i x). Qed.

Lemma set_in_iff s x : set_in idc s x = true <-> In (ident x) (map ident (hitems s)).
Proof.
  unfold set_in. rewrite existsb_exists, in_map_iff. split.
  - intros (y & Hy & E). apply idc_iff in E. eauto.
  - intros (y & E & Hy). exists y. split; [exact Hy|]. now apply idc_iff.
Qed.
Lemma set_in_false s x : set_in idc s x = false <-> ~ In (ident x) (map ident (hitems s)).
Proof. rewrite <- set_in_iff. destruct (set_in idc s x); split; congruence. Qed.

Definition minv1 (l1 : list A) (s : hsl A) : Prop :=
  good s /\ NoDup (map ident (hitems s)) /\ Forall ok (hitems s) /\
  (forall i, In i (map ident (hitems s)) <-> In i (map ident l1)) /\
  (forall g, In g (hitems s) -> exists x, find (has (ident g)) l1 = Some x /\ same g x) /\
  (NoDup (map ident l1) -> map ident (hitems s) = map ident l1).

Lemma find_snoc (f : A -> bool) l x : find f (l ++ [x]) = match find f l with Some y => Some y | None => if f x then Some x else None end.
Proof. rewrite find_app. destruct (find f l); [reflexivity|]. cbn. now destruct (f x). Qed.
Lemma find_has_none i l : find (has i) l = None <-> ~ In i (map ident l).
Proof.
  split.
  - intros H Hin. apply in_map_iff in Hin. destruct Hin as (x & E & Hx). pose proof (find_none _ _ H x Hx) as F.
    apply has_iff in E. congruence.
  - intros H. destruct (find (has i) l) as [x|] eqn:E; [exfalso|reflexivity].
    apply find_some in E. destruct E as [Hx E]. apply has_iff in E. apply H. rewrite <- E. now apply in_map.
Qed.

Lemma NoDup_snoc {B} (l : list B) x : NoDup (l ++ [x]) <-> NoDup l /\ ~ In x l.
Proof.
  split.
  - intros H. apply NoDup_remove in H. rewrite app_nil_r in H. exact H.
  - intros [H1 H2]. induction l as [|y l IH]; cbn; [constructor; [intros []|constructor]|].
    inversion H1; subst. constructor.
    + intros H. apply in_app_or in H. destruct H as [H|[<-|[]]]; [contradiction|]. apply H2; now left.
    + apply IH; auto. intros H. apply H2; now right.
Qed.

Lemma first_stage l1 : Forall ok l1 -> exists s, set_add_all idc hs_empty (map cp l1) = Ok s /\ minv1 l1 s.
Proof.
  assert (H : forall rest past s, Forall ok rest -> minv1 past s ->
            exists s', set_add_all idc s (map cp rest) = Ok s' /\ minv1 (past ++ rest) s').
  { induction rest as [|x rest IH]; intros past s Hok Hinv; cbn [map set_add_all].
    - exists s. now rewrite app_nil_r.
    - inversion Hok as [|? ? Hx Hrest]; subst. destruct Hinv as (Hg & Hnd & Hf & Hin & Hs & Ho).
      destruct (cp_spec x Hx) as (Hcx & Hsx & Hix).
      replace (past ++ x :: rest) with ((past ++ [x]) ++ rest) by (rewrite <- app_assoc; reflexivity).
      unfold set_add. destruct (set_in idc s (cp x)) eqn:E.
      + cbn [bind fst]. apply set_in_iff in E. rewrite Hix in E. apply IH; [exact Hrest|].
        split; [exact Hg|]. split; [exact Hnd|]. split; [exact Hf|]. split; [|split].
        * intros i. rewrite Hin, map_app, in_app_iff. cbn. split; [tauto|]. intros [H|[<-|[]]]; [exact H|]. now apply Hin.
        * intros g Hgs. destruct (Hs g Hgs) as (y & Ey & Hy). exists y. rewrite find_snoc, Ey. auto.
        * intros H. exfalso. rewrite map_app in H. cbn in H. apply NoDup_snoc in H. apply (proj2 H). now apply Hin.
      + apply set_in_false in E. destruct (good_append s (cp x) Hg) as (s1 & -> & Hi & Hg1). cbn [bind fst].
        apply IH; [exact Hrest|]. rewrite Hix in E. assert (Ep : ~ In (ident x) (map ident past)) by now rewrite <- Hin.
        split; [exact Hg1|]. rewrite Hi, map_app. cbn. rewrite Hix. split; [|split; [|split; [|split]]].
        * apply NoDup_snoc. auto.
        * apply Forall_app. auto.
        * intros i. rewrite map_app, !in_app_iff, Hin. cbn. tauto.
        * intros g Hgs. apply in_app_or in Hgs. rewrite find_snoc. destruct Hgs as [Hgs|[<-|[]]].
          -- destruct (Hs g Hgs) as (y & Ey & Hy). exists y. now rewrite Ey.
          -- rewrite Hix. rewrite (proj2 (find_has_none _ _) Ep). exists x. split; [|exact Hsx].
             now rewrite (proj2 (has_iff (ident x) x) eq_refl).
        * intros H. rewrite map_app in H. cbn in H. apply NoDup_snoc in H. rewrite Ho by apply H. now rewrite map_app. }
  intros Hok. apply (H l1 [] hs_empty Hok).
  split; [apply good_empty|]. split; [constructor|]. split; [constructor|]. split; [cbn; tauto|].
  split; [intros g []|reflexivity].
Qed.

Definition not_in (l : list I) (i : I) : bool := if in_dec I_dec i l then false else true.
Lemma not_in_iff l i : not_in l i = true <-> ~ In i l.
Proof. unfold not_in. destruct (in_dec I_dec i l); split; intros; congruence. Qed.

Definition minv2 (l1 : list A) (ids0 : list I) (l2 : list A) (s : hsl A) : Prop :=
  good s /\ NoDup (map ident (hitems s)) /\ Forall ok (hitems s) /\
  (forall i, In i (map ident (hitems s)) <-> In i (map ident l1) \/ In i (map ident l2)) /\
  (forall g, In g (hitems s) -> merged (sources l1 l2 (ident g)) g) /\
  (NoDup (map ident l2) -> map ident (hitems s) = filter (not_in (map ident l2)) ids0 ++ map ident l2).

Lemma filter_notin_id l ids : (forall i, In i ids -> ~ In i l) -> filter (not_in l) ids = ids.
Proof.
  intros H. induction ids as [|i ids IH]; cbn; [reflexivity|].
  rewrite (proj2 (not_in_iff l i)) by (apply H; now left). f_equal. apply IH. intros; apply H; now right.
Qed.
Lemma filter_notin_snoc l i ids : filter (not_in (l ++ [i])) ids = filter (not_in [i]) (filter (not_in l) ids).
Proof.
  rewrite filter_filter. apply filter_ext. intros j.
  destruct (not_in (l ++ [i]) j) eqn:E.
  - apply not_in_iff in E. symmetry. apply andb_true_iff. rewrite !not_in_iff. split; intros H; apply E, in_or_app; cbn; tauto.
  - symmetry. apply andb_false_iff. destruct (not_in l j) eqn:E1; [right|now left].
    destruct (not_in [i] j) eqn:E2; [|reflexivity]. exfalso. apply not_in_iff in E1, E2.
    assert (not_in (l ++ [i]) j = true); [|congruence]. apply not_in_iff. rewrite in_app_iff. tauto.
Qed.

Lemma doc_merge_step l1 ids0 l2 s x : minv2 l1 ids0 l2 s -> ok x ->
  exists s', (if set_in idc s x then
        match set_data_at idc s x with
        | None => UB
        | Some y => u <- un y x ;; p <- set_add idc (fst (set_remove idc s x)) u ;; Ok (fst p)
        end
      else p <- set_add idc s (cp x) ;; Ok (fst p)) = Ok s' /\ minv2 l1 ids0 (l2 ++ [x]) s'.
Proof.
  intros (Hg & Hnd & Hf & Hin & Hm & Ho) Hx. destruct (set_in idc s x) eqn:E.
  - apply set_in_iff in E.
    unfold set_data_at, set_remove, set_at.
    assert (F : find (fun y => idc y x) (hitems s) <> None).
    { intros F. apply in_map_iff in E. destruct E as (y & Ey & Hy). pose proof (find_none _ _ F y Hy) as Fy. cbn in Fy.
      apply idc_iff in Ey. congruence. }
    pose proof (find_at_spec idc (hitems s) x 0) as Hfa.
    destruct (find_at idc (hitems s) x 0) as [j|] eqn:Ej.
    2:{ exfalso. apply F. destruct (find (fun y => idc y x) (hitems s)) as [z|] eqn:Ez; [|reflexivity].
        apply find_some in Ez. destruct Ez as [Hz Ez]. rewrite (Hfa z Hz) in Ez. discriminate. }
    destruct Hfa as (la & y & lb & El & -> & Hy & Hla). cbn [plus fst].
    assert (Ef : find (fun z => idc z x) (hitems s) = Some y).
    { rewrite El, find_app. destruct (find (fun z => idc z x) la) as [z|] eqn:Ez.
      - apply find_some in Ez. destruct Ez as [Hz Ez]. rewrite (Hla z Hz) in Ez. discriminate.
      - cbn. now rewrite Hy. }
    rewrite Ef. apply idc_iff in Hy.
    assert (Hys : In y (hitems s)) by (rewrite El; apply in_or_app; right; now left).
    rewrite Forall_forall in Hf.
    destruct (un_spec y x (Hf y Hys) Hx Hy) as (u & -> & Hu & Huu & Hui). cbn [bind].
    assert (Hnd' : NoDup (map ident (la ++ lb)) /\ ~ In (ident x) (map ident (la ++ lb))).
    { rewrite El, map_app in Hnd. cbn in Hnd. apply NoDup_remove in Hnd. rewrite map_app, <- Hy. exact Hnd. }
    destruct Hnd' as [Hnd1 Hnd2].
    assert (Hri : hitems (hs_remove s (length la)) = la ++ lb) by now apply hs_remove_items with (x := y).
    unfold set_add. rewrite (proj2 (set_in_false (hs_remove s (length la)) u)) by (rewrite Hri, Hui; exact Hnd2).
    destruct (good_append (hs_remove s (length la)) u (good_remove _ _ Hg)) as (s1 & -> & Hi1 & Hg1). cbn [bind fst].
    exists s1. split; [reflexivity|]. split; [exact Hg1|]. rewrite Hi1, Hri, map_app. cbn [map]. rewrite Hui.
    split; [apply NoDup_snoc; auto|]. split; [|split; [|split]].
    + apply Forall_app. split; [|repeat constructor; exact Hu]. apply Forall_forall. intros z Hz. apply Hf. rewrite El.
      apply in_app_or in Hz. apply in_or_app. destruct Hz; [now left|right; now right].
    + intros i. rewrite in_app_iff. cbn. rewrite map_app, in_app_iff. cbn. specialize (Hin i).
      rewrite El, map_app, in_app_iff in Hin. cbn in Hin. rewrite Hy in Hin. rewrite map_app, in_app_iff. tauto.
    + intros g Hgin. rewrite sources_snoc. apply in_app_or in Hgin. destruct Hgin as [Hgin|[<-|[]]].
      * assert (Hne : has (ident g) x = false).
        { destruct (has (ident g) x) eqn:Eh; [|reflexivity]. apply has_iff in Eh. exfalso. apply Hnd2. rewrite Eh. now apply in_map. }
        rewrite Hne, app_nil_r. apply Hm. rewrite El. apply in_app_or in Hgin. apply in_or_app. destruct Hgin; [now left|right; now right].
      * rewrite Hui, (proj2 (has_iff (ident x) x) eq_refl). apply M_more with y; [|exact Huu].
        rewrite <- Hy. now apply Hm.
    + rewrite map_app. cbn [map]. intros Hd. apply NoDup_snoc in Hd. destruct Hd as [Hd1 Hd2]. specialize (Ho Hd1).
      rewrite filter_notin_snoc. rewrite El, map_app in Ho. cbn [map] in Ho. rewrite Hy in Ho.
      assert (Hfx : filter (not_in [ident x]) (map ident la ++ ident x :: map ident lb)
                    = filter (not_in [ident x]) (filter (not_in (map ident l2)) ids0) ++ map ident l2).
      { rewrite Ho, filter_app. f_equal. apply filter_notin_id. intros i Hi2 [<-|[]]. contradiction. }
      rewrite filter_app in Hfx. cbn [filter] in Hfx.
      assert (Hnx : not_in [ident x] (ident x) = false).
      { destruct (not_in [ident x] (ident x)) eqn:Enx; [|reflexivity]. apply not_in_iff in Enx. exfalso. apply Enx. now left. }
      rewrite Hnx in Hfx. rewrite map_app in Hnd2.
      rewrite <- filter_app, filter_notin_id in Hfx.
      * rewrite map_app, Hfx, <- app_assoc. reflexivity.
      * intros i Hi [<-|[]]. contradiction.
  - pose proof (proj1 (set_in_false _ _) E) as En. destruct (cp_spec x Hx) as (Hcx & Hsx & Hix).
    unfold set_add. rewrite (proj2 (set_in_false s (cp x))) by now rewrite Hix.
    destruct (good_append s (cp x) Hg) as (s1 & -> & Hi1 & Hg1). cbn [bind fst].
    exists s1. split; [reflexivity|]. split; [exact Hg1|]. rewrite Hi1, map_app. cbn [map]. rewrite Hix.
    split; [apply NoDup_snoc; auto|]. split; [|split; [|split]].
    + apply Forall_app. auto.
    + intros i. rewrite map_app, !in_app_iff. cbn. rewrite Hin. tauto.
    + intros g Hgin. rewrite sources_snoc. apply in_app_or in Hgin. destruct Hgin as [Hgin|[<-|[]]].
      * assert (Hne : has (ident g) x = false).
        { destruct (has (ident g) x) eqn:Eh; [|reflexivity]. apply has_iff in Eh. exfalso. apply En. rewrite Eh. now apply in_map. }
        rewrite Hne, app_nil_r. now apply Hm.
      * rewrite Hix, (proj2 (has_iff (ident x) x) eq_refl). rewrite Hin in En. unfold sources.
        rewrite (proj2 (find_has_none (ident x) l1)) by tauto.
        assert (Hfe : filter (has (ident x)) l2 = []).
        { destruct (filter (has (ident x)) l2) as [|z r] eqn:Ef; [reflexivity|]. exfalso. apply En. right.
          assert (Hz : In z (filter (has (ident x)) l2)) by (rewrite Ef; now left).
          apply filter_In in Hz. destruct Hz as [Hz Ez]. apply has_iff in Ez. rewrite <- Ez. now apply in_map. }
        rewrite Hfe. cbn. now constructor.
    + rewrite map_app. cbn [map]. intros Hd. apply NoDup_snoc in Hd. destruct Hd as [Hd1 Hd2]. specialize (Ho Hd1).
      rewrite Ho, filter_notin_snoc, <- app_assoc. f_equal. symmetry. apply filter_notin_id.
      intros i Hi [<-|[]]. apply En. rewrite Ho. apply in_or_app. now left.
Qed.

Lemma doc_merge_spec l1 ids0 l2 : forall past s, minv2 l1 ids0 past s -> Forall ok l2 ->
  exists s', doc_merge idc cp un s l2 = Ok s' /\ minv2 l1 ids0 (past ++ l2) s'.
Proof.
  induction l2 as [|x l2 IH]; intros past s Hinv Hok; cbn [doc_merge].
  - exists s. now rewrite app_nil_r.
  - inversion Hok as [|? ? Hx Hrest]; subst. destruct (doc_merge_step l1 ids0 past s x Hinv Hx) as (s1 & E & Hinv1).
    destruct (IH (past ++ [x]) s1 Hinv1 Hrest) as (s2 & E2 & Hinv2). rewrite <- app_assoc in Hinv2. cbn in Hinv2.
    exists s2. split; [|exact Hinv2]. destruct (set_in idc s x).
    + destruct (set_data_at idc s x) as [y|]; [|discriminate].
      destruct (un y x) as [u| |]; try discriminate. cbn [bind] in *.
      destruct (set_add idc (fst (set_remove idc s x)) u) as [p| |]; try discriminate. cbn [bind] in *.
      inversion E; subst. exact E2.
    + destruct (set_add idc s (cp x)) as [p| |]; try discriminate. cbn [bind] in *. inversion E; subst. exact E2.
Qed.

Definition lists_merged (l1 l2 out : list A) : Prop :=
  NoDup (map ident out) /\
  (forall i, In i (map ident out) <-> In i (map ident l1) \/ In i (map ident l2)) /\
  (forall g, In g out -> merged (sources l1 l2 (ident g)) g) /\
  (NoDup (map ident l1) -> NoDup (map ident l2) ->
   map ident out = filter (not_in (map ident l2)) (map ident l1) ++ map ident l2).
Lemma merge_lists_spec l1 l2 : Forall ok l1 -> Forall ok l2 ->
  exists out, merge_lists idc cp un l1 l2 = Ok out /\ Forall ok out /\ lists_merged l1 l2 out.
Proof.
  intros H1 H2. unfold merge_lists. destruct (first_stage l1 H1) as (s & -> & (Hg & Hnd & Hf & Hin & Hs & Ho)). cbn [bind].
  assert (Hm : minv2 l1 (map ident (hitems s)) [] s).
  { split; [exact Hg|]. split; [exact Hnd|]. split; [exact Hf|]. split; [|split].
    - intros i. rewrite Hin. cbn. tauto.
    - intros g Hgs. destruct (Hs g Hgs) as (x & Ex & Hx). unfold sources. rewrite Ex. cbn. now constructor.
    - intros _. rewrite app_nil_r. symmetry. apply filter_notin_id. intros i _ []. }
  destruct (doc_merge_spec l1 (map ident (hitems s)) l2 [] s Hm H2) as (s' & -> & (Hg' & Hnd' & Hf' & Hin' & Hm' & Ho')).
  cbn [bind]. exists (hitems s'). split; [reflexivity|]. split; [exact Hf'|]. split; [exact Hnd'|]. split; [exact Hin'|].
  split; [exact Hm'|]. intros N1 N2. rewrite Ho' by exact N2. now rewrite Ho.
Qed.

(** With distinct ids on both sides. *)
Lemma find_unique i l x : NoDup (map ident l) -> In x l -> ident x = i -> find (has i) l = Some x.
Proof.
  induction l as [|y l IH]; intros Hd Hx E; [contradiction|]. cbn. cbn in Hd. inversion Hd as [|? ? Hn Hd']; subst.
  destruct (has (ident x) y) eqn:Eh.
  - apply has_iff in Eh. destruct Hx as [->|Hx]; [reflexivity|]. exfalso. apply Hn. rewrite Eh. now apply in_map.
  - destruct Hx as [->|Hx]; [|now apply IH]. rewrite (proj2 (has_iff (ident x) x) eq_refl) in Eh. discriminate.
Qed.
Lemma filter_unique i l x : NoDup (map ident l) -> In x l -> ident x = i -> filter (has i) l = [x].
Proof.
  induction l as [|y l IH]; intros Hd Hx E; [contradiction|]. cbn. cbn in Hd. inversion Hd as [|? ? Hn Hd']; subst.
  destruct (has (ident x) y) eqn:Eh.
  - apply has_iff in Eh. destruct Hx as [->|Hx].
    + f_equal. destruct (filter (has (ident x)) l) as [|z r] eqn:Ef; [reflexivity|]. exfalso. apply Hn.
      assert (Hz : In z (filter (has (ident x)) l)) by (rewrite Ef; now left). apply filter_In in Hz. destruct Hz as [Hz Ez].
      apply has_iff in Ez. rewrite <- Ez. now apply in_map.
    + exfalso. apply Hn. rewrite Eh. now apply in_map.
  - destruct Hx as [->|Hx]; [|now apply IH]. rewrite (proj2 (has_iff (ident x) x) eq_refl) in Eh. discriminate.
Qed.
Lemma filter_absent i l : ~ In i (map ident l) -> filter (has i) l = [].
Proof.
  intros H. destruct (filter (has i) l) as [|z r] eqn:Ef; [reflexivity|]. exfalso. apply H.
  assert (Hz : In z (filter (has i) l)) by (rewrite Ef; now left). apply filter_In in Hz. destruct Hz as [Hz Ez].
  apply has_iff in Ez. rewrite <- Ez. now apply in_map.
Qed.
Hypothesis united_same : forall a a' b g, same a a' -> united a b g -> united a' b g.
Definition lists_united (l1 l2 out : list A) : Prop :=
  map ident out = filter (not_in (map ident l2)) (map ident l1) ++ map ident l2 /\
  (forall g x1 x2, In g out -> In x1 l1 -> In x2 l2 -> ident x1 = ident g -> ident x2 = ident g -> united x1 x2 g) /\
  (forall g x1, In g out -> In x1 l1 -> ident x1 = ident g -> ~ In (ident g) (map ident l2) -> same g x1) /\
  (forall g x2, In g out -> In x2 l2 -> ident x2 = ident g -> ~ In (ident g) (map ident l1) -> same g x2).
Lemma merged_inv l g : merged l g ->
  (exists x, l = [x] /\ same g x) \/ (exists l' x m, l = l' ++ [x] /\ merged l' m /\ united m x g).
Proof. intros H. inversion H; subst; [left; eauto|right; eauto 10]. Qed.
Lemma merged_nil g : ~ merged [] g.
Proof. intros H. apply merged_inv in H. destruct H as [(x & E & _)|(l' & x & m & E & _)]; [discriminate|]. now destruct l'. Qed.
Lemma merged_one x g : merged [x] g -> same g x.
Proof.
  intros H. apply merged_inv in H. destruct H as [(y & E & H)|(l' & y & m & E & H & _)]; [inversion E; now subst|].
  destruct l' as [|? [|? ?]]; cbn in E; try discriminate. now apply merged_nil in H.
Qed.
Lemma merged_two x y g : merged [x; y] g -> united x y g.
Proof.
  intros H. apply merged_inv in H. destruct H as [(z & E & H)|(l' & z & m & E & H & Hu)]; [discriminate|].
  destruct l' as [|a [|b [|? ?]]]; cbn in E; try discriminate. inversion E; subst.
  apply merged_one in H. now apply united_same with m.
Qed.
Lemma lists_merged_united l1 l2 out : NoDup (map ident l1) -> NoDup (map ident l2) ->
  lists_merged l1 l2 out -> lists_united l1 l2 out.
Proof.
  intros N1 N2 (Hd & Hin & Hm & Ho). split; [now apply Ho|]. split; [|split].
  - intros g x1 x2 Hg H1 H2 E1 E2. specialize (Hm g Hg). unfold sources in Hm.
    rewrite (find_unique _ _ _ N1 H1 E1), (filter_unique _ _ _ N2 H2 E2) in Hm. now apply merged_two.
  - intros g x1 Hg H1 E1 Hn. specialize (Hm g Hg). unfold sources in Hm.
    rewrite (find_unique _ _ _ N1 H1 E1), (filter_absent _ _ Hn) in Hm. now apply merged_one.
  - intros g x2 Hg H2 E2 Hn. specialize (Hm g Hg). unfold sources in Hm.
    rewrite (proj2 (find_has_none _ _) Hn), (filter_unique _ _ _ N2 H2 E2) in Hm. now apply merged_one.
Qed.
End Merge.

Section Common.
Context {A : Type} (idc : A -> A -> bool) (it : A -> A -> res A).
Context {I : Type} (I_dec : forall a b : I, {a = b} + {a <> b}) (ident : A -> I).
Context (ok : A -> Prop) (inter : A -> A -> A -> Prop).
Hypothesis idc_iff : forall a b, idc a b = true <-> ident a = ident b.
Hypothesis it_spec : forall a b, ok a -> ok b -> ident a = ident b -> exists u, it a b = Ok u /\ ok u /\ inter a b u.

Definition in_ids (l : list A) (x : A) : bool := if in_dec I_dec (ident x) (map ident l) then true else false.
Definition lists_common (l1 l2 out : list A) : Prop :=
  Forall2 (fun x u => exists y, find (has I_dec ident (ident x)) l1 = Some y /\ inter x y u) (filter (in_ids l1) l2) out.

Lemma plain_stage l1 : exists s, set_add_all idc hs_empty l1 = Ok s /\
  forall i, find (has I_dec ident i) (hitems s) = find (has I_dec ident i) l1.
Proof.
  assert (H : forall rest past s, good s ->
     (forall i, find (has I_dec ident i) (hitems s) = find (has I_dec ident i) past) ->
     exists s', set_add_all idc s rest = Ok s' /\ forall i, find (has I_dec ident i) (hitems s') = find (has I_dec ident i) (past ++ rest)).
  { induction rest as [|x rest IH]; intros past s Hg Hf; cbn [set_add_all].
    - exists s. now rewrite app_nil_r.
    - replace (past ++ x :: rest) with ((past ++ [x]) ++ rest) by (rewrite <- app_assoc; reflexivity).
      unfold set_add. destruct (set_in idc s x) eqn:E.
      + cbn [bind fst]. apply IH; [exact Hg|]. intros i. rewrite find_snoc, <- Hf.
        destruct (find (has I_dec ident i) (hitems s)) as [y|] eqn:Ey; [reflexivity|].
        destruct (has I_dec ident i x) eqn:Eh; [exfalso|reflexivity]. apply has_iff in Eh.
        apply find_has_none in Ey. apply Ey. rewrite <- Eh. now apply (set_in_iff idc ident idc_iff).
      + destruct (good_append s x Hg) as (s1 & -> & Hi & Hg1). cbn [bind fst]. apply IH; [exact Hg1|].
        intros i. rewrite Hi, !find_snoc, Hf. reflexivity. }
  apply (H l1 [] hs_empty good_empty). reflexivity.
Qed.
Lemma common_lists_spec l1 l2 : Forall ok l1 -> Forall ok l2 ->
  exists out, common_lists idc it l1 l2 = Ok out /\ Forall ok out /\ lists_common l1 l2 out.
Proof.
  intros H1 H2. unfold common_lists. destruct (plain_stage l1) as (s & -> & Hs). cbn [bind].
  unfold lists_common. rewrite Forall_forall in H1. induction H2 as [|x l2 Hx Hrest IH]; cbn [doc_common].
  - exists []. repeat constructor.
  - destruct IH as (out & IHe & IHok & IHf).
    assert (Ei : set_in idc s x = in_ids l1 x).
    { destruct (set_in idc s x) eqn:E.
      - apply (set_in_iff idc ident idc_iff) in E. unfold in_ids. destruct (in_dec I_dec (ident x) (map ident l1)) as [H|H]; [reflexivity|].
        exfalso. apply (find_has_none I_dec ident) in H. rewrite <- Hs in H. now apply find_has_none in H.
      - apply (set_in_false idc ident idc_iff) in E. unfold in_ids. destruct (in_dec I_dec (ident x) (map ident l1)) as [H|H]; [|reflexivity].
        exfalso. apply (find_has_none I_dec ident) in E. rewrite Hs in E. now apply find_has_none in E. }
    rewrite Ei. cbn [filter]. destruct (in_ids l1 x) eqn:E; [|eauto].
    assert (Ed : set_data_at idc s x = find (has I_dec ident (ident x)) l1).
    { rewrite <- Hs. unfold set_data_at. assert (Hb : forall y, idc y x = has I_dec ident (ident x) y).
      { intros y. destruct (has I_dec ident (ident x) y) eqn:Eh.
        - apply has_iff in Eh. now apply idc_iff.
        - destruct (idc y x) eqn:Ey; [|reflexivity]. apply idc_iff in Ey. apply (has_iff I_dec ident) in Ey. congruence. }
      clear -Hb. induction (hitems s) as [|z l IHl]; cbn; [reflexivity|]. rewrite Hb, IHl. reflexivity. }
    rewrite Ed. destruct (find (has I_dec ident (ident x)) l1) as [y|] eqn:Ey.
    + pose proof (find_some _ _ Ey) as [Hy Eh]. apply has_iff in Eh.
      destruct (it_spec x y Hx (H1 y Hy) (eq_sym Eh)) as (u & -> & Hu & Hi). cbn [bind]. rewrite IHe. cbn [bind].
      exists (u :: out). split; [reflexivity|]. split; [now constructor|]. constructor; [|exact IHf]. eauto.
    + exfalso. apply find_has_none in Ey. unfold in_ids in E. destruct (in_dec I_dec (ident x) (map ident l1)); [contradiction|discriminate].
Qed.
End Common.
