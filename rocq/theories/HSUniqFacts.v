(** Facts about comps_hslist_unique. *)
From Coq Require Import Permutation.
From Verif Require Import CStr CStrFacts HSListModel HSListFacts HSUniqModel.

Section Spec.
Context (eqf : nat -> nat -> bool).

(** Says nothing of the code: [firsts before l] are the elements of [l] equal
    to none of all the elements in front of them, kept or not; [repeats] are the
    others. *)
Fixpoint firsts (before l : list nat) : list nat :=
  match l with
  | [] => []
  | x :: r => if existsb (fun y => eqf y x) before then firsts (before ++ [x]) r
              else x :: firsts (before ++ [x]) r
  end.
Fixpoint repeats (before l : list nat) : list nat :=
  match l with
  | [] => []
  | x :: r => if existsb (fun y => eqf y x) before then x :: repeats (before ++ [x]) r
              else repeats (before ++ [x]) r
  end.

(** No element of the list equals an earlier one. *)
Definition apart (l : list nat) : Prop := ForallOrdPairs (fun y x => eqf y x = false) l.

Lemma existsb_f {A} (f : A -> bool) l : (forall y, In y l -> f y = false) -> existsb f l = false.
Proof.
  intros H. destruct (existsb f l) eqn:E; [|reflexivity].
  apply existsb_exists in E as (y & Hy & Hf). rewrite (H y Hy) in Hf. discriminate.
Qed.
Lemma existsb_no {A} (f : A -> bool) l y : existsb f l = false -> In y l -> f y = false.
Proof.
  intros H Hy. destruct (f y) eqn:E; [|reflexivity].
  rewrite (proj2 (existsb_exists f l)) in H; [discriminate|eauto].
Qed.

Lemma dead_f ds x : ~ In x ds -> dead ds x = false.
Proof.
  intros H. apply existsb_f. intros y Hy. apply Nat.eqb_neq. intros ->. contradiction.
Qed.

Lemma uq_in_live ds x : forall kept,
  (forall y, In y kept -> ~ In y ds) -> ~ In x ds ->
  uq_in eqf ds kept x = Ok (existsb (fun y => eqf y x) kept).
Proof.
  induction kept as [|y r IH]; intros Hk Hx; [reflexivity|]. cbn [uq_in existsb].
  rewrite (dead_f ds y) by (apply Hk; left; reflexivity). rewrite (dead_f ds x Hx). cbn [orb].
  destruct (eqf y x); [reflexivity|]. cbn [orb]. apply IH; [|exact Hx].
  intros z Hz. apply Hk. right; exact Hz.
Qed.

Lemma perm_split : forall l before, Permutation (firsts before l ++ repeats before l) l.
Proof.
  induction l as [|x r IH]; intros before; [constructor|]. cbn [firsts repeats].
  destruct (existsb (fun y => eqf y x) before).
  - rewrite <- Permutation_middle. constructor. apply IH.
  - cbn [app]. constructor. apply IH.
Qed.

Hypothesis tr : forall x y z, eqf x y = true -> eqf y z = true -> eqf x z = true.

(** [kept] stands for [before]: both contain an element equal to [x] or neither. *)
Definition stands (kept before : list nat) : Prop :=
  (forall y, In y kept -> In y before) /\
  (forall y, In y before -> In y kept \/ exists k, In k kept /\ eqf k y = true).

Lemma stands_ex kept before x : stands kept before ->
  existsb (fun y => eqf y x) kept = existsb (fun y => eqf y x) before.
Proof.
  intros [H1 H2]. destruct (existsb (fun y => eqf y x) before) eqn:E.
  - apply existsb_exists in E as (y & Hy & He). apply existsb_exists.
    destruct (H2 y Hy) as [Hk|(k & Hk & Hky)]; [eauto|]. exists k. split; [exact Hk|]. eapply tr; eauto.
  - apply existsb_f. intros y Hy. exact (existsb_no _ _ _ E (H1 y Hy)).
Qed.

Lemma loop_ok : forall l c it2 s ds cells before,
  good s -> stands (hitems s) before -> NoDup (before ++ l) ->
  (forall y, In y (hitems s) -> ~ In y ds) -> (forall y, In y ds -> In y before) ->
  exists s', uq_loop eqf true c it2 l s ds cells =
      Ok (s', ds ++ repeats before l, uq_free cells it2 ++ seq c (length l)) /\
    hitems s' = hitems s ++ firsts before l /\ good s'.
Proof.
  induction l as [|x r IH]; intros c it2 s ds cells before Hg Hs Hn Hd Hb.
  - cbn. exists s. rewrite !app_nil_r. auto.
  - assert (Hx : ~ In x before).
    { intros Hi. apply NoDup_remove_2 in Hn. apply Hn, in_or_app. left; exact Hi. }
    assert (Hxd : ~ In x ds) by (intros Hi; apply Hx, Hb, Hi).
    assert (Hn' : NoDup ((before ++ [x]) ++ r)) by (rewrite <- app_assoc; exact Hn).
    cbn [uq_loop]. rewrite (uq_in_live ds x (hitems s) Hd Hxd). cbn [bind].
    pose proof (stands_ex (hitems s) before x Hs) as He. cbn [firsts repeats length seq].
    destruct (existsb (fun y => eqf y x) (hitems s)) eqn:E.
    + rewrite <- He. unfold uq_destroy. rewrite (dead_f ds x Hxd). cbn [bind].
      destruct (IH (S c) (Some c) s (ds ++ [x]) (uq_free cells it2) (before ++ [x])) as (s' & Hr & Hi & Hg').
      * exact Hg.
      * destruct Hs as [H1 H2]. split.
        -- intros y Hy. apply in_or_app. left. apply H1, Hy.
        -- intros y Hy. apply in_app_or in Hy as [Hy|[<-|[]]]; [apply H2, Hy|].
           right. apply existsb_exists in E as (k & Hk & Hf). eauto.
      * exact Hn'.
      * intros y Hy Hi. apply in_app_or in Hi as [Hi|[<-|[]]]; [exact (Hd y Hy Hi)|].
        apply Hx. destruct Hs as [H1 _]. apply H1, Hy.
      * intros y Hy. apply in_app_or in Hy as [Hy|[<-|[]]]; apply in_or_app; [left; apply Hb, Hy|right; left; reflexivity].
      * exists s'. split; [|split; [exact Hi|exact Hg']]. rewrite Hr. cbn [uq_free]. now rewrite <- !app_assoc.
    + rewrite <- He. unfold uq_add. rewrite (uq_in_live ds x (hitems s) Hd Hxd). cbn [bind]. rewrite E.
      destruct (good_append s x Hg) as (s1 & Ha & Hi1 & Hg1). rewrite Ha. cbn [bind].
      destruct (IH (S c) (Some c) s1 ds (uq_free cells it2) (before ++ [x])) as (s' & Hr & Hi & Hg').
      * exact Hg1.
      * destruct Hs as [H1 H2]. rewrite Hi1. split.
        -- intros y Hy. apply in_or_app. apply in_app_or in Hy as [Hy|Hy]; [left; apply H1, Hy|right; exact Hy].
        -- intros y Hy. apply in_app_or in Hy as [Hy|Hy].
           ++ destruct (H2 y Hy) as [Hk|(k & Hk & Hf)]; [left; apply in_or_app; left; exact Hk|].
              right. exists k. split; [apply in_or_app; left; exact Hk|exact Hf].
           ++ left. apply in_or_app. right; exact Hy.
      * exact Hn'.
      * intros y Hy. rewrite Hi1 in Hy. apply in_app_or in Hy as [Hy|[<-|[]]]; [apply Hd, Hy|exact Hxd].
      * intros y Hy. apply in_or_app. left. apply Hb, Hy.
      * exists s'. split; [|split; [|exact Hg']].
        -- rewrite Hr. cbn [uq_free]. now rewrite <- !app_assoc.
        -- rewrite Hi, Hi1, <- app_assoc. reflexivity.
Qed.

Lemma firsts_new : forall l before y, In y (firsts before l) -> existsb (fun z => eqf z y) before = false.
Proof.
  induction l as [|x r IH]; intros before y; cbn [firsts]; [intros []|].
  assert (Hw : existsb (fun z => eqf z y) (before ++ [x]) = false -> existsb (fun z => eqf z y) before = false).
  { rewrite existsb_app. intros H. apply orb_false_iff in H as [H _]. exact H. }
  destruct (existsb (fun z => eqf z x) before) eqn:E.
  - intros H. apply Hw, (IH _ _ H).
  - intros [<-|H]; [exact E|]. apply Hw, (IH _ _ H).
Qed.
Lemma firsts_apart : forall l before, apart (firsts before l).
Proof.
  induction l as [|x r IH]; intros before; cbn [firsts]; [constructor|].
  destruct (existsb (fun z => eqf z x) before); [apply IH|]. constructor; [|apply IH].
  apply Forall_forall. intros y Hy. pose proof (firsts_new _ _ _ Hy) as H.
  apply (existsb_no _ _ x H). apply in_or_app. right; left; reflexivity.
Qed.
Lemma repeats_old : forall l before y, In y (repeats before l) ->
  exists k, (In k before \/ In k (firsts before l)) /\ eqf k y = true.
Proof.
  induction l as [|x r IH]; intros before y; cbn [firsts repeats]; [intros []|].
  destruct (existsb (fun z => eqf z x) before) eqn:E.
  - assert (Hx : exists k, In k before /\ eqf k x = true).
    { apply existsb_exists in E as (k & Hk & Hf). eauto. }
    intros [<-|H]; [destruct Hx as (k & Hk & Hf); eauto|].
    destruct (IH _ _ H) as (k & [Hk|Hk] & Hf); [|eauto].
    apply in_app_or in Hk as [Hk|[<-|[]]]; [eauto|].
    destruct Hx as (k & Hk & Hf'). exists k. split; [left; exact Hk|]. eapply tr; eauto.
  - intros H. destruct (IH _ _ H) as (k & [Hk|Hk] & Hf).
    + apply in_app_or in Hk as [Hk|[<-|[]]]; [eauto|]. exists x. split; [right; left; reflexivity|exact Hf].
    + exists k. split; [right; right; exact Hk|exact Hf].
Qed.

(** On data of pairwise different addresses: the first occurrences stay in
    order, the others are destroyed in order, every cell is freed once. *)
Lemma unique_ok h : NoDup (hitems h) ->
  exists h', hs_unique eqf true h = Ok (h', repeats [] (hitems h), seq 0 (length (hitems h))) /\
    hitems h' = firsts [] (hitems h) /\ good h'.
Proof.
  intros Hn. unfold hs_unique.
  destruct (loop_ok (hitems h) 0 None hs_empty [] [] []) as (s' & Hr & Hi & Hg).
  - apply good_empty.
  - split; [intros y []|intros y []].
  - exact Hn.
  - intros y [].
  - intros y [].
  - exists s'. split; [exact Hr|]. split; [exact Hi|exact Hg].
Qed.
End Spec.

(** Without a destructor the call survives exactly the lists without repeats,
    and leaves those alone. *)
Lemma loop_nodtor (eqf : nat -> nat -> bool) : forall l c it2 s cells,
  good s ->
  (exists s', uq_loop eqf false c it2 l s [] cells = Ok (s', [], uq_free cells it2 ++ seq c (length l)) /\
     hitems s' = hitems s ++ l /\ good s' /\
     apart eqf l /\ (forall x, In x l -> forall y, In y (hitems s) -> eqf y x = false)) \/
  (uq_loop eqf false c it2 l s [] cells = UB /\
     ~ (apart eqf l /\ (forall x, In x l -> forall y, In y (hitems s) -> eqf y x = false))).
Proof.
  induction l as [|x r IH]; intros c it2 s cells Hg.
  - left. exists s. cbn. rewrite !app_nil_r. repeat split; auto; [constructor|intros x []].
  - cbn [uq_loop]. rewrite (uq_in_live eqf [] x (hitems s)) by (intros; intros []). cbn [bind].
    destruct (existsb (fun y => eqf y x) (hitems s)) eqn:E.
    + right. split; [reflexivity|]. intros [_ H]. apply existsb_exists in E as (y & Hy & Hf).
      rewrite (H x (or_introl eq_refl) y Hy) in Hf. discriminate.
    + unfold uq_add. rewrite (uq_in_live eqf [] x (hitems s)) by (intros; intros []). cbn [bind]. rewrite E.
      destruct (good_append s x Hg) as (s1 & Ha & Hi1 & Hg1). rewrite Ha. cbn [bind].
      destruct (IH (S c) (Some c) s1 (uq_free cells it2) Hg1) as [(s' & Hr & Hi & Hg' & Hap & Hn)|[Hr Hn]].
      * left. exists s'. split; [|split; [|split; [exact Hg'|split]]].
        -- rewrite Hr. cbn [uq_free length seq]. now rewrite <- app_assoc.
        -- rewrite Hi, Hi1, <- app_assoc. reflexivity.
        -- constructor; [|exact Hap]. apply Forall_forall. intros y Hy. apply (Hn y Hy).
           rewrite Hi1. apply in_or_app. right; left; reflexivity.
        -- intros z [<-|Hz] y Hy; [exact (existsb_no _ _ _ E Hy)|].
           apply (Hn z Hz). rewrite Hi1. apply in_or_app. left; exact Hy.
      * right. split; [exact Hr|]. intros [Ha' Hb]. apply Hn. inversion Ha' as [|? ? Hf Ho]; subst.
        split; [exact Ho|]. intros z Hz y Hy. rewrite Hi1 in Hy. apply in_app_or in Hy as [Hy|[<-|[]]].
        -- apply (Hb z (or_intror Hz) y Hy).
        -- rewrite Forall_forall in Hf. apply (Hf z Hz).
Qed.

Lemma unique_nodtor (eqf : nat -> nat -> bool) h :
  (apart eqf (hitems h) ->
    exists h', hs_unique eqf false h = Ok (h', [], seq 0 (length (hitems h))) /\
      hitems h' = hitems h /\ good h') /\
  (~ apart eqf (hitems h) -> hs_unique eqf false h = UB).
Proof.
  unfold hs_unique.
  destruct (loop_nodtor eqf (hitems h) 0 None hs_empty [] good_empty) as [(s' & Hr & Hi & Hg & Ha & _)|[Hr Hn]].
  - split; [|intros H; contradiction]. intros _. exists s'. split; [exact Hr|]. split; [exact Hi|exact Hg].
  - split; [|intros _; exact Hr]. intros Ha. exfalso. apply Hn. split; [exact Ha|]. intros x _ y [].
Qed.

(** What the repeats and the first occurrences are to each other. *)
Lemma unique_meaning (eqf : nat -> nat -> bool) :
  (forall x y z, eqf x y = true -> eqf y z = true -> eqf x z = true) ->
  forall h, NoDup (hitems h) ->
  exists h' ds cells, hs_unique eqf true h = Ok (h', ds, cells) /\
    apart eqf (hitems h') /\
    Permutation (hitems h' ++ ds) (hitems h) /\
    (forall x, In x ds -> exists y, In y (hitems h') /\ eqf y x = true) /\
    (forall x, In x ds -> ~ In x (hitems h')).
Proof.
  intros tr h Hn. destruct (unique_ok eqf tr h Hn) as (h' & Hr & Hi & _).
  eexists h', _, _. split; [exact Hr|]. rewrite Hi. split; [apply firsts_apart|].
  pose proof (perm_split eqf (hitems h) []) as Hp. split; [exact Hp|]. split.
  - intros x Hx. destruct (repeats_old eqf tr _ _ _ Hx) as (k & [[]|Hk] & Hf). eauto.
  - intros x Hx Hk. apply Permutation_sym, Permutation_NoDup in Hp; [|exact Hn].
    apply in_split in Hx as (a & b & E). rewrite E, app_assoc in Hp. apply NoDup_remove_2 in Hp.
    apply Hp. apply in_or_app. left. apply in_or_app. left; exact Hk.
Qed.
