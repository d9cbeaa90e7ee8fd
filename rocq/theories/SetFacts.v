(** Facts about the set container. *)
From Verif Require Import CStr CStrFacts HSListModel HSListFacts SetModel.

Section Facts.
Context {A : Type} (eqf : A -> A -> bool).

Lemma find_at_spec l x : forall i,
  match find_at eqf l x i with
  | Some j => exists l1 y l2, l = l1 ++ y :: l2 /\ j = i + length l1 /\ eqf y x = true /\
                              forall z, In z l1 -> eqf z x = false
  | None => forall z, In z l -> eqf z x = false
  end.
Proof.
  induction l as [|y l IH]; intros i; cbn [find_at]; [intros z []|].
  destruct (eqf y x) eqn:E.
  - exists [], y, l. cbn. repeat split; auto. intros z [].
  - specialize (IH (S i)). destruct (find_at eqf l x (S i)) as [j|].
    + destruct IH as (l1 & y' & l2 & -> & -> & Hy & Hl). exists (y :: l1), y', l2. cbn.
      repeat split; auto. intros z [<-|Hz]; auto.
    + intros z [<-|Hz]; auto.
Qed.

Lemma find_at_lt l x i j : find_at eqf l x i = Some j -> i <= j < i + length l.
Proof.
  intros E. pose proof (find_at_spec l x i) as H. rewrite E in H.
  destruct H as (l1 & y & l2 & -> & -> & _). rewrite app_length. cbn. lia.
Qed.

Lemma find_at_nth l x j : find_at eqf l x 0 = Some j -> exists y, nth_error l j = Some y /\ eqf y x = true.
Proof.
  intros E. pose proof (find_at_spec l x 0) as H. rewrite E in H.
  destruct H as (l1 & y & l2 & -> & -> & Hy & _). exists y. split; [|exact Hy].
  cbn. rewrite nth_error_app2 by lia. now rewrite Nat.sub_diag.
Qed.

(** ** set_cmp *)
Lemma idx_remove_seq i n : idx_remove i (seq i (S n)) = seq (S i) n.
Proof. cbn. now rewrite Nat.eqb_refl. Qed.
Lemma idx_remove_notin i l : ~ In i l -> idx_remove i l = l.
Proof.
  induction l as [|j l IH]; cbn; [reflexivity|]. intros H.
  destruct (Nat.eqb_spec j i); [exfalso; apply H; auto|]. f_equal. apply IH. tauto.
Qed.
Lemma idx_remove_in i l : In i l -> length (idx_remove i l) = length l - 1 .
Proof.
  induction l as [|j l IH]; cbn; [contradiction|]. intros H.
  destruct (Nat.eqb_spec j i); [lia|]. destruct H as [H|H]; [contradiction|].
  cbn. rewrite IH by assumption. destruct l; [contradiction|cbn; lia].
Qed.
Lemma idx_remove_other i j l : i <> j -> In j l -> In j (idx_remove i l).
Proof.
  induction l as [|x l IH]; cbn; [contradiction|]. intros Hne [->|H].
  - destruct (Nat.eqb_spec j i); [congruence|now left].
  - destruct (Nat.eqb_spec x i); [auto|]. right. now apply IH.
Qed.

(** Distinct elements of the walked list hit distinct positions. *)
Definition inj_at (s2 : hsl A) (l : list A) : Prop :=
  forall l1 x l2 y l3 j, l = l1 ++ x :: l2 ++ y :: l3 ->
    set_at eqf s2 x = Some j -> set_at eqf s2 y = Some j -> False.

Lemma inj_at_tl s2 x l : inj_at s2 (x :: l) -> inj_at s2 l.
Proof. intros H l1 a l2 b l3 j -> Ha Hb. apply (H (x :: l1) a l2 b l3 j); auto. Qed.

Definition all_hit (s2 : hsl A) (l : list A) : Prop :=
  forall x, In x l -> exists y, In y (hitems s2) /\ eqf y x = true.

Lemma cmp_loop_spec s2 its : forall index np2,
  inj_at s2 its ->
  (forall x j, In x its -> set_at eqf s2 x = Some j -> In j np2) ->
  match cmp_loop eqf s2 its index (seq index (length its)) np2 with
  | (b, r1, r2) =>
      if b then ~ all_hit s2 its
      else match r1 with
           | [] => all_hit s2 its /\ length r2 + length its = length np2
           | _ :: _ => r2 = [] /\ length np2 < length its
           end
  end.
Proof.
  induction its as [|x its IH]; intros index np2 Hinj Hnp; cbn [length].
  - cbn. split; [intros x []|lia].
  - cbn [seq cmp_loop]. destruct np2 as [|j0 np2].
    + split; [reflexivity|cbn; lia].
    + pose proof (find_at_spec (hitems s2) x 0) as Hf. unfold set_at.
      destruct (find_at eqf (hitems s2) x 0) as [j|] eqn:Ej.
      2:{ intros Hall. destruct (Hall x (or_introl eq_refl)) as (y & Hy & E).
          rewrite (Hf y Hy) in E. discriminate. }
      change (index :: seq (S index) (length its)) with (seq index (S (length its))). rewrite idx_remove_seq.
      set (np := j0 :: np2) in *.
      assert (Hjin : In j np) by (apply (Hnp x j); [now left|exact Ej]).
      specialize (IH (S index) (idx_remove j np) (inj_at_tl _ _ _ Hinj)).
      destruct (cmp_loop eqf s2 its (S index) (seq (S index) (length its)) (idx_remove j np)) as [[b r1] r2].
      assert (Hx : exists y, In y (hitems s2) /\ eqf y x = true).
      { destruct Hf as (l1 & y & l2 & E & _ & Hy & _). exists y. rewrite E. split; [apply in_or_app; right; now left|exact Hy]. }
      assert (Hpre : forall x0 j1, In x0 its -> set_at eqf s2 x0 = Some j1 -> In j1 (idx_remove j np)).
      { intros x0 j1 Hx0 Hj1. apply idx_remove_other.
        - intros <-. apply in_split in Hx0. destruct Hx0 as (l1 & l2 & ->).
          apply (Hinj [] x l1 x0 l2 j); auto.
        - apply (Hnp x0); [now right|exact Hj1]. }
      specialize (IH Hpre). pose proof (idx_remove_in j np Hjin) as Hlen.
      assert (Hlnp : length np = S (length np2)) by reflexivity.
      destruct b.
      * intros Hall. apply IH. intros z Hz. apply Hall. now right.
      * destruct r1 as [|q r1].
        -- destruct IH as [Hall Hl]. split; [|lia]. intros z [<-|Hz]; auto.
        -- destruct IH as [-> Hl]. split; [reflexivity|lia].
Qed.

Lemma set_cmp_0 s1 s2 :
  inj_at s2 (hitems s1) ->
  (set_cmp eqf s1 s2 = 0%Z <-> all_hit s2 (hitems s1) /\ length (hitems s1) = length (hitems s2)).
Proof.
  intros Hinj. unfold set_cmp.
  pose proof (cmp_loop_spec s2 (hitems s1) 0 (seq 0 (length (hitems s2))) Hinj) as H.
  assert (Hnp : forall x j, In x (hitems s1) -> set_at eqf s2 x = Some j -> In j (seq 0 (length (hitems s2)))).
  { intros x j _ Hj. apply in_seq. apply (find_at_lt _ _ _ _ Hj). }
  specialize (H Hnp). rewrite seq_length in H.
  destruct (cmp_loop _ _ _ _ _ _) as [[b r1] r2].
  destruct b; [split; [discriminate|tauto]|].
  destruct r1 as [|? r1].
  - destruct H as [Ha Hl]. destruct r2; cbn in Hl; split; try discriminate; intros; try split; auto; lia.
  - destruct H as [-> Hl]. split; [discriminate|lia].
Qed.

(** ** Sets as sets, for an equivalence *)
Hypothesis eqf_refl : forall x, eqf x x = true.
Hypothesis eqf_sym : forall x y, eqf x y = eqf y x.
Hypothesis eqf_trans : forall x y z, eqf x y = true -> eqf y z = true -> eqf x z = true.

(** No two stored elements are equal. *)
Definition nodupe (l : list A) : Prop :=
  forall l1 x l2 y l3, l = l1 ++ x :: l2 ++ y :: l3 -> eqf x y = false.

Lemma nodupe_cons x l : nodupe (x :: l) <-> (forall y, In y l -> eqf x y = false) /\ nodupe l.
Proof.
  split.
  - intros H. split.
    + intros y Hy. apply in_split in Hy. destruct Hy as (l1 & l2 & ->). now apply (H [] x l1 y l2).
    + intros l1 a l2 b l3 ->. now apply (H (x :: l1) a l2 b l3).
  - intros [H1 H2] l1 a l2 b l3 E. destruct l1 as [|c l1]; inversion E; subst.
    + apply H1. apply in_or_app; right; now left.
    + now apply (H2 l1 a l2 b l3).
Qed.
Lemma nodupe_app_one l x : nodupe l -> (forall y, In y l -> eqf y x = false) -> nodupe (l ++ [x]).
Proof.
  induction l as [|a l IH]; intros Hd Hx; cbn.
  - apply nodupe_cons. split; [intros ? []|]. intros [|? ?] ? ? ? ? E; discriminate.
  - apply nodupe_cons in Hd. destruct Hd as [H1 H2]. apply nodupe_cons. split.
    + intros y Hy. apply in_app_or in Hy. destruct Hy as [Hy|[<-|[]]]; auto. apply Hx. now left.
    + apply IH; auto. intros y Hy. apply Hx. now right.
Qed.
Lemma nodupe_remove l1 x l2 : nodupe (l1 ++ x :: l2) -> nodupe (l1 ++ l2).
Proof.
  induction l1 as [|a l1 IH]; cbn; intros H; apply nodupe_cons in H; destruct H as [H1 H2]; [exact H2|].
  apply nodupe_cons. split; [|auto]. intros y Hy. apply H1. apply in_app_or in Hy. apply in_or_app. cbn. tauto.
Qed.

Definition mem (l : list A) (x : A) : bool := existsb (fun y => eqf y x) l.
Lemma mem_iff l x : mem l x = true <-> exists y, In y l /\ eqf y x = true.
Proof. unfold mem. apply existsb_exists. Qed.
Lemma mem_false l x : mem l x = false <-> forall y, In y l -> eqf y x = false.
Proof.
  split.
  - intros H y Hy. destruct (eqf y x) eqn:E; [|reflexivity].
    assert (mem l x = true) by (apply mem_iff; eauto). congruence.
  - intros H. destruct (mem l x) eqn:E; [|reflexivity]. apply mem_iff in E.
    destruct E as (y & Hy & E). rewrite (H y Hy) in E. discriminate.
Qed.
Lemma mem_app l1 l2 x : mem (l1 ++ l2) x = mem l1 x || mem l2 x.
Proof. apply existsb_app. Qed.

(** Histories. *)
Inductive sop := SAdd (x : A) | SRemove (x : A) | SClear.
Inductive sout := OBool (b : bool) | OData (o : option A) | ONone.
Definition set_step (s : hsl A) (o : sop) : res (hsl A * sout) :=
  match o with
  | SAdd x => p <- set_add eqf s x ;; Ok (fst p, OBool (snd p))
  | SRemove x => let p := set_remove eqf s x in Ok (fst p, OData (snd p))
  | SClear => Ok (set_clear s, ONone)
  end.
Fixpoint set_run (s : hsl A) (ops : list sop) : res (hsl A * list sout) :=
  match ops with
  | [] => Ok (s, [])
  | o :: r => p <- set_step s o ;; q <- set_run (fst p) r ;; Ok (fst q, snd p :: snd q)
  end.

(** Specification: is (an element equal to) [x] in the set after a history?
    Decided by the last operation concerning it. *)
Definition spec_mem_step (o : sop) (x : A) (b : bool) : bool :=
  match o with
  | SAdd y => if eqf y x then true else b
  | SRemove y => if eqf y x then false else b
  | SClear => false
  end.
Fixpoint spec_mem (past : list sop) (x : A) : bool :=   (* most recent first *)
  match past with [] => false | o :: r => spec_mem_step o x (spec_mem r x) end.
(** What each call must return: add tells whether the element was absent;
    remove returns an equal element exactly when present. *)
Definition out_ok (past : list sop) (o : sop) (r : sout) : Prop :=
  match o, r with
  | SAdd x, OBool b => b = negb (spec_mem past x)
  | SRemove x, OData None => spec_mem past x = false
  | SRemove x, OData (Some y) => spec_mem past x = true /\ eqf y x = true
  | SClear, ONone => True
  | _, _ => False
  end.
Fixpoint outs_ok (past : list sop) (ops : list sop) (outs : list sout) : Prop :=
  match ops, outs with
  | [], [] => True
  | o :: ops', r :: outs' => out_ok past o r /\ outs_ok (o :: past) ops' outs'
  | _, _ => False
  end.

Lemma set_step_ok past s o :
  good s -> nodupe (hitems s) -> (forall x, mem (hitems s) x = spec_mem past x) ->
  exists s' r, set_step s o = Ok (s', r) /\ out_ok past o r /\ good s' /\ nodupe (hitems s') /\
    (forall x, mem (hitems s') x = spec_mem (o :: past) x).
Proof.
  intros Hg Hd Hm. destruct o as [x|x|]; cbn [set_step].
  - unfold set_add. change (set_in eqf s x) with (mem (hitems s) x).
    destruct (mem (hitems s) x) eqn:E; cbn [bind fst snd].
    + exists s, (OBool false). split; [reflexivity|]. cbn [out_ok]. rewrite <- Hm, E. repeat split; auto.
      intros y. cbn [spec_mem spec_mem_step]. rewrite Hm. destruct (eqf x y) eqn:Exy; [|reflexivity].
      rewrite <- Hm. apply mem_iff in E. destruct E as (z & Hz & E). apply mem_iff. exists z. eauto.
    + destruct (good_append s x Hg) as (s' & -> & Hi & Hg'). cbn [bind fst snd].
      exists s', (OBool true). split; [reflexivity|]. cbn [out_ok]. rewrite <- Hm, E.
      split; [reflexivity|]. split; [exact Hg'|]. rewrite Hi. split.
      * apply nodupe_app_one; auto. now apply mem_false.
      * intros y. rewrite mem_app. cbn. rewrite orb_false_r, Hm.
        destruct (eqf x y), (spec_mem past y); reflexivity.
  - unfold set_remove, set_at. pose proof (find_at_spec (hitems s) x 0) as Hf.
    destruct (find_at eqf (hitems s) x 0) as [j|] eqn:Ej; cbn [fst snd].
    + destruct Hf as (l1 & y & l2 & El & -> & Hy & Hl1). cbn [plus].
      exists (hs_remove s (length l1)), (OData (Some y)).
      split.
      { do 3 f_equal. rewrite El. rewrite nth_error_app2, Nat.sub_diag by lia. reflexivity. }
      cbn [out_ok]. split.
      { split; [|exact Hy]. rewrite <- Hm. apply mem_iff. exists y. rewrite El.
        split; [apply in_or_app; right; now left|exact Hy]. }
      split; [now apply good_remove|]. rewrite (hs_remove_items s l1 y l2 El). rewrite El in Hd. split.
      * eapply nodupe_remove; eauto.
      * intros z. cbn [spec_mem spec_mem_step]. destruct (eqf x z) eqn:Exz.
        -- apply mem_false. intros w Hw. destruct (eqf w z) eqn:Ewz; [|reflexivity].
           assert (Ewy : eqf w y = true).
           { apply eqf_trans with z; auto. rewrite eqf_sym. apply eqf_trans with x; auto. }
           apply in_app_or in Hw. destruct Hw as [Hw|Hw]; apply in_split in Hw; destruct Hw as (a & b & E).
           ++ subst l1. rewrite <- app_assoc in Hd. rewrite (Hd a w b y l2) in Ewy; [discriminate|reflexivity].
           ++ subst l2. rewrite eqf_sym in Ewy. rewrite (Hd l1 y a w b) in Ewy; [discriminate|reflexivity].
        -- rewrite <- Hm, El, !mem_app. cbn [mem existsb]. fold (mem l2 z).
           destruct (eqf y z) eqn:Eyz; [|reflexivity]. exfalso.
           assert (eqf x z = true); [|congruence].
           apply eqf_trans with y; auto. now rewrite eqf_sym.
    + exists s, (OData None). split; [reflexivity|]. cbn [out_ok].
      assert (Ex : mem (hitems s) x = false) by now apply mem_false.
      rewrite <- Hm. split; [exact Ex|]. repeat split; auto.
      intros z. cbn [spec_mem spec_mem_step]. rewrite Hm. destruct (eqf x z) eqn:Exz; [|reflexivity].
      rewrite <- Hm. apply mem_false. intros w Hw. rewrite mem_false in Ex.
      destruct (eqf w z) eqn:Ewz; [|reflexivity].
      assert (eqf w x = true); [|rewrite (Ex w Hw) in *; congruence].
      apply eqf_trans with z; auto. now rewrite eqf_sym.
  - exists hs_empty, ONone. split; [reflexivity|]. cbn. repeat split; auto.
    intros [|? ?] ? ? ? ? E; discriminate.
Qed.

Lemma set_run_ok ops : forall past s,
  good s -> nodupe (hitems s) -> (forall x, mem (hitems s) x = spec_mem past x) ->
  exists s' outs, set_run s ops = Ok (s', outs) /\ outs_ok past ops outs /\ good s' /\ nodupe (hitems s') /\
    (forall x, set_in eqf s' x = spec_mem (rev ops ++ past) x).
Proof.
  induction ops as [|o ops IH]; intros past s Hg Hd Hm; cbn [set_run].
  - exists s, []. repeat split; auto.
  - destruct (set_step_ok past s o Hg Hd Hm) as (s1 & r & -> & Ho & Hg1 & Hd1 & Hm1). cbn [bind fst snd].
    destruct (IH (o :: past) s1 Hg1 Hd1 Hm1) as (s2 & outs & -> & Hos & Hg2 & Hd2 & Hm2).
    cbn [bind fst snd]. exists s2, (r :: outs). cbn [outs_ok rev]. repeat split; auto.
    intros x. rewrite Hm2, <- app_assoc. reflexivity.
Qed.

(** For sets without equal elements, comparison 0 means same members. *)
Lemma nodupe_inj_at s1 s2 : nodupe (hitems s1) -> inj_at s2 (hitems s1).
Proof.
  intros Hd l1 x l2 y l3 j E Hx Hy. unfold set_at in *.
  apply find_at_nth in Hx. apply find_at_nth in Hy.
  destruct Hx as (u & Hu & Eu). destruct Hy as (w & Hw & Ew). assert (u = w) as -> by congruence.
  assert (eqf x y = true); [|rewrite (Hd _ _ _ _ _ E) in *; discriminate].
  apply eqf_trans with w; auto. now rewrite eqf_sym.
Qed.

Lemma nodupe_incl_length l1 : forall l2,
  nodupe l1 -> (forall x, In x l1 -> mem l2 x = true) -> length l1 <= length l2.
Proof.
  induction l1 as [|x l1 IH]; intros l2 Hd Hi; [cbn; lia|].
  apply nodupe_cons in Hd. destruct Hd as [Hx Hd].
  assert (Hm : mem l2 x = true) by (apply Hi; now left).
  apply mem_iff in Hm. destruct Hm as (y & Hy & Ey). apply in_split in Hy. destruct Hy as (a & b & ->).
  specialize (IH (a ++ b) Hd). rewrite app_length in *. cbn.
  assert (length l1 <= length a + length b); [|lia]. apply IH.
  intros z Hz. assert (Hm : mem (a ++ y :: b) z = true) by (apply Hi; now right).
  rewrite !mem_app in *. cbn [mem existsb] in Hm. fold (mem b z) in Hm.
  destruct (eqf y z) eqn:E; [|exact Hm]. exfalso.
  assert (eqf x z = true); [|rewrite (Hx z Hz) in *; discriminate].
  apply eqf_trans with y; auto. now rewrite eqf_sym.
Qed.

Lemma set_cmp_same s1 s2 :
  nodupe (hitems s1) -> nodupe (hitems s2) ->
  (set_cmp eqf s1 s2 = 0%Z <-> forall x, set_in eqf s1 x = set_in eqf s2 x).
Proof.
  intros H1 H2. rewrite (set_cmp_0 s1 s2 (nodupe_inj_at s1 s2 H1)).
  change (set_in eqf s1) with (mem (hitems s1)). change (set_in eqf s2) with (mem (hitems s2)).
  split.
  - intros [Hall Hlen] x.
    assert (Hf : forall z, mem (hitems s1) z = true -> mem (hitems s2) z = true).
    { intros z Hz. apply mem_iff in Hz. destruct Hz as (y & Hy & Ey).
      destruct (Hall y Hy) as (w & Hw & Ew). apply mem_iff. exists w. split; [auto|]. eauto. }
    destruct (mem (hitems s1) x) eqn:E1; [symmetry; auto|].
    destruct (mem (hitems s2) x) eqn:E2; [exfalso|reflexivity].
    apply mem_iff in E2. destruct E2 as (y & Hy & Ey). apply in_split in Hy.
    destruct Hy as (a & b & El). rewrite El in *.
    assert (Hle : length (hitems s1) <= length (a ++ b)).
    { apply nodupe_incl_length; auto. intros z Hz.
      assert (Hm : mem (a ++ y :: b) z = true) by (apply Hf, mem_iff; exists z; split; [exact Hz|apply eqf_refl]).
      rewrite !mem_app in *. cbn [mem existsb] in Hm. fold (mem b z) in Hm.
      destruct (eqf y z) eqn:E; [|exact Hm]. exfalso.
      rewrite mem_false in E1.
      assert (Hzx : eqf z x = true).
      { apply eqf_trans with y; auto. now rewrite eqf_sym. }
      rewrite (E1 z Hz) in Hzx. discriminate. }
    rewrite Hlen, !app_length in Hle. cbn in Hle. lia.
  - intros Heq. split.
    + intros x Hx. apply mem_iff. rewrite <- Heq. apply mem_iff. exists x. auto.
    + apply Nat.le_antisymm; apply nodupe_incl_length; auto; intros x Hx.
      * rewrite <- Heq. apply mem_iff. exists x. auto.
      * rewrite Heq. apply mem_iff. exists x. auto.
Qed.
End Facts.
