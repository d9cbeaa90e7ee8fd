(** Facts about the tail-pointer list. *)
From Verif Require Import CStr CStrFacts HSListModel.

(** The tail pointer designates the true last item (or is NULL when empty). *)
Definition good {A} (h : hsl A) : Prop :=
  match htail h with
  | TNull => hitems h = []
  | TAt i => S i = length (hitems h)
  | TBad => False
  end.
(** The tail pointer is NULL or designates the true last item: what the radix
    trees maintain. *)
Definition semi {A} (h : hsl A) : Prop :=
  match htail h with
  | TNull => True
  | TAt i => S i = length (hitems h)
  | TBad => False
  end.

Lemma good_semi {A} (h : hsl A) : good h -> semi h.
Proof. unfold good, semi; destruct (htail h); auto. Qed.

Lemma good_append {A} (h : hsl A) x :
  good h -> exists h', hs_append h x = Ok h' /\ hitems h' = hitems h ++ [x] /\ good h'.
Proof.
  unfold good, hs_append. destruct h as [l t]; cbn [hitems htail]. destruct t as [|i|]; intros H.
  - subst. eexists; split; [reflexivity|]. cbn. auto.
  - eexists; split; [reflexivity|]. cbn [hitems htail].
    rewrite firstn_all2 by lia. split; [reflexivity|]. rewrite app_length; cbn; lia.
  - contradiction.
Qed.

Lemma good_append_all {A} (l : list A) : forall h,
  good h -> exists h', hs_append_all h l = Ok h' /\ hitems h' = hitems h ++ l /\ good h'.
Proof.
  induction l as [|x l IH]; intros h H; cbn.
  - exists h. now rewrite app_nil_r.
  - destruct (good_append h x H) as (h1 & -> & Hi & Hg). cbn.
    destruct (IH h1 Hg) as (h2 & -> & Hi2 & Hg2).
    exists h2. rewrite Hi2, Hi, <- app_assoc. auto.
Qed.

Lemma good_empty {A} : good (@hs_empty A).
Proof. reflexivity. Qed.

Lemma semi_prepend {A} (h : hsl A) x : semi h -> semi (hs_prepend h x).
Proof. unfold semi, hs_prepend; destruct h as [l t]; cbn; destruct t; cbn; lia. Qed.
Lemma good_prepend {A} (h : hsl A) x : good h -> hitems h <> [] -> good (hs_prepend h x).
Proof. unfold good, hs_prepend; destruct h as [l t]; cbn; destruct t; cbn; try lia; congruence. Qed.

Lemma semi_insert_after {A} (h : hsl A) i x :
  i < length (hitems h) -> semi h -> semi (hs_insert_after h i x).
Proof.
  unfold semi, hs_insert_after; destruct h as [l t]; cbn [hitems htail]; intros Hi.
  destruct t as [|j|]; auto. intros Hj.
  destruct (Nat.eqb_spec j i); [|destruct (Nat.ltb_spec j i)]; rewrite list_ins_length; lia.
Qed.
Lemma good_insert_after {A} (h : hsl A) i x :
  i < length (hitems h) -> good h -> good (hs_insert_after h i x).
Proof.
  unfold good, hs_insert_after; destruct h as [l t]; cbn [hitems htail]; intros Hi.
  destruct t as [|j|]; auto. { intros ->. cbn in Hi. lia. } intros Hj.
  destruct (Nat.eqb_spec j i); [|destruct (Nat.ltb_spec j i)]; rewrite list_ins_length; lia.
Qed.

Lemma good_remove {A} (h : hsl A) i : good h -> good (hs_remove h i).
Proof.
  unfold good, hs_remove. destruct h as [l t]; cbn [hitems htail].
  destruct (Nat.ltb_spec i (length l)) as [Hi|Hi]; [|auto]. cbn [hitems htail].
  pose proof (list_del_length l i Hi) as Hd.
  destruct t as [|j|]; try contradiction.
  { intros ->. cbn in Hi; lia. }
  intros Hj. destruct i as [|i'].
  - destruct j as [|j'].
    + destruct (list_del l 0) eqn:E; auto. cbn in Hd. lia.
    + lia.
  - destruct (Nat.eqb_spec j (S i')); [|destruct (Nat.ltb_spec j (S i'))]; lia.
Qed.
Lemma semi_remove {A} (h : hsl A) i : semi h -> semi (hs_remove h i).
Proof.
  unfold semi, hs_remove. destruct h as [l t]; cbn [hitems htail].
  destruct (Nat.ltb_spec i (length l)) as [Hi|Hi]; [|auto]. cbn [hitems htail].
  pose proof (list_del_length l i Hi) as Hd.
  destruct t as [|j|]; auto.
  intros Hj. destruct i as [|i'].
  - destruct j as [|j'].
    + destruct (list_del l 0) eqn:E; auto. cbn in Hd. lia.
    + lia.
  - destruct (Nat.eqb_spec j (S i')); [|destruct (Nat.ltb_spec j (S i'))]; lia.
Qed.
Lemma hs_remove_items {A} (h : hsl A) l1 x l2 :
  hitems h = l1 ++ x :: l2 -> hitems (hs_remove h (length l1)) = l1 ++ l2.
Proof.
  intros E. unfold hs_remove. rewrite E, app_length. cbn [length].
  destruct (Nat.ltb_spec (length l1) (length l1 + S (length l2))); [|lia].
  cbn [hitems]. now rewrite list_del_app.
Qed.
Lemma hs_remove_null {A} (h : hsl A) i : semi h -> htail h = TNull -> htail (hs_remove h i) = TNull.
Proof. unfold semi, hs_remove. intros _ E. destruct (i <? length (hitems h)); cbn; rewrite E; auto. Qed.
(** Removing from a list whose tail is set yields NULL only if it becomes empty. *)
Lemma hs_remove_nonnull {A} (h : hsl A) i j :
  semi h -> htail h = TAt j -> htail (hs_remove h i) = TNull -> hitems (hs_remove h i) = [].
Proof.
  unfold semi, hs_remove. destruct h as [l t]; cbn [hitems htail]. intros H ->.
  destruct (Nat.ltb_spec i (length l)) as [Hi|Hi]; cbn [hitems htail]; [|discriminate].
  destruct i as [|i'].
  - destruct j as [|j'].
    + destruct (list_del l 0) eqn:E; [auto|discriminate].
    + discriminate.
  - destruct (j =? S i'); [discriminate|destruct (j <? S i'); discriminate].
Qed.

(** * Refinement of the whole interface to a plain sequence *)

(** The operations of comps_hslist.h on one list. Positions for the
    item-pointer operations are positions of items of the list. *)
Inductive hop (A : Type) :=
| HAppend (x : A) | HPrepend (x : A) | HInsertAfter (i : nat) (x : A)
| HInsertAt (pos : Z) (x : A) | HRemove (i : nat) | HShift | HPop | HClear.
Arguments HAppend {A} x. Arguments HPrepend {A} x. Arguments HInsertAfter {A} i x.
Arguments HInsertAt {A} pos x. Arguments HRemove {A} i. Arguments HShift {A}.
Arguments HPop {A}. Arguments HClear {A}.

Definition hs_step {A} (h : hsl A) (o : hop A) : res (hsl A * option A) :=
  match o with
  | HAppend x => h' <- hs_append h x ;; Ok (h', None)
  | HPrepend x => Ok (hs_prepend h x, None)
  | HInsertAfter i x => Ok (hs_insert_after h i x, None)
  | HInsertAt p x => Ok (hs_insert_at h p x, None)
  | HRemove i => Ok (hs_remove h i, None)
  | HShift => Ok (hs_shift h)
  | HPop => hs_pop h
  | HClear => Ok (hs_clear h, None)
  end.
Fixpoint hs_run {A} (h : hsl A) (ops : list (hop A)) : res (hsl A * list (option A)) :=
  match ops with
  | [] => Ok (h, [])
  | o :: r => p <- hs_step h o ;; q <- hs_run (fst p) r ;; Ok (fst q, snd p :: snd q)
  end.

(** Specification: the same operations on a mathematical sequence. *)
Definition seq_step {A} (l : list A) (o : hop A) : list A * option A :=
  match o with
  | HAppend x => (l ++ [x], None)
  | HPrepend x => (x :: l, None)
  | HInsertAfter i x => (firstn (S i) l ++ x :: skipn (S i) l, None)
  | HInsertAt p x =>
      (if ((0 <=? p) && (p <=? Z.of_nat (length l)))%Z
       then firstn (Z.to_nat p) l ++ x :: skipn (Z.to_nat p) l else l, None)
  | HRemove i => (firstn i l ++ skipn (S i) l, None)
  | HShift => (tl l, hd_error l)
  | HPop => (removelast l, match rev l with [] => None | x :: _ => Some x end)
  | HClear => ([], None)
  end.
Fixpoint seq_run {A} (l : list A) (ops : list (hop A)) : list A * list (option A) :=
  match ops with
  | [] => (l, [])
  | o :: r => let p := seq_step l o in let q := seq_run (fst p) r in (fst q, snd p :: snd q)
  end.

(** The histories on which the tail pointer stays right: [prepend] never on an
    empty list, [insert_at] never at the end of a non-empty list, item
    pointers belong to the list. *)
Definition hop_safe {A} (l : list A) (o : hop A) : Prop :=
  match o with
  | HPrepend _ => l <> []
  | HInsertAfter i _ => i < length l
  | HInsertAt p _ => p = 0%Z \/ p <> Z.of_nat (length l)
  | _ => True
  end.
Fixpoint hops_safe {A} (l : list A) (ops : list (hop A)) : Prop :=
  match ops with
  | [] => True
  | o :: r => hop_safe l o /\ hops_safe (fst (seq_step l o)) r
  end.

Lemma removelast_firstn_S {A} (l : list A) n : length l = S n -> removelast l = firstn n l.
Proof.
  revert n; induction l as [|x l IH]; intros n Hn; [discriminate|].
  cbn in Hn. destruct l as [|y l].
  - destruct n; [reflexivity|discriminate].
  - destruct n as [|n]; [discriminate|]. cbn [removelast firstn]. f_equal. apply IH. cbn in *. lia.
Qed.
Lemma rev_last_nth {A} (l : list A) n : length l = S n ->
  match rev l with [] => None | x :: _ => Some x end = nth_error l n.
Proof.
  intros Hn. destruct (exists_last (l := l)) as (l' & x & ->).
  { intros ->; discriminate. }
  rewrite app_length in Hn; cbn in Hn.
  rewrite rev_app_distr; cbn. rewrite nth_error_app2 by lia.
  replace (n - length l') with 0 by lia. reflexivity.
Qed.

Lemma list_del_nil {A} (l : list A) i : length l <= i -> list_del l i = l.
Proof.
  intros H. unfold list_del. rewrite firstn_all2 by lia. rewrite skipn_all2 by lia. apply app_nil_r.
Qed.

Lemma hs_step_refines {A} (h : hsl A) (o : hop A) :
  good h -> hop_safe (hitems h) o ->
  exists h', hs_step h o = Ok (h', snd (seq_step (hitems h) o)) /\
             hitems h' = fst (seq_step (hitems h) o) /\ good h'.
Proof.
  intros Hg Hs. destruct o as [x|x|i x|p x|i| | |]; cbn [hs_step seq_step fst snd].
  - destruct (good_append h x Hg) as (h' & E & Hi & Hg'). rewrite E. cbn. eauto.
  - eexists; split; [reflexivity|]. split; [reflexivity|]. now apply good_prepend.
  - eexists; split; [reflexivity|]. split; [reflexivity|]. now apply good_insert_after.
  - eexists; split; [reflexivity|]. unfold hs_insert_at. cbn in Hs.
    destruct (Z.eqb_spec p 0) as [->|Hp].
    + cbn [hitems]. rewrite (proj2 (Z.leb_le _ _)) by lia.
      split.
      * cbn. destruct (Z.leb_spec 0 (Z.of_nat (length (hitems h)))); [reflexivity|lia].
      * unfold good in *. cbn [htail hitems]. destruct (htail h); cbn; try lia. rewrite Hg. reflexivity.
    + destruct Hs as [Hs|Hs]; [contradiction|].
      destruct (Z.ltb_spec 0 p) as [H0|H0]; destruct (Z.leb_spec p (Z.of_nat (length (hitems h)))) as [H1|H1];
        destruct (Z.leb_spec 0 p); cbn [andb]; try lia; try (split; [reflexivity|exact Hg]).
      split; [reflexivity|]. unfold good in *. cbn [htail hitems].
      destruct (htail h) as [|j|]; try contradiction.
      * rewrite Hg in H1. cbn in H1. lia.
      * destruct (Nat.ltb_spec j (Z.to_nat p)); [lia|]. rewrite list_ins_length; lia.
  - eexists; split; [reflexivity|]. split; [|now apply good_remove].
    unfold hs_remove. destruct (Nat.ltb_spec i (length (hitems h))); [reflexivity|].
    symmetry. apply (list_del_nil (hitems h) i). lia.
  - unfold hs_shift. destruct h as [l t]; cbn [hitems htail].
    destruct l as [|x r]; [eexists; split; [reflexivity|]; cbn; auto|].
    eexists; split; [reflexivity|]. split; [reflexivity|].
    unfold good in *; cbn [hitems htail] in *.
    destruct r as [|y r]; [reflexivity|].
    destruct t as [|[|j]|]; cbn in *; try lia; discriminate.
  - unfold hs_pop. destruct h as [l t]; cbn [hitems htail].
    destruct l as [|x r]; [eexists; split; [reflexivity|]; cbn; auto|].
    unfold good in Hg; cbn [hitems htail] in Hg.
    destruct t as [|i|]; [discriminate| |contradiction].
    destruct (nth_error (x :: r) i) as [y|] eqn:E.
    2:{ apply nth_error_None in E. lia. }
    rewrite (rev_last_nth (x :: r) i) by lia. rewrite E.
    rewrite (removelast_firstn_S (x :: r) i) by lia.
    destruct i as [|i].
    + eexists; split; [reflexivity|]. split; reflexivity.
    + eexists; split; [reflexivity|]. split; [reflexivity|].
      unfold good; cbn [hitems htail]. rewrite firstn_length. lia.
  - eexists; split; [reflexivity|]. split; reflexivity.
Qed.

Lemma hs_run_refines {A} (ops : list (hop A)) : forall h,
  good h -> hops_safe (hitems h) ops ->
  exists h', hs_run h ops = Ok (h', snd (seq_run (hitems h) ops)) /\
             hitems h' = fst (seq_run (hitems h) ops) /\ good h'.
Proof.
  induction ops as [|o ops IH]; intros h Hg Hs; cbn [hs_run seq_run].
  - exists h. auto.
  - destruct Hs as [Ho Hs]. destruct (hs_step_refines h o Hg Ho) as (h1 & -> & Hi & Hg1).
    cbn [bind fst snd]. rewrite <- Hi in Hs. destruct (IH h1 Hg1 Hs) as (h2 & -> & Hi2 & Hg2).
    cbn [bind fst snd]. exists h2. rewrite <- Hi. auto.
Qed.
