(** Facts about the object model: comparison, copies, member lists. *)
From Coq Require Import Permutation Sorted.
From Verif Require Import CStr CStrFacts HSListModel HSListFacts SetModel SetFacts
  RTreeModel RTreeFacts RTreeFacts2 RTreeFacts3 RTreeFacts4 SpecA ObjModel.

(** ** Values *)
Lemma ostr_cmp_iff a b : ostr_cmp a b = true <-> a = b.
Proof.
  destruct a as [a|], b as [b|]; cbn; try (split; [discriminate|discriminate]).
  - rewrite streq_iff. split; congruence.
  - split; reflexivity.
Qed.
Lemma obj_cmp_iff {A} (eqv : A -> A -> bool) :
  (forall x y, eqv x y = true <-> x = y) -> forall a b, obj_cmp eqv a b = true <-> a = b.
Proof.
  intros H [a|] [b|]; cbn; try (split; [discriminate|discriminate]).
  - rewrite H. split; congruence.
  - split; reflexivity.
Qed.
Lemma list_cmp_Forall2 {A} (eqv : A -> A -> bool) l1 : forall l2,
  list_cmp eqv l1 l2 = true <-> Forall2 (fun x y => eqv x y = true) l1 l2.
Proof.
  induction l1 as [|x l1 IH]; intros [|y l2]; cbn.
  - split; [constructor|reflexivity].
  - split; [discriminate|intros H; inversion H].
  - split; [discriminate|intros H; inversion H].
  - destruct (eqv x y) eqn:E.
    + rewrite IH. split; [intros H; now constructor|]. intros H; now inversion H.
    + split; [discriminate|]. intros H; inversion H; congruence.
Qed.
Lemma Forall2_eq {A} (l1 l2 : list A) : Forall2 eq l1 l2 <-> l1 = l2.
Proof.
  split; [induction 1; congruence|]. intros <-. induction l1; constructor; auto.
Qed.
Lemma Forall2_iff {A B} (R S : A -> B -> Prop) l1 l2 :
  (forall x y, R x y <-> S x y) -> Forall2 R l1 l2 <-> Forall2 S l1 l2.
Proof.
  intros H. split; induction 1; constructor; auto; now apply H.
Qed.
Lemma list_cmp_iff {A} (eqv : A -> A -> bool) :
  (forall x y, eqv x y = true <-> x = y) -> forall a b, list_cmp eqv a b = true <-> a = b.
Proof. intros H a b. rewrite list_cmp_Forall2, <- Forall2_eq. apply Forall2_iff. apply H. Qed.
Lemma pval_cmp_iff a b : pval_cmp a b = true <-> a = b.
Proof.
  destruct a as [a|a|a], b as [b|b|b]; cbn; try (split; [discriminate|discriminate]).
  - rewrite ostr_cmp_iff. split; congruence.
  - rewrite Z.eqb_eq. split; congruence.
  - rewrite (list_cmp_iff _ ostr_cmp_iff). split; congruence.
Qed.
Lemma ostr_copy_id a : ostr_copy a = a.
Proof. now destruct a. Qed.
Lemma map_id_ext {A} (f : A -> A) l : (forall x, f x = x) -> map f l = l.
Proof. intros H. induction l; cbn; congruence. Qed.
Lemma pval_copy_id a : pval_copy a = a.
Proof. destruct a; cbn; f_equal; [apply ostr_copy_id|]. apply map_id_ext, ostr_copy_id. Qed.
Lemma option_map_id {A} (f : A -> A) (o : option A) : (forall x, f x = x) -> option_map f o = o.
Proof. intros H. destruct o; cbn; congruence. Qed.
Lemma pkg_copy_id p : pkg_copy p = p.
Proof.
  destruct p as [n r b t a]. unfold pkg_copy, obj_copy. cbn.
  rewrite !(option_map_id ostr_copy) by apply ostr_copy_id.
  rewrite (option_map_id (fun z => z)) by reflexivity.
  rewrite (option_map_id (map ostr_copy)); [reflexivity|]. intros l. apply map_id_ext, ostr_copy_id.
Qed.
Lemma gid_copy_id g : gid_copy g = g.
Proof.
  destruct g as [n d a]. unfold gid_copy, obj_copy. cbn.
  rewrite (option_map_id ostr_copy) by apply ostr_copy_id.
  rewrite (option_map_id (map ostr_copy)); [reflexivity|]. intros l. apply map_id_ext, ostr_copy_id.
Qed.
Lemma pkg_idcmp_iff a b : pkg_idcmp a b = true <-> p_name a = p_name b.
Proof. apply (obj_cmp_iff _ ostr_cmp_iff). Qed.
Lemma gid_idcmp_iff a b : gid_idcmp a b = true <-> gi_name a = gi_name b.
Proof. apply (obj_cmp_iff _ ostr_cmp_iff). Qed.
Lemma pkg_cmp_iff a b :
  pkg_cmp a b = true <-> p_name a = p_name b /\ p_requires a = p_requires b /\ p_type a = p_type b.
Proof.
  unfold pkg_cmp.
  destruct (obj_cmp ostr_cmp (p_name a) (p_name b)) eqn:E1.
  2:{ split; [discriminate|]. intros (E & _). apply (obj_cmp_iff _ ostr_cmp_iff) in E. congruence. }
  destruct (obj_cmp ostr_cmp (p_requires a) (p_requires b)) eqn:E2.
  2:{ split; [discriminate|]. intros (_ & E & _). apply (obj_cmp_iff _ ostr_cmp_iff) in E. congruence. }
  apply (obj_cmp_iff _ ostr_cmp_iff) in E1, E2. rewrite Z.eqb_eq. tauto.
Qed.
Lemma gid_cmp_iff a b : gid_cmp a b = true <-> gi_name a = gi_name b /\ gi_def a = gi_def b.
Proof.
  unfold gid_cmp. destruct (obj_cmp ostr_cmp (gi_name a) (gi_name b)) eqn:E1.
  2:{ split; [discriminate|]. intros (E & _). apply (obj_cmp_iff _ ostr_cmp_iff) in E. congruence. }
  apply (obj_cmp_iff _ ostr_cmp_iff) in E1. rewrite Bool.eqb_true_iff. tauto.
Qed.
Lemma ostr_dec (a b : ostr) : {a = b} + {a <> b}.
Proof. decide equality. apply str_eq_dec. Defined.
Lemma name_dec (a b : option ostr) : {a = b} + {a <> b}.
Proof. decide equality. apply ostr_dec. Defined.

(** ** Member lists *)
Section Members.
Context {A : Type} (cp : A -> A) (idcmp : A -> A -> bool) (name : A -> option ostr).
Hypothesis idcmp_iff : forall x y, idcmp x y = true <-> name x = name y.
Hypothesis cp_id : forall x, cp x = x.

Definition same_name (x y : A) : bool := if name_dec (name x) (name y) then true else false.
Lemma same_name_iff x y : same_name x y = true <-> name x = name y.
Proof. unfold same_name. destruct (name_dec (name x) (name y)); split; congruence. Qed.
Lemma idcmp_same x y : idcmp x y = same_name x y.
Proof.
  destruct (idcmp x y) eqn:E, (same_name x y) eqn:E'; try reflexivity.
  - apply idcmp_iff in E. apply same_name_iff in E. congruence.
  - apply same_name_iff in E'. apply idcmp_iff in E'. congruence.
Qed.

Definition tl1 (l1 : list A) (n : nat) : list (nat * A) := combine (seq n (length l1)) l1.

Lemma find_app1 {B} (f : B -> bool) l x :
  find f (l ++ [x]) = match find f l with Some y => Some y | None => if f x then Some x else None end.
Proof. induction l as [|y l IH]; cbn; [reflexivity|]. destruct (f y); auto. Qed.
Lemma find_none_iff {B} (f : B -> bool) l : find f l = None <-> existsb f l = false.
Proof.
  induction l as [|y l IH]; cbn; [tauto|]. destruct (f y); cbn; [split; discriminate|exact IH].
Qed.

Lemma merge_first_spec l1 : forall n set out,
  good set -> (forall z, find (fun y => tag_cmp idcmp y z) (hitems set) = find (fun y => tag_cmp idcmp y z) out) ->
  exists set', merge_first cp idcmp l1 n set out = Ok (set', out ++ tl1 l1 n, n + length l1) /\ good set' /\
    forall z, find (fun y => tag_cmp idcmp y z) (hitems set') =
              find (fun y => tag_cmp idcmp y z) (out ++ tl1 l1 n).
Proof.
  induction l1 as [|x l1 IH]; intros n set out Hg Hf; cbn [merge_first].
  - exists set. unfold tl1. cbn. rewrite app_nil_r, Nat.add_0_r. auto.
  - rewrite cp_id.
    assert (exists s1 b, set_add (tag_cmp idcmp) set (n, x) = Ok (s1, b) /\ good s1 /\
      forall z, find (fun y => tag_cmp idcmp y z) (hitems s1) = find (fun y => tag_cmp idcmp y z) (out ++ [(n, x)]))
      as (s1 & b & -> & Hg1 & Hf1).
    { unfold set_add. destruct (set_in (tag_cmp idcmp) set (n, x)) eqn:Es.
      - exists set, false. split; [reflexivity|]. split; [exact Hg|]. intros z. rewrite find_app1, Hf.
        destruct (find (fun y => tag_cmp idcmp y z) out) eqn:Ez; [reflexivity|].
        destruct (tag_cmp idcmp (n, x) z) eqn:Exz; [exfalso|reflexivity].
        unfold set_in in Es. apply existsb_exists in Es. destruct Es as (y & Hy & Ey).
        rewrite <- Hf in Ez. rewrite find_none_iff in Ez.
        assert (existsb (fun y0 => tag_cmp idcmp y0 z) (hitems set) = true); [|congruence].
        apply existsb_exists. exists y. split; [exact Hy|]. unfold tag_cmp in *. cbn in *.
        rewrite idcmp_iff in *. congruence.
      - destruct (good_append set (n, x) Hg) as (s1 & -> & Hi & Hg1). exists s1, true.
        split; [reflexivity|]. split; [exact Hg1|]. intros z. rewrite Hi, !find_app1, Hf. reflexivity. }
    cbn [bind fst]. destruct (IH (S n) s1 (out ++ [(n, x)]) Hg1 Hf1) as (s2 & E & Hg2 & Hf2).
    exists s2. cbn [length tl1 combine seq]. rewrite <- app_assoc in E, Hf2.
    split; [|split; [exact Hg2|exact Hf2]]. rewrite E. do 2 f_equal. lia.
Qed.

(** The value expected at position [i] of the head part, once [done] has been
    merged. *)
Definition first_of (l1 : list A) (i : nat) (x : A) : bool :=
  negb (existsb (same_name x) (firstn i l1)).
Definition expect (l1 done : list A) (i : nat) (x : A) : A :=
  if first_of l1 i x then match find (same_name x) done with Some y => y | None => x end else x.
Definition replaced (l1 done : list A) (i : nat) (x : A) : bool :=
  first_of l1 i x && match find (same_name x) done with Some _ => true | None => false end.

Record minv (l1 done : list A) (next : nat) (head tail : list (nat * A)) : Prop := {
  mi_len : length head = length l1;
  mi_head : forall i x, nth_error l1 i = Some x ->
     exists t, nth_error head i = Some (t, expect l1 done i x) /\
       (if replaced l1 done i x then length l1 <= t else t = i);
  mi_tail : map snd tail = filter (fun y => negb (existsb (same_name y) l1)) done;
  mi_tags : Forall (fun p => length l1 <= fst p) tail;
  mi_next : length l1 <= next }.

Lemma tag_index_none l a : forall i, (forall p, In p l -> fst p <> a) -> @tag_index A l a i = None.
Proof.
  induction l as [|p l IH]; intros i H; cbn; [reflexivity|].
  destruct (Nat.eqb_spec (fst p) a) as [E|E]; [exfalso; apply (H p); [now left|exact E]|].
  apply IH. intros q Hq. apply H. now right.
Qed.
Lemma tag_index_some l a j : forall i p,
  nth_error l j = Some p -> fst p = a -> (forall j' q, j' < j -> nth_error l j' = Some q -> fst q <> a) ->
  @tag_index A l a i = Some (i + j).
Proof.
  revert j. induction l as [|q l IH]; intros j i p Hn Ha Hb; [destruct j; discriminate|].
  cbn [tag_index]. destruct j as [|j].
  - cbn in Hn. inversion Hn; subst. rewrite Nat.eqb_refl. f_equal. lia.
  - destruct (Nat.eqb_spec (fst q) a) as [E|E].
    + exfalso. apply (Hb 0 q); [lia|reflexivity|exact E].
    + rewrite (IH j (S i) p Hn Ha).
      * f_equal. lia.
      * intros j' q' Hj Hq'. apply (Hb (S j') q'); [lia|exact Hq'].
Qed.

Lemma nth_tl1 l1 : forall n i, nth_error (tl1 l1 n) i = match nth_error l1 i with Some x => Some (n + i, x) | None => None end.
Proof.
  induction l1 as [|x l1 IH]; intros n [|i]; cbn; try reflexivity.
  - now rewrite Nat.add_0_r.
  - unfold tl1 in IH. rewrite IH. destruct (nth_error l1 i); [|reflexivity]. do 2 f_equal. lia.
Qed.

(** The element found in the set is the first one of that name. *)
Lemma find_tl1 l1 y : forall n k,
  match find (fun z => tag_cmp idcmp z (k, y)) (tl1 l1 n) with
  | Some (t, x) => exists i, t = n + i /\ nth_error l1 i = Some x /\ same_name x y = true /\ first_of l1 i x = true
  | None => existsb (same_name y) l1 = false
  end.
Proof.
  induction l1 as [|x l1 IH]; intros n k; [reflexivity|].
  change (tl1 (x :: l1) n) with ((n, x) :: tl1 l1 (S n)). cbn [find existsb].
  change (tag_cmp idcmp (n, x) (k, y)) with (idcmp x y). rewrite idcmp_same.
  destruct (same_name x y) eqn:E.
  - exists 0. rewrite Nat.add_0_r. repeat split; auto.
  - specialize (IH (S n) k). destruct (find (fun z => tag_cmp idcmp z (k, y)) (tl1 l1 (S n))) as [[t x']|].
    + destruct IH as (i & -> & Hn & Es & Hf). exists (S i). split; [lia|]. split; [exact Hn|].
      split; [exact Es|]. unfold first_of in *. cbn [firstn existsb].
      apply negb_true_iff in Hf. rewrite Hf. rewrite orb_false_r. apply negb_true_iff.
      destruct (same_name x' x) eqn:E2; [|reflexivity].
      apply same_name_iff in E2, Es. assert (same_name x y = true) by (apply same_name_iff; congruence). congruence.
    + rewrite IH. rewrite orb_false_r. destruct (same_name y x) eqn:E2; [|reflexivity].
      apply same_name_iff in E2. assert (same_name x y = true) by (apply same_name_iff; congruence). congruence.
Qed.

Lemma find_app_some {B} (f : B -> bool) l1 l2 :
  find f (l1 ++ l2) = match find f l1 with Some x => Some x | None => find f l2 end.
Proof. apply find_app. Qed.

Lemma firstn_nth_in {B} (l : list B) i j x : j < i -> nth_error l j = Some x -> In x (firstn i l).
Proof.
  revert i j. induction l as [|y l IH]; intros [|i] [|j] Hlt Hn; cbn in *; try lia; try discriminate.
  - left. congruence.
  - right. apply (IH i j); [lia|exact Hn].
Qed.
(** Two positions that are both first of their names have different names. *)
Lemma first_of_unique l1 i j x x' :
  nth_error l1 i = Some x -> nth_error l1 j = Some x' -> first_of l1 i x = true -> first_of l1 j x' = true ->
  name x = name x' -> i = j.
Proof.
  intros Hi Hj Fi Fj En. unfold first_of in *. apply negb_true_iff in Fi, Fj.
  destruct (Nat.lt_trichotomy i j) as [Hlt|[->|Hlt]]; [exfalso|reflexivity|exfalso].
  - assert (existsb (same_name x') (firstn j l1) = true); [|congruence].
    apply existsb_exists. exists x. split; [now apply (firstn_nth_in l1 j i)|]. apply same_name_iff. congruence.
  - assert (existsb (same_name x) (firstn i l1) = true); [|congruence].
    apply existsb_exists. exists x'. split; [now apply (firstn_nth_in l1 i j)|]. apply same_name_iff. congruence.
Qed.

Lemma nth_error_same_list {B} (l1 l2 : list B) : (forall i, nth_error l1 i = nth_error l2 i) -> l1 = l2.
Proof.
  revert l2. induction l1 as [|x l1 IH]; intros [|y l2] H; auto.
  - specialize (H 0). discriminate.
  - specialize (H 0). discriminate.
  - f_equal; [specialize (H 0); cbn in H; congruence|]. apply IH. intros i. apply (H (S i)).
Qed.
Lemma ins_del_upd {B} (l : list B) i v : i < length l -> list_ins (list_del l i) i v = firstn i l ++ v :: skipn (S i) l.
Proof.
  intros Hi. unfold list_ins, list_del.
  rewrite firstn_app, firstn_firstn, Nat.min_id, firstn_length, Nat.min_l by lia.
  rewrite Nat.sub_diag. cbn [firstn]. rewrite app_nil_r. f_equal. f_equal.
  rewrite skipn_app, firstn_length, Nat.min_l, Nat.sub_diag by lia. cbn [skipn].
  rewrite skipn_all2 by (rewrite firstn_length; lia). reflexivity.
Qed.
Lemma nth_upd {B} (l : list B) i v j : i < length l ->
  nth_error (firstn i l ++ v :: skipn (S i) l) j = if j =? i then Some v else nth_error l j.
Proof.
  intros Hi. destruct (Nat.eqb_spec j i) as [->|Hne].
  - rewrite nth_error_app2 by (rewrite firstn_length; lia). rewrite firstn_length, Nat.min_l, Nat.sub_diag by lia. reflexivity.
  - destruct (Nat.lt_ge_cases j i).
    + rewrite nth_error_app1 by (rewrite firstn_length; lia).
      rewrite <- (firstn_skipn i l) at 2. rewrite nth_error_app1 by (rewrite firstn_length; lia). reflexivity.
    + rewrite nth_error_app2 by (rewrite firstn_length; lia). rewrite firstn_length, Nat.min_l by lia.
      rewrite <- (firstn_skipn (S i) l) at 2. rewrite nth_error_app2 by (rewrite firstn_length; lia).
      rewrite firstn_length, Nat.min_l by lia. replace (j - i) with (S (j - S i)) by lia. reflexivity.
Qed.

Lemma merge_second_spec l1 (set : hsl (nat * A)) :
  (forall z, find (fun y => tag_cmp idcmp y z) (hitems set) = find (fun y => tag_cmp idcmp y z) (tl1 l1 0)) ->
  forall l2 done next head tail,
  minv l1 done next head tail ->
  exists next' head' tail', merge_second cp idcmp l2 next set (head ++ tail) = head' ++ tail' /\
    minv l1 (done ++ l2) next' head' tail'.
Proof.
  intros Hset. induction l2 as [|y l2 IH]; intros done next head tail Hi; cbn [merge_second].
  - exists next, head, tail. rewrite app_nil_r. auto.
  - rewrite cp_id. unfold set_data_at. rewrite Hset. pose proof (find_tl1 l1 y 0 next) as Hfind.
    replace (done ++ y :: l2) with ((done ++ [y]) ++ l2) by (rewrite <- app_assoc; reflexivity).
    destruct (find (fun z => tag_cmp idcmp z (next, y)) (tl1 l1 0)) as [[t x]|] eqn:Ef.
    + destruct Hfind as (i & -> & Hn & Es & Hfo). cbn [fst plus].
      assert (Hil : i < length l1) by (apply nth_error_Some; congruence).
      destruct (mi_head _ _ _ _ _ Hi i x Hn) as (t & Ht & Hrep).
      assert (Hother : forall j p, j <> i -> nth_error (head ++ tail) j = Some p -> fst p <> i).
      { intros j p Hj Hp E. destruct (Nat.lt_ge_cases j (length l1)) as [Hlt|Hge].
        - rewrite nth_error_app1 in Hp by (rewrite (mi_len _ _ _ _ _ Hi); exact Hlt).
          destruct (nth_error l1 j) as [x'|] eqn:Ej; [|apply nth_error_None in Ej; lia].
          destruct (mi_head _ _ _ _ _ Hi j x' Ej) as (t' & Ht' & Hrep'). rewrite Hp in Ht'. inversion Ht'; subst p.
          cbn in E. subst t'. destruct (replaced l1 done j x'); lia.
        - rewrite nth_error_app2 in Hp by (rewrite (mi_len _ _ _ _ _ Hi); exact Hge).
          apply nth_error_In in Hp. pose proof (mi_tags _ _ _ _ _ Hi) as Hall. rewrite Forall_forall in Hall.
          specialize (Hall p Hp). cbn in Hall. lia. }
      assert (Hna : existsb (same_name y) l1 = true).
      { apply existsb_exists. exists x. split; [eapply nth_error_In; eauto|].
        apply same_name_iff. apply same_name_iff in Es. congruence. }
      assert (Htail : map snd tail = filter (fun y0 => negb (existsb (same_name y0) l1)) (done ++ [y])).
      { rewrite filter_app. cbn [filter]. rewrite Hna. cbn [negb]. rewrite app_nil_r. apply (mi_tail _ _ _ _ _ Hi). }
      assert (Hstable : forall j x', nth_error l1 j = Some x' -> j <> i ->
        expect l1 (done ++ [y]) j x' = expect l1 done j x' /\ replaced l1 (done ++ [y]) j x' = replaced l1 done j x').
      { intros j x' Hj Hne. unfold expect, replaced. destruct (first_of l1 j x') eqn:Fj; [|auto].
        rewrite find_app1. destruct (find (same_name x') done) eqn:E; [auto|].
        destruct (same_name x' y) eqn:E2; [|auto]. exfalso. apply Hne.
        eapply first_of_unique; eauto. apply same_name_iff in E2, Es. congruence. }
      destruct (replaced l1 done i x) eqn:Er.
      * assert (Htag : tag_index (head ++ tail) i 0 = None).
        { apply tag_index_none. intros p Hp E. apply In_nth_error in Hp. destruct Hp as (j & Hj).
          destruct (Nat.eq_dec j i) as [->|Hne]; [|exact (Hother j p Hne Hj E)].
          rewrite nth_error_app1 in Hj by (rewrite (mi_len _ _ _ _ _ Hi); exact Hil).
          rewrite Ht in Hj. inversion Hj; subst p. cbn in E. lia. }
        rewrite Htag. apply IH. constructor; try apply Hi; [|exact Htail|pose proof (mi_next _ _ _ _ _ Hi); lia].
        intros j x' Hj. destruct (Nat.eq_dec j i) as [->|Hne].
        -- assert (x' = x) as -> by congruence. exists t. unfold replaced, expect in *.
           rewrite Hfo in *. cbn [andb] in *. rewrite find_app1. destruct (find (same_name x) done); [auto|discriminate].
        -- destruct (Hstable j x' Hj Hne) as [-> ->]. now apply (mi_head _ _ _ _ _ Hi).
      * subst t. assert (Htag : tag_index (head ++ tail) i 0 = Some i).
        { rewrite (tag_index_some _ i i 0 (i, expect l1 done i x)); [reflexivity| |reflexivity|].
          - rewrite nth_error_app1 by (rewrite (mi_len _ _ _ _ _ Hi); exact Hil). exact Ht.
          - intros j q Hj. apply Hother. lia. }
        rewrite Htag.
        rewrite ins_del_upd by (rewrite app_length, (mi_len _ _ _ _ _ Hi); lia).
        rewrite firstn_app, (mi_len _ _ _ _ _ Hi). replace (i - length l1) with 0 by lia. cbn [firstn]. rewrite app_nil_r.
        rewrite skipn_app, (mi_len _ _ _ _ _ Hi). replace (S i - length l1) with 0 by lia. change (skipn 0 tail) with tail.
        rewrite app_comm_cons, app_assoc. apply IH.
        assert (Hlh : i < length head) by (rewrite (mi_len _ _ _ _ _ Hi); exact Hil).
        constructor; [| |exact Htail|apply Hi|pose proof (mi_next _ _ _ _ _ Hi); lia].
        -- rewrite app_length. cbn [length]. rewrite firstn_length, skipn_length.
           pose proof (mi_len _ _ _ _ _ Hi). lia.
        -- intros j x' Hj. rewrite nth_upd by exact Hlh. destruct (Nat.eqb_spec j i) as [->|Hne].
           ++ assert (x' = x) as -> by congruence. exists next. unfold replaced, expect in *. rewrite Hfo in *.
              cbn [andb] in *. rewrite find_app1. destruct (find (same_name x) done); [discriminate|].
              rewrite Es. split; [reflexivity|]. apply (mi_next _ _ _ _ _ Hi).
           ++ destruct (Hstable j x' Hj Hne) as [-> ->]. now apply (mi_head _ _ _ _ _ Hi).
    + rewrite <- app_assoc. apply IH. constructor; try apply Hi.
      * intros j x' Hj. destruct (mi_head _ _ _ _ _ Hi j x' Hj) as (t & Ht & Hrep). exists t.
        assert (Hne : same_name x' y = false).
        { destruct (same_name x' y) eqn:E; [|reflexivity]. apply same_name_iff in E.
          assert (existsb (same_name y) l1 = true); [|congruence]. apply existsb_exists. exists x'.
          split; [eapply nth_error_In; eauto|]. now apply same_name_iff. }
        unfold expect, replaced in *. rewrite find_app1, Hne.
        destruct (find (same_name x') done); auto.
      * rewrite map_app, filter_app. cbn [map filter snd]. rewrite Hfind. cbn [negb]. f_equal. apply Hi.
      * apply Forall_app. split; [apply Hi|]. constructor; [apply (mi_next _ _ _ _ _ Hi)|constructor].
      * pose proof (mi_next _ _ _ _ _ Hi). lia.
Qed.

Lemma merge_members_spec l1 l2 :
  exists out rest, merge_members cp idcmp l1 l2 = Ok (out ++ rest) /\ length out = length l1 /\
    (forall i x, nth_error l1 i = Some x -> nth_error out i = Some (expect l1 l2 i x)) /\
    rest = filter (fun y => negb (existsb (same_name y) l1)) l2.
Proof.
  unfold merge_members.
  destruct (merge_first_spec l1 0 hs_empty [] good_empty (fun z => eq_refl)) as (set & -> & Hg & Hf).
  cbn [bind fst snd app plus] in *.
  assert (Hi : minv l1 [] (length l1) (tl1 l1 0) []).
  { constructor; auto.
    - unfold tl1. rewrite combine_length, seq_length. lia.
    - intros i x Hx. exists i. rewrite nth_tl1, Hx. unfold expect, replaced. cbn [find].
      rewrite andb_false_r. destruct (first_of l1 i x); auto. }
  destruct (merge_second_spec l1 set Hf l2 [] (length l1) (tl1 l1 0) [] Hi) as (nx & hd & tl & E & Hi').
  rewrite app_nil_r in E. rewrite E, map_app. exists (map snd hd), (map snd tl).
  split; [reflexivity|]. split; [rewrite map_length; apply Hi'|]. split; [|apply Hi'].
  intros i x Hx. destruct (mi_head _ _ _ _ _ Hi' i x Hx) as (t & Ht & _).
  rewrite nth_error_map, Ht. reflexivity.
Qed.

(** Adding all elements of a list to a set: membership is membership by name. *)
Lemma set_add_all_mem l : forall s, good s ->
  exists s', set_add_all idcmp s l = Ok s' /\ good s' /\
    forall x, set_in idcmp s' x = set_in idcmp s x || existsb (same_name x) l.
Proof.
  induction l as [|y l IH]; intros s Hg; cbn [set_add_all existsb].
  - exists s. split; [reflexivity|]. split; [exact Hg|]. intros x. now rewrite orb_false_r.
  - unfold set_add. destruct (set_in idcmp s y) eqn:E.
    + cbn [bind fst]. destruct (IH s Hg) as (s' & -> & Hg' & Hm). exists s'. split; [reflexivity|]. split; [exact Hg'|].
      intros x. rewrite Hm. destruct (same_name x y) eqn:Ex; [|reflexivity]. cbn [orb].
      apply same_name_iff in Ex. assert (set_in idcmp s x = true) as ->; [|reflexivity].
      unfold set_in in *. apply existsb_exists in E. destruct E as (z & Hz & Ez). apply existsb_exists.
      exists z. split; [exact Hz|]. rewrite idcmp_iff in *. congruence.
    + destruct (good_append s y Hg) as (s1 & -> & Hi & Hg1). cbn [bind fst].
      destruct (IH s1 Hg1) as (s' & -> & Hg' & Hm). exists s'. split; [reflexivity|]. split; [exact Hg'|].
      intros x. rewrite Hm. unfold set_in at 1. rewrite Hi, existsb_app. cbn [existsb].
      rewrite orb_false_r, <- orb_assoc. f_equal. f_equal. rewrite idcmp_same.
      unfold same_name. destruct (name_dec (name y) (name x)), (name_dec (name x) (name y)); congruence.
Qed.
Lemma intersect_members_spec l1 l2 :
  intersect_members cp idcmp l1 l2 = Ok (filter (fun y => existsb (same_name y) l1) l2).
Proof.
  unfold intersect_members. destruct (set_add_all_mem l1 hs_empty good_empty) as (s & -> & _ & Hm).
  cbn [bind]. rewrite (map_id_ext _ _ cp_id). f_equal. apply filter_ext. intros x. now rewrite Hm.
Qed.

(** Of equally named elements only the first. *)
Fixpoint dedup (seen l : list A) : list A :=
  match l with
  | [] => []
  | x :: r => if existsb (same_name x) seen then dedup seen r else x :: dedup (seen ++ [x]) r
  end.
Lemma add_common_spec s l : forall s2, good s2 ->
  exists s', add_common idcmp s s2 l = Ok s' /\
    hitems s' = hitems s2 ++ dedup (hitems s2) (filter (set_in idcmp s) l).
Proof.
  induction l as [|y l IH]; intros s2 Hg; cbn [add_common filter].
  - exists s2. cbn. now rewrite app_nil_r.
  - destruct (set_in idcmp s y) eqn:Ey; [|now apply IH]. cbn [dedup]. unfold set_add.
    assert (Em : set_in idcmp s2 y = existsb (same_name y) (hitems s2)).
    { unfold set_in. induction (hitems s2) as [|z r IHr]; cbn; [reflexivity|]. rewrite IHr. f_equal.
      rewrite idcmp_same. unfold same_name. destruct (name_dec (name y) (name z)), (name_dec (name z) (name y)); congruence. }
    rewrite <- Em. destruct (set_in idcmp s2 y) eqn:E2; cbn [bind fst].
    + now apply IH.
    + destruct (good_append s2 y Hg) as (s3 & -> & Hi & Hg3). cbn [bind fst].
      destruct (IH s3 Hg3) as (s' & -> & Hs'). exists s'. split; [reflexivity|].
      rewrite Hs', Hi, <- app_assoc. reflexivity.
Qed.
Lemma intersect_members_env_spec l1 l2 :
  intersect_members_env cp idcmp l1 l2 = Ok (dedup [] (filter (fun y => existsb (same_name y) l1) l2)).
Proof.
  unfold intersect_members_env. destruct (set_add_all_mem l1 hs_empty good_empty) as (s & -> & _ & Hm).
  cbn [bind]. destruct (add_common_spec s l2 hs_empty good_empty) as (s2 & -> & Hs2). cbn [bind].
  rewrite (map_id_ext _ _ cp_id), Hs2. cbn [hs_empty hitems app]. do 2 f_equal.
  apply filter_ext. intros x. now rewrite Hm.
Qed.
(** What [dedup] keeps. *)
Lemma dedup_in l : forall seen x, In x (dedup seen l) <->
  exists a b, l = a ++ x :: b /\ existsb (same_name x) (seen ++ a) = false.
Proof.
  induction l as [|y l IH]; intros seen x; cbn [dedup].
  - split; [intros []|]. intros (a & b & E & _). destruct a; discriminate.
  - destruct (existsb (same_name y) seen) eqn:E.
    + rewrite IH. split.
      * intros (a & b & -> & H). exists (y :: a), b. split; [reflexivity|].
        rewrite existsb_app in *. apply orb_false_iff in H. destruct H as [H1 H2]. rewrite H1. cbn.
        rewrite H2, orb_false_r. destruct (same_name x y) eqn:Exy; [|reflexivity]. exfalso.
        apply same_name_iff in Exy. assert (existsb (same_name x) seen = true); [|congruence].
        apply existsb_exists in E. destruct E as (z & Hz & Ez). apply existsb_exists. exists z. split; [exact Hz|].
        apply same_name_iff in Ez. apply same_name_iff. congruence.
      * intros (a & b & Eq & H). destruct a as [|z a]; inversion Eq; subst.
        -- rewrite app_nil_r in H. congruence.
        -- exists a, b. split; [reflexivity|]. rewrite existsb_app in *. cbn in H.
           apply orb_false_iff in H. destruct H as [H1 H2]. apply orb_false_iff in H2. rewrite H1. tauto.
    + cbn [In]. rewrite IH. split.
      * intros [->|(a & b & -> & H)].
        -- exists [], l. now rewrite app_nil_r.
        -- exists (y :: a), b. split; [reflexivity|]. rewrite <- app_assoc in H. exact H.
      * intros (a & b & Eq & H). destruct a as [|z a]; inversion Eq; subst; [now left|right].
        exists a, b. split; [reflexivity|]. rewrite <- app_assoc. exact H.
Qed.
End Members.
