(** Facts about [+] of the typed Python lists. *)
From Verif Require Import CStr HSListModel HSListFacts SetModel SetFacts RTreeModel ObjModel ObjFacts SpecC DocModel DocFacts PyObjModel.

Section First.
Context {A : Type} (idc : A -> A -> bool).
Context {I : Type} (I_dec : forall a b : I, {a = b} + {a <> b}) (ident : A -> I).
Hypothesis idc_iff : forall a b, idc a b = true <-> ident a = ident b.
Notation has := (has I_dec ident).
(** The value stored for the [i]-th element [x] of the first list is combined
    with this element of [l2]: none if an earlier one has the same id. *)
Definition partner (l1 l2 : list A) (i : nat) (x : A) : option A :=
  if in_dec I_dec (ident x) (map ident (firstn i l1)) then None else find (has (ident x)) l2.
(** The elements of [l2] whose id does not occur in [l1]. *)
Definition fresh (l1 l2 : list A) : list A := filter (fun y => not_in I_dec (map ident l1) (ident y)) l2.

Lemma idc_has x y k t : tag_cmp idc (t, x) (k, y) = has (ident y) x.
Proof.
  unfold tag_cmp. cbn [snd]. destruct (has (ident y) x) eqn:E.
  - apply has_iff in E. now apply idc_iff.
  - destruct (idc x y) eqn:E2; [|reflexivity]. apply idc_iff in E2. apply (has_iff I_dec) in E2. congruence.
Qed.

Lemma merge_first_copies (cp : A -> A) l1 : forall n set out,
  merge_first cp idc l1 n set out = merge_first (fun x => x) idc (map cp l1) n set out.
Proof. induction l1 as [|x l1 IH]; intros n set out; cbn; [reflexivity|]. destruct (set_add _ _ _); cbn; auto. Qed.

Lemma first_loop l1 : forall n set out,
  good set -> (forall z, find (fun y => tag_cmp idc y z) (hitems set) = find (fun y => tag_cmp idc y z) out) ->
  exists set', merge_first (fun x => x) idc l1 n set out = Ok (set', out ++ tl1 l1 n, n + length l1) /\ good set' /\
    forall z, find (fun y => tag_cmp idc y z) (hitems set') = find (fun y => tag_cmp idc y z) (out ++ tl1 l1 n).
Proof.
  induction l1 as [|x l1 IH]; intros n set out Hg Hf; cbn [merge_first].
  - exists set. unfold tl1. cbn. rewrite app_nil_r, Nat.add_0_r. auto.
  - assert (exists s1 b, set_add (tag_cmp idc) set (n, x) = Ok (s1, b) /\ good s1 /\
      forall z, find (fun y => tag_cmp idc y z) (hitems s1) = find (fun y => tag_cmp idc y z) (out ++ [(n, x)]))
      as (s1 & b & -> & Hg1 & Hf1).
    { unfold set_add. destruct (set_in (tag_cmp idc) set (n, x)) eqn:Es.
      - exists set, false. split; [reflexivity|]. split; [exact Hg|]. intros z. rewrite find_app1, Hf.
        destruct (find (fun y => tag_cmp idc y z) out) eqn:Ez; [reflexivity|].
        destruct (tag_cmp idc (n, x) z) eqn:Exz; [exfalso|reflexivity].
        unfold set_in in Es. apply existsb_exists in Es. destruct Es as (y & Hy & Ey).
        rewrite <- Hf in Ez. rewrite find_none_iff in Ez.
        assert (existsb (fun y0 => tag_cmp idc y0 z) (hitems set) = true); [|congruence].
        apply existsb_exists. exists y. split; [exact Hy|]. unfold tag_cmp in *. cbn in *.
        rewrite idc_iff in *. congruence.
      - destruct (good_append set (n, x) Hg) as (s1 & -> & Hi & Hg1). exists s1, true.
        split; [reflexivity|]. split; [exact Hg1|]. intros z. rewrite Hi, !find_app1, Hf. reflexivity. }
    cbn [bind fst]. destruct (IH (S n) s1 (out ++ [(n, x)]) Hg1 Hf1) as (s2 & E & Hg2 & Hf2).
    exists s2. cbn [length tl1 combine seq]. rewrite <- app_assoc in E, Hf2.
    split; [|split; [exact Hg2|exact Hf2]]. rewrite E. do 2 f_equal. lia.
Qed.

(** The element found in the set: the first one of that id. *)
Lemma found l1 y : forall n k,
  match find (fun z => tag_cmp idc z (k, y)) (tl1 l1 n) with
  | Some (t, x) => exists i, t = n + i /\ nth_error l1 i = Some x /\ ident x = ident y /\ ~ In (ident x) (map ident (firstn i l1))
  | None => ~ In (ident y) (map ident l1)
  end.
Proof.
  induction l1 as [|x l1 IH]; intros n k; [cbn; tauto|].
  change (tl1 (x :: l1) n) with ((n, x) :: tl1 l1 (S n)). cbn [find]. rewrite idc_has.
  destruct (has (ident y) x) eqn:E.
  - apply has_iff in E. exists 0. rewrite Nat.add_0_r. cbn. auto.
  - assert (Hne : ident x <> ident y) by (intros H; apply (has_iff I_dec) in H; congruence).
    specialize (IH (S n) k). destruct (find (fun z => tag_cmp idc z (k, y)) (tl1 l1 (S n))) as [[t x']|].
    + destruct IH as (i & -> & Hn & Es & Hf). exists (S i). split; [lia|]. split; [exact Hn|]. split; [exact Es|].
      cbn. intros [H|H]; [congruence|contradiction].
    + cbn. intros [H|H]; [congruence|contradiction].
Qed.

Lemma first_position l1 i j x x' :
  nth_error l1 i = Some x -> nth_error l1 j = Some x' -> ident x = ident x' ->
  ~ In (ident x) (map ident (firstn i l1)) -> ~ In (ident x') (map ident (firstn j l1)) -> i = j.
Proof.
  intros Hi Hj E Fi Fj. destruct (Nat.lt_trichotomy i j) as [Hlt|[->|Hlt]]; [exfalso|reflexivity|exfalso].
  - apply Fj. rewrite <- E. apply in_map. now apply (firstn_nth_in l1 j i).
  - apply Fi. rewrite E. apply in_map. now apply (firstn_nth_in l1 i j).
Qed.
Lemma partner_snoc_other l1 l2 i x y : ident y <> ident x -> partner l1 (l2 ++ [y]) i x = partner l1 l2 i x.
Proof.
  intros H. unfold partner. destruct (in_dec _ _ _); [reflexivity|]. rewrite find_app1.
  assert (has (ident x) y = false) as ->.
  { destruct (has (ident x) y) eqn:E; [|reflexivity]. apply has_iff in E. contradiction. }
  now destruct (find (has (ident x)) l2).
Qed.
Lemma fresh_snoc l1 l2 y : fresh l1 (l2 ++ [y]) = fresh l1 l2 ++ (if not_in I_dec (map ident l1) (ident y) then [y] else []).
Proof. unfold fresh. rewrite filter_app. cbn. now destruct (not_in _ _ _). Qed.
End First.

Section Union.
Context {A : Type} (cp : A -> A) (idc : A -> A -> bool) (un : A -> A -> res A).
Context {I : Type} (I_dec : forall a b : I, {a = b} + {a <> b}) (ident : A -> I).
Context (ok : A -> Prop) (same : A -> A -> Prop) (united : A -> A -> A -> Prop).
Hypothesis idc_iff : forall a b, idc a b = true <-> ident a = ident b.
Hypothesis cp_spec : forall a, ok a -> ok (cp a) /\ same (cp a) a /\ ident (cp a) = ident a.
Hypothesis un_spec : forall a b, ok a -> ok b -> ident a = ident b ->
  exists u, un a b = Ok u /\ ok u /\ united a b u /\ ident u = ident b.
Hypothesis united_same : forall a a' b g, same a a' -> united a b g -> united a' b g.
Notation has := (has I_dec ident).
Notation partner := (partner I_dec ident).
Notation fresh := (fresh I_dec ident).

Record uinv (l1 past : list A) (next : nat) (head tail : list (nat * A)) : Prop := {
  ui_len : length head = length l1;
  ui_head : forall i x, nth_error l1 i = Some x ->
     exists t v, nth_error head i = Some (t, v) /\
       match partner l1 past i x with
       | Some y => length l1 <= t /\ In y past /\ ident x = ident y /\ un x y = Ok v
       | None => t = i /\ v = x
       end;
  ui_tail : map snd tail = fresh l1 past;
  ui_tags : Forall (fun p => length l1 <= fst p) tail;
  ui_next : length l1 <= next }.

Lemma second_loop l1 (set : hsl (nat * A)) : Forall ok l1 ->
  (forall z, find (fun y => tag_cmp idc y z) (hitems set) = find (fun y => tag_cmp idc y z) (tl1 l1 0)) ->
  forall l2 past next head tail, Forall ok l2 ->
  uinv l1 past next head tail ->
  exists next' head' tail', pyu_second idc un l2 next set (head ++ tail) = Ok (head' ++ tail') /\
    uinv l1 (past ++ l2) next' head' tail'.
Proof.
  intros Hok1 Hset. induction l2 as [|y l2 IH]; intros past next head tail Hok2 Hi; cbn [pyu_second].
  - exists next, head, tail. rewrite app_nil_r. auto.
  - inversion Hok2 as [|? ? Hy Hok2']; subst.
    unfold set_data_at. rewrite Hset. pose proof (found idc I_dec ident idc_iff l1 y 0 next) as Hfind.
    replace (past ++ y :: l2) with ((past ++ [y]) ++ l2) by (rewrite <- app_assoc; reflexivity).
    destruct (find (fun z => tag_cmp idc z (next, y)) (tl1 l1 0)) as [[t0 x]|] eqn:Ef.
    + destruct Hfind as (i & -> & Hn & Es & Hfo). cbn [fst snd plus].
      assert (Hx : ok x) by (rewrite Forall_forall in Hok1; apply Hok1; eapply nth_error_In; eauto).
      destruct (un_spec x y Hx Hy Es) as (u & Eu & _ & _ & _). rewrite Eu. cbn [bind].
      assert (Hil : i < length l1) by (apply nth_error_Some; congruence).
      destruct (ui_head _ _ _ _ _ Hi i x Hn) as (t & v & Ht & Hrep).
      assert (Hother : forall j p, j <> i -> nth_error (head ++ tail) j = Some p -> fst p <> i).
      { intros j p Hj Hp E. destruct (Nat.lt_ge_cases j (length l1)) as [Hlt|Hge].
        - rewrite nth_error_app1 in Hp by (rewrite (ui_len _ _ _ _ _ Hi); exact Hlt).
          destruct (nth_error l1 j) as [x'|] eqn:Ej; [|apply nth_error_None in Ej; lia].
          destruct (ui_head _ _ _ _ _ Hi j x' Ej) as (t' & v' & Ht' & Hrep'). rewrite Hp in Ht'. inversion Ht'; subst p.
          cbn in E. subst t'. destruct (partner l1 past j x'); lia.
        - rewrite nth_error_app2 in Hp by (rewrite (ui_len _ _ _ _ _ Hi); exact Hge).
          apply nth_error_In in Hp. pose proof (ui_tags _ _ _ _ _ Hi) as Hall. rewrite Forall_forall in Hall.
          specialize (Hall p Hp). cbn in Hall. lia. }
      assert (Htail : map snd tail = fresh l1 (past ++ [y])).
      { rewrite fresh_snoc. destruct (not_in I_dec (map ident l1) (ident y)) eqn:En.
        - apply not_in_iff in En. exfalso. apply En. rewrite <- Es. apply in_map. eapply nth_error_In; eauto.
        - rewrite app_nil_r. apply (ui_tail _ _ _ _ _ Hi). }
      assert (Hstable : forall j x', nth_error l1 j = Some x' -> j <> i -> partner l1 (past ++ [y]) j x' = partner l1 past j x').
      { intros j x' Hj Hne. destruct (I_dec (ident y) (ident x')) as [E|E]; [|now apply partner_snoc_other].
        unfold PyUnionFacts.partner. destruct (in_dec I_dec (ident x') (map ident (firstn j l1))) as [_|Hnin]; [reflexivity|].
        exfalso. apply Hne. symmetry. apply (first_position ident l1 i j x x'); auto; congruence. }
      assert (Hkeep : forall j x', nth_error l1 j = Some x' -> j <> i ->
                exists t v, nth_error head j = Some (t, v) /\
                  match partner l1 (past ++ [y]) j x' with
                  | Some y0 => length l1 <= t /\ In y0 (past ++ [y]) /\ ident x' = ident y0 /\ un x' y0 = Ok v
                  | None => t = j /\ v = x'
                  end).
      { intros j x' Hj Hne. destruct (ui_head _ _ _ _ _ Hi j x' Hj) as (t' & v' & Ht' & Hr). exists t', v'. split; [exact Ht'|].
        rewrite (Hstable j x' Hj Hne). destruct (partner l1 past j x'); [|exact Hr].
        destruct Hr as (H1 & H2 & H3 & H4). split; [exact H1|]. split; [apply in_or_app; now left|]. auto. }
      assert (Hpi : partner l1 (past ++ [y]) i x = match partner l1 past i x with Some z => Some z | None => Some y end).
      { unfold PyUnionFacts.partner. destruct (in_dec I_dec (ident x) (map ident (firstn i l1))) as [H|_]; [contradiction|].
        rewrite find_app1. destruct (find (has (ident x)) past); [reflexivity|].
        now rewrite (proj2 (has_iff I_dec ident (ident x) y) (eq_sym Es)). }
      destruct (partner l1 past i x) as [y0|] eqn:Er.
      * destruct Hrep as (Hge & Hin & Eid & Hun).
        assert (Htag : tag_index (head ++ tail) i 0 = None).
        { apply tag_index_none. intros p Hp E. apply In_nth_error in Hp. destruct Hp as (j & Hj).
          destruct (Nat.eq_dec j i) as [->|Hne]; [|exact (Hother j p Hne Hj E)].
          rewrite nth_error_app1 in Hj by (rewrite (ui_len _ _ _ _ _ Hi); exact Hil).
          rewrite Ht in Hj. inversion Hj; subst p. cbn in E. lia. }
        rewrite Htag. apply IH; [exact Hok2'|]. constructor; try apply Hi; [|exact Htail|pose proof (ui_next _ _ _ _ _ Hi); lia].
        intros j x' Hj. destruct (Nat.eq_dec j i) as [->|Hne]; [|now apply Hkeep].
        assert (x' = x) as -> by congruence. exists t, v. split; [exact Ht|]. rewrite Hpi.
        split; [exact Hge|]. split; [apply in_or_app; now left|]. auto.
      * destruct Hrep as (-> & ->). assert (Htag : tag_index (head ++ tail) i 0 = Some i).
        { rewrite (tag_index_some _ i i 0 (i, x)); [reflexivity| |reflexivity|].
          - rewrite nth_error_app1 by (rewrite (ui_len _ _ _ _ _ Hi); exact Hil). exact Ht.
          - intros j q Hj. apply Hother. lia. }
        rewrite Htag.
        rewrite ins_del_upd by (rewrite app_length, (ui_len _ _ _ _ _ Hi); lia).
        rewrite firstn_app, (ui_len _ _ _ _ _ Hi). replace (i - length l1) with 0 by lia. cbn [firstn]. rewrite app_nil_r.
        rewrite skipn_app, (ui_len _ _ _ _ _ Hi). replace (S i - length l1) with 0 by lia. change (skipn 0 tail) with tail.
        rewrite app_comm_cons, app_assoc. apply IH; [exact Hok2'|].
        assert (Hlh : i < length head) by (rewrite (ui_len _ _ _ _ _ Hi); exact Hil).
        constructor; [| |exact Htail|apply Hi|pose proof (ui_next _ _ _ _ _ Hi); lia].
        -- rewrite app_length. cbn [length]. rewrite firstn_length, skipn_length.
           pose proof (ui_len _ _ _ _ _ Hi). lia.
        -- intros j x' Hj. rewrite nth_upd by exact Hlh. destruct (Nat.eqb_spec j i) as [->|Hne].
           ++ assert (x' = x) as -> by congruence. exists next, u. split; [reflexivity|]. rewrite Hpi.
              split; [apply (ui_next _ _ _ _ _ Hi)|]. split; [apply in_or_app; right; now left|]. auto.
           ++ now apply Hkeep.
    + rewrite <- app_assoc. apply IH; [exact Hok2'|]. constructor; try apply Hi.
      * intros j x' Hj. destruct (ui_head _ _ _ _ _ Hi j x' Hj) as (t & v & Ht & Hrep). exists t, v. split; [exact Ht|].
        rewrite partner_snoc_other.
        -- destruct (partner l1 past j x'); [|exact Hrep]. destruct Hrep as (H1 & H2 & H3 & H4).
           split; [exact H1|]. split; [apply in_or_app; now left|]. auto.
        -- intros E. apply Hfind. rewrite E. apply in_map. eapply nth_error_In; eauto.
      * rewrite map_app, fresh_snoc. cbn [map snd]. rewrite (proj2 (not_in_iff I_dec (map ident l1) (ident y)) Hfind).
        f_equal. apply Hi.
      * apply Forall_app. split; [apply Hi|]. constructor; [apply (ui_next _ _ _ _ _ Hi)|constructor].
      * pose proof (ui_next _ _ _ _ _ Hi). lia.
Qed.

(** [out] is the sum of [l1] and [l2]. *)
Definition py_united (l1 l2 out : list A) : Prop :=
  exists head, out = head ++ fresh l1 l2 /\ length head = length l1 /\
    forall i x, nth_error l1 i = Some x -> exists u, nth_error head i = Some u /\ ident u = ident x /\
      match partner l1 l2 i x with Some y => united x y u | None => same u x end.

Lemma partner_map (l1 l2 : list A) i x : Forall ok l1 -> ok x -> partner (map cp l1) l2 i (cp x) = partner l1 l2 i x.
Proof.
  intros Hok Hx. unfold PyUnionFacts.partner. destruct (cp_spec x Hx) as (_ & _ & ->).
  replace (map ident (firstn i (map cp l1))) with (map ident (firstn i l1)); [reflexivity|].
  revert i. induction Hok as [|z l1 Hz Hok IH]; intros [|i]; cbn; try reflexivity.
  f_equal; [|apply IH]. now destruct (cp_spec z Hz) as (_ & _ & ->).
Qed.
Lemma map_ident_cp l1 : Forall ok l1 -> map ident (map cp l1) = map ident l1.
Proof. induction 1 as [|z l1 Hz _ IH]; cbn; [reflexivity|]. rewrite IH. f_equal. apply cp_spec, Hz. Qed.

Lemma py_union_spec l1 l2 : Forall ok l1 -> Forall ok l2 ->
  exists out, py_union cp idc un l1 l2 = Ok out /\ Forall ok out /\ py_united l1 l2 out.
Proof.
  intros H1 H2. unfold py_union. rewrite merge_first_copies.
  assert (H1' : Forall ok (map cp l1)) by (apply Forall_map; eapply Forall_impl; [|exact H1]; intros a Ha; apply cp_spec, Ha).
  destruct (first_loop idc ident idc_iff (map cp l1) 0 hs_empty [] good_empty ltac:(reflexivity)) as (s & -> & _ & Hs).
  cbn [bind fst snd plus app] in *.
  assert (Hi : uinv (map cp l1) [] (length (map cp l1)) (tl1 (map cp l1) 0) []).
  { constructor.
    - unfold tl1. rewrite combine_length, seq_length. lia.
    - intros i x Hx. rewrite nth_tl1, Hx. exists i, x. split; [reflexivity|]. unfold PyUnionFacts.partner.
      destruct (in_dec _ _ _); cbn; auto.
    - reflexivity.
    - constructor.
    - lia. }
  destruct (second_loop (map cp l1) s H1' Hs l2 [] (length (map cp l1)) (tl1 (map cp l1) 0) [] H2 Hi) as (n & head & tail & E & Hf).
  rewrite app_nil_r in E. rewrite E. cbn [bind app] in *. eexists. split; [reflexivity|]. rewrite map_app.
  assert (Hfr : map snd tail = fresh l1 l2).
  { rewrite (ui_tail _ _ _ _ _ Hf). unfold PyUnionFacts.fresh. now rewrite map_ident_cp. }
  assert (Hh : forall i x, nth_error l1 i = Some x -> exists u, nth_error (map snd head) i = Some u /\ ok u /\ ident u = ident x /\
      match partner l1 l2 i x with Some y => united x y u | None => same u x end).
  { intros i x Hx. assert (Hokx : ok x) by (rewrite Forall_forall in H1; apply H1; eapply nth_error_In; eauto).
    destruct (cp_spec x Hokx) as (Hc1 & Hc2 & Hc3).
    destruct (ui_head _ _ _ _ _ Hf i (cp x) (map_nth_error cp i l1 Hx)) as (t & v & Ht & Hr).
    exists v. rewrite (map_nth_error snd i head Ht). split; [reflexivity|].
    rewrite partner_map in Hr by assumption. destruct (partner l1 l2 i x) as [y|].
    - destruct Hr as (_ & Hin & Eid & Hun). rewrite Forall_forall in H2.
      destruct (un_spec (cp x) y Hc1 (H2 y Hin) Eid) as (u & Eu & Hu & Huu & Hui). assert (v = u) as -> by congruence.
      split; [exact Hu|]. split; [congruence|]. now apply united_same with (cp x).
    - destruct Hr as (_ & ->). auto. }
  assert (Hlen : length (map snd head) = length l1) by (rewrite map_length, (ui_len _ _ _ _ _ Hf); apply map_length).
  split.
  - apply Forall_app. split.
    + apply Forall_forall. intros u Hu. apply In_nth_error in Hu. destruct Hu as (i & Hu).
      destruct (nth_error l1 i) as [x|] eqn:Ex.
      * destruct (Hh i x Ex) as (u' & Hu' & Hok & _). congruence.
      * apply nth_error_None in Ex. assert (i < length (map snd head)) by (apply nth_error_Some; congruence). lia.
    + rewrite Hfr. apply Forall_forall. intros z Hz. apply filter_In in Hz. rewrite Forall_forall in H2. now apply H2.
  - exists (map snd head). rewrite Hfr. split; [reflexivity|]. split; [exact Hlen|].
    intros i x Hx. destruct (Hh i x Hx) as (u & Hu & _ & Hid & Hr). eauto.
Qed.

(** Without repeated ids: everything of both lists, once. *)
Lemma py_united_ids l1 l2 out : py_united l1 l2 out ->
  map ident out = map ident l1 ++ filter (not_in I_dec (map ident l1)) (map ident l2).
Proof.
  intros (head & -> & Hlen & Hh). rewrite map_app. f_equal.
  - apply nth_error_same_list. intros i. destruct (nth_error l1 i) as [x|] eqn:Ex.
    + destruct (Hh i x Ex) as (u & Hu & Hid & _). rewrite (map_nth_error ident i l1 Ex), (map_nth_error ident i head Hu). congruence.
    + apply nth_error_None in Ex. rewrite (proj2 (nth_error_None (map ident l1) i)) by now rewrite map_length.
      apply nth_error_None. rewrite map_length. lia.
  - unfold PyUnionFacts.fresh. clear. induction l2 as [|y l2 IH]; cbn; [reflexivity|].
    destruct (not_in I_dec (map ident l1) (ident y)); cbn; [f_equal|]; exact IH.
Qed.
Lemma py_united_distinct l1 l2 out : NoDup (map ident l1) -> NoDup (map ident l2) -> py_united l1 l2 out ->
  NoDup (map ident out) /\
  (forall i, In i (map ident out) <-> In i (map ident l1) \/ In i (map ident l2)) /\
  (forall g x1 x2, In g out -> In x1 l1 -> In x2 l2 -> ident x1 = ident g -> ident x2 = ident g -> united x1 x2 g) /\
  (forall g x1, In g out -> In x1 l1 -> ident x1 = ident g -> ~ In (ident g) (map ident l2) -> same g x1) /\
  (forall g x2, In g out -> In x2 l2 -> ident x2 = ident g -> ~ In (ident g) (map ident l1) -> g = x2).
Proof.
  intros N1 N2 H. pose proof (py_united_ids l1 l2 out H) as Hids. destruct H as (head & -> & Hlen & Hh).
  assert (Hcase : forall g, In g (head ++ fresh l1 l2) ->
     (exists i x, nth_error l1 i = Some x /\ nth_error head i = Some g /\ ident g = ident x) \/
     (In g l2 /\ ~ In (ident g) (map ident l1))).
  { intros g Hg. apply in_app_or in Hg. destruct Hg as [Hg|Hg].
    - left. apply In_nth_error in Hg. destruct Hg as (i & Hi). destruct (nth_error l1 i) as [x|] eqn:Ex.
      + destruct (Hh i x Ex) as (u & Hu & Hid & _). exists i, x. split; [exact Ex|]. split; [exact Hi|]. congruence.
      + apply nth_error_None in Ex. assert (i < length head) by (apply nth_error_Some; congruence). lia.
    - right. apply filter_In in Hg. destruct Hg as [Hg1 Hg2]. now apply not_in_iff in Hg2. }
  assert (Hpart : forall g x1, In g (head ++ fresh l1 l2) -> In x1 l1 -> ident x1 = ident g ->
     match find (has (ident g)) l2 with Some y => united x1 y g | None => same g x1 end).
  { intros g x1 Hg Hx1 E. destruct (Hcase g Hg) as [(i & x & Hx & Hu & Hid)|[_ Hn]].
    2:{ exfalso. apply Hn. rewrite <- E. now apply in_map. }
    destruct (Hh i x Hx) as (u & Hu' & Hid' & Hr). assert (u = g) as -> by congruence.
    assert (x1 = x) as ->.
    { apply In_nth_error in Hx1. destruct Hx1 as (j & Hj). assert (j = i); [|congruence].
      apply (proj1 (NoDup_nth_error (map ident l1)) N1).
      - rewrite map_length. apply nth_error_Some. congruence.
      - rewrite (map_nth_error ident j l1 Hj), (map_nth_error ident i l1 Hx). congruence. }
    unfold PyUnionFacts.partner in Hr. rewrite <- Hid in Hr.
    destruct (in_dec I_dec (ident g) (map ident (firstn i l1))) as [Hin|_]; [exfalso|exact Hr].
    rewrite <- (firstn_skipn i l1), map_app in N1. apply in_map_iff in Hin. destruct Hin as (z & Ez & Hz).
    assert (Hi2 : In x (skipn i l1)).
    { clear -Hx. revert i Hx. induction l1 as [|a l1 IH]; intros [|i] Hx; cbn in *; try discriminate; [left; congruence|now apply IH]. }
    clear -N1 Ez Hz Hi2 Hid. induction (firstn i l1) as [|a l IH]; [contradiction|]. cbn in N1. inversion N1 as [|? ? Ha N1']; subst.
    destruct Hz as [->|Hz]; [|now apply IH]. apply Ha. apply in_or_app. right. rewrite Ez, Hid. now apply in_map. }
  split; [|split; [|split; [|split]]].
  - rewrite Hids. clear -N1 N2. induction (map ident l1) as [|i l IH].
    + cbn. rewrite (filter_notin_id I_dec [] (map ident l2)) by (intros i _ []). exact N2.
    + set (f := filter (not_in I_dec (i :: l)) (map ident l2)).
      assert (Hf : NoDup f) by now apply NoDup_filter.
      assert (Hd : forall j, In j f -> ~ In j (i :: l)) by (intros j Hj; apply filter_In in Hj; now apply not_in_iff with (I_dec := I_dec)).
      clearbody f. clear IH. induction (i :: l) as [|j m IHm]; [exact Hf|]. cbn. inversion N1 as [|? ? Hj Hm]; subst. constructor.
      * intros H. apply in_app_or in H. destruct H as [H|H]; [contradiction|]. apply (Hd j H). now left.
      * apply IHm; [exact Hm|]. intros k Hk H. apply (Hd k Hk). now right.
  - intros i. rewrite Hids, in_app_iff, filter_In, not_in_iff.
    destruct (in_dec I_dec i (map ident l1)); tauto.
  - intros g x1 x2 Hg Hx1 Hx2 E1 E2. specialize (Hpart g x1 Hg Hx1 E1).
    now rewrite (find_unique I_dec ident (ident g) l2 x2 N2 Hx2 E2) in Hpart.
  - intros g x1 Hg Hx1 E1 Hn. specialize (Hpart g x1 Hg Hx1 E1). now rewrite (proj2 (find_has_none I_dec ident _ _) Hn) in Hpart.
  - intros g x2 Hg Hx2 E2 Hn. destruct (Hcase g Hg) as [(i & x & Hx & _ & Hid)|[Hg2 _]].
    + exfalso. apply Hn. rewrite Hid. apply in_map. eapply nth_error_In; eauto.
    + pose proof (find_unique I_dec ident (ident g) l2 x2 N2 Hx2 E2). pose proof (find_unique I_dec ident (ident g) l2 g N2 Hg2 eq_refl). congruence.
Qed.
End Union.

(** * Lists of packages *)
Section Packages.
Notation pfresh := (fresh name_dec p_name).
Notation ppartner := (partner name_dec p_name).
Definition retyped (x : pkg) (o : option pkg) : pkg :=
  match o with Some y => mkPkg (p_name x) (p_requires x) (p_bao x) (p_type y) (p_arches x) | None => x end.

Record pinv (l1 past : list pkg) (next : nat) (head tail : list (nat * pkg)) : Prop := {
  pi_len : length head = length l1;
  pi_head : forall i x, nth_error l1 i = Some x ->
     nth_error head i = Some (i, retyped x (ppartner l1 (rev past) i x));
  pi_tail : map snd tail = pfresh l1 past;
  pi_tags : Forall (fun p => length l1 <= fst p) tail;
  pi_next : length l1 <= next }.

Lemma ppartner_cons l1 l2 i x y :
  ppartner l1 (y :: l2) i x =
  if in_dec name_dec (p_name x) (map p_name (firstn i l1)) then None
  else if name_dec (p_name y) (p_name x) then Some y else ppartner l1 l2 i x.
Proof.
  unfold partner. destruct (in_dec _ _ _); [reflexivity|]. cbn [find]. unfold has.
  destruct (name_dec (p_name y) (p_name x)); reflexivity.
Qed.

Lemma pkgs_second_loop (idc : pkg -> pkg -> bool) l1 (set : hsl (nat * pkg)) :
  (forall a b, idc a b = true <-> p_name a = p_name b) -> idc = pkg_idcmp ->
  (forall z, find (fun y => tag_cmp idc y z) (hitems set) = find (fun y => tag_cmp idc y z) (tl1 l1 0)) ->
  forall l2 past next head tail,
  pinv l1 past next head tail ->
  exists next' head' tail', pkgs_second l2 next set (head ++ tail) = head' ++ tail' /\
    pinv l1 (past ++ l2) next' head' tail'.
Proof.
  intros Hiff -> Hset. induction l2 as [|y l2 IH]; intros past next head tail Hi; cbn [pkgs_second].
  - exists next, head, tail. rewrite app_nil_r. auto.
  - unfold set_data_at. rewrite Hset. pose proof (found pkg_idcmp name_dec p_name Hiff l1 y 0 next) as Hfind.
    replace (past ++ y :: l2) with ((past ++ [y]) ++ l2) by (rewrite <- app_assoc; reflexivity).
    destruct (find (fun z => tag_cmp pkg_idcmp z (next, y)) (tl1 l1 0)) as [[t0 x]|] eqn:Ef.
    + destruct Hfind as (i & -> & Hn & Es & Hfo). cbn [fst plus].
      set (f := fun p : nat * pkg => if fst p =? i then (fst p, pkg_set_type (snd p) (p_type y)) else p).
      rewrite map_app.
      assert (Hil : i < length l1) by (apply nth_error_Some; congruence).
      assert (Ht : map f tail = tail).
      { pose proof (pi_tags _ _ _ _ _ Hi) as Hall. clear -Hall Hil. induction Hall as [|p tail Hp _ IHt]; cbn [map]; [reflexivity|].
        rewrite IHt. unfold f. destruct (Nat.eqb_spec (fst p) i); [lia|reflexivity]. }
      rewrite Ht. apply IH. constructor; try apply Hi.
      * rewrite map_length. apply Hi.
      * intros j x' Hj. rewrite (map_nth_error f j head (pi_head _ _ _ _ _ Hi j x' Hj)). unfold f. cbn [fst snd].
        rewrite rev_app_distr. cbn [rev app]. rewrite ppartner_cons.
        destruct (Nat.eqb_spec j i) as [->|Hne].
        -- assert (x' = x) as -> by congruence.
           destruct (in_dec name_dec (p_name x) (map p_name (firstn i l1))) as [H|_]; [contradiction|].
           destruct (name_dec (p_name y) (p_name x)) as [_|H]; [|congruence].
           destruct (ppartner l1 (rev past) i x); reflexivity.
        -- do 2 f_equal.
           destruct (in_dec name_dec (p_name x') (map p_name (firstn j l1))) as [H|Hnin].
           ++ unfold partner. destruct (in_dec _ _ _); [reflexivity|contradiction].
           ++ destruct (name_dec (p_name y) (p_name x')) as [E|_]; [|reflexivity]. exfalso. apply Hne. symmetry.
              apply (first_position p_name l1 i j x x'); auto; congruence.
      * rewrite fresh_snoc. destruct (not_in name_dec (map p_name l1) (p_name y)) eqn:En.
        -- apply not_in_iff in En. exfalso. apply En. rewrite <- Es. apply in_map. eapply nth_error_In; eauto.
        -- rewrite app_nil_r. apply (pi_tail _ _ _ _ _ Hi).
      * pose proof (pi_next _ _ _ _ _ Hi). lia.
    + rewrite <- app_assoc. apply IH. constructor; try apply Hi.
      * intros j x' Hj. rewrite (pi_head _ _ _ _ _ Hi j x' Hj). do 2 f_equal.
        rewrite rev_app_distr. cbn [rev app]. rewrite ppartner_cons.
        destruct (in_dec name_dec (p_name x') (map p_name (firstn j l1))) as [H|Hnin].
        -- unfold partner. destruct (in_dec _ _ _); [reflexivity|contradiction].
        -- destruct (name_dec (p_name y) (p_name x')) as [E|_]; [|reflexivity]. exfalso. apply Hfind.
           rewrite E. apply in_map. eapply nth_error_In; eauto.
      * rewrite map_app, fresh_snoc. cbn [map snd]. rewrite (proj2 (not_in_iff name_dec (map p_name l1) (p_name y)) Hfind).
        f_equal. apply Hi.
      * apply Forall_app. split; [apply Hi|]. constructor; [apply (pi_next _ _ _ _ _ Hi)|constructor].
      * pose proof (pi_next _ _ _ _ _ Hi). lia.
Qed.

(** [out] is the sum of the package lists [l1] and [l2]. *)
Definition pkgs_united (l1 l2 out : list pkg) : Prop :=
  exists head, out = head ++ pfresh l1 l2 /\ length head = length l1 /\
    forall i x, nth_error l1 i = Some x ->
      nth_error head i = Some (retyped x (ppartner l1 (rev l2) i x)).
Lemma py_pkgs_union_spec l1 l2 : exists out, py_pkgs_union l1 l2 = Ok out /\ pkgs_united l1 l2 out.
Proof.
  unfold py_pkgs_union. rewrite merge_first_copies, map_pkg_copy.
  pose proof pkg_idcmp_iff as Hiff.
  destruct (first_loop pkg_idcmp p_name Hiff l1 0 hs_empty [] good_empty ltac:(reflexivity)) as (s & -> & _ & Hs).
  cbn [bind fst snd plus app] in *.
  assert (Hi : pinv l1 [] (length l1) (tl1 l1 0) []).
  { constructor.
    - unfold tl1. rewrite combine_length, seq_length. lia.
    - intros i x Hx. rewrite nth_tl1, Hx. cbn. unfold partner. destruct (in_dec _ _ _); reflexivity.
    - reflexivity.
    - constructor.
    - lia. }
  destruct (pkgs_second_loop pkg_idcmp l1 s Hiff eq_refl Hs l2 [] (length l1) (tl1 l1 0) [] Hi) as (n & head & tail & E & Hf).
  rewrite app_nil_r in E. rewrite E. cbn [app] in Hf. eexists. split; [reflexivity|]. rewrite map_app.
  exists (map snd head). rewrite (pi_tail _ _ _ _ _ Hf). split; [reflexivity|]. split; [rewrite map_length; apply Hf|].
  intros i x Hx. rewrite (map_nth_error snd i head (pi_head _ _ _ _ _ Hf i x Hx)). reflexivity.
Qed.
End Packages.
