(** Facts about ValidateModel. *)
From Coq Require Import NArith Nnat Sorted.
From Verif Require Import CStr CStrFacts HSListModel HSListFacts SetModel SetFacts RTreeModel RTreeFacts RTreeFacts2 RTreeFacts3
  RTreeFacts4 MRTreeModel SpecA ObjModel ObjFacts ObjFacts2 SpecC DocModel DocFacts DocFacts2 Dec StrModel StrFacts ValidateModel.

Lemma find_index {A} (f : A -> bool) l y : find f l = Some y ->
  exists i, nth_error l i = Some y /\ f y = true /\ i < length l /\
    forall j c, j < i -> nth_error l j = Some c -> f c = false.
Proof.
  induction l as [|a l IH]; cbn [find]; [discriminate|].
  destruct (f a) eqn:E.
  - intros [= <-]. exists 0. cbn. repeat split; auto; [lia|]. intros j c Hj. lia.
  - intros H. destruct (IH H) as (i & H1 & H2 & H3 & H4). exists (S i). cbn. repeat split; auto; [lia|].
    intros [|j] c Hj Hc; cbn in Hc; [congruence|]. apply (H4 j); [lia|exact Hc].
Qed.
Lemma find_none_nth {A} (f : A -> bool) l : find f l = None -> forall j c, nth_error l j = Some c -> f c = false.
Proof. intros H j c Hc. exact (find_none _ _ H c (nth_error_In _ _ Hc)). Qed.

Section Unique.
Context {A : Type} (cmp : A -> A -> bool) (o : vobj).
Hypothesis cmp_trans : forall a b c, cmp a b = true -> cmp b c = true -> cmp a c = true.

(** [i] is the first position of an element equal to the one at [x], and is
    before [x]. *)
Definition first_equal (vs : list A) (i x : nat) : Prop :=
  i < x /\ exists a b, nth_error vs i = Some a /\ nth_error vs x = Some b /\ cmp a b = true /\
    forall j c, j < i -> nth_error vs j = Some c -> cmp c b = false.
(** Elements stored at one address are one object. *)
Definition consistent (l : list (@tagged A)) : Prop :=
  forall p q, In p l -> In q l -> fst p = fst q -> snd p = snd q.
Definition dup_text (p : nat * nat) : str :=
  S_ "Duplicate items at " ++ dec (N.of_nat (fst p)) ++ S_ " and " ++ dec (N.of_nat (snd p)).

Lemma tag_index_first (l : list (@tagged A)) : forall i0 i p, nth_error l i = Some p ->
  (forall j q, j < i -> nth_error l j = Some q -> fst q <> fst p) ->
  tag_index l (fst p) i0 = Some (i0 + i).
Proof.
  induction l as [|q l IH]; intros i0 i p Hi Hj; [destruct i; discriminate|].
  cbn [tag_index]. destruct i as [|i].
  - cbn in Hi. injection Hi as ->. rewrite Nat.eqb_refl. f_equal. lia.
  - destruct (fst q =? fst p) eqn:E.
    + apply Nat.eqb_eq in E. exfalso. apply (Hj 0 q); [lia|reflexivity|exact E].
    + rewrite (IH (S i0) i p); [f_equal; lia|exact Hi|].
      intros j c Hlt Hc. apply (Hj (S j) c); [lia|exact Hc].
Qed.

Lemma dup_msg_ok : forall i x, (N.of_nat i < 10 ^ 9)%N -> (N.of_nat x < 10 ^ 9)%N ->
  dup_msg i x = Ok (dup_text (i, x)).
Proof.
  intros i x Hi Hx. unfold dup_msg, dup_text. cbv zeta. cbn [fst snd].
  assert (P : (10 ^ 9 = 1000000000)%N) by reflexivity. rewrite P in Hi, Hx.
  assert (Q : forall n, (n < 1000000000)%N -> decZ (as_int n) = dec n).
  { intros n Hn. unfold as_int. cbv zeta.
    rewrite N.mod_small by (change (2 ^ 32)%N with 4294967296%N; lia).
    assert (E : (n <? 2 ^ 31)%N = true) by (apply N.ltb_lt; change (2 ^ 31)%N with 2147483648%N; lia).
    rewrite E. unfold decZ. assert (F : (Z.of_N n <? 0)%Z = false) by (apply Z.ltb_ge; lia).
    rewrite F. now rewrite N2Z.id. }
  rewrite (Q (N.of_nat i)), (Q (N.of_nat x)) by assumption.
  apply put_ok. rewrite !app_length.
  rewrite !digits_count_ok by assumption. rewrite !Nat2N.id.
  change (length (S_ "Duplicate items at %d and %d")) with 28.
  change (length (S_ "Duplicate items at ")) with 19. change (length (S_ " and ")) with 5. lia.
Qed.
Lemma dup_msg_overflow : forall i x, (N.of_nat i < 10 ^ 9)%N -> (10 ^ 9 <= N.of_nat x)%N -> (N.of_nat x < 2 ^ 31)%N ->
  dup_msg i x = UB.
Proof.
  intros i x Hi Hx Hu. unfold dup_msg. cbv zeta.
  assert (P : (10 ^ 9 = 1000000000)%N) by reflexivity.
  assert (P' : (2 ^ 31 = 2147483648)%N) by reflexivity.
  assert (Q : forall n, (n < 2 ^ 31)%N -> decZ (as_int n) = dec n).
  { intros n Hn. unfold as_int. cbv zeta.
    rewrite N.mod_small by (change (2 ^ 32)%N with 4294967296%N; lia).
    assert (E : (n <? 2 ^ 31)%N = true) by (apply N.ltb_lt; exact Hn).
    rewrite E. unfold decZ. assert (F : (Z.of_N n <? 0)%Z = false) by (apply Z.ltb_ge; lia).
    rewrite F. now rewrite N2Z.id. }
  rewrite (Q (N.of_nat i)), (Q (N.of_nat x)) by lia.
  apply put_ub. rewrite !app_length. rewrite (digits_count_ok (N.of_nat i)) by assumption.
  destruct (digits_count_big (N.of_nat x)) as [E1 E2]; [assumption|change (2 ^ 32)%N with 4294967296%N; lia|].
  rewrite E1, Nat2N.id. change (N.to_nat 9) with 9.
  change (length (S_ "Duplicate items at %d and %d")) with 28.
  change (length (S_ "Duplicate items at ")) with 19. change (length (S_ " and ")) with 5. lia.
Qed.

Definition errs_of (acc : option (list (vobj * str))) (ps : list (nat * nat)) : vres :=
  match acc, ps with
  | None, [] => VOk
  | _, _ => VErr (match acc with None => [] | Some e => e end ++ map (fun p => (o, dup_text p)) ps)
  end.
Definition seen (set : hsl (@tagged A)) (past : list (@tagged A)) : Prop :=
  good set /\ forall d : @tagged A, find (fun y => cmp (snd y) (snd d)) (hitems set) = find (fun y => cmp (snd y) (snd d)) past.

Lemma unique_loop_spec (whole : list (@tagged A)) : consistent whole -> (N.of_nat (length whole) <= 10 ^ 9)%N ->
  forall l past set acc, whole = past ++ l -> seen set past ->
  exists ps, unique_loop cmp o whole l (length past) set acc = Ok (errs_of acc ps) /\
    StronglySorted (fun p q => snd p < snd q) ps /\
    forall i x, In (i, x) ps <-> length past <= x /\ first_equal (map snd whole) i x.
Proof.
  unfold tagged in *. intros Hc Hlen. induction l as [|d r IH]; intros past set acc Hw [Hg Hs].
  - exists []. cbn [unique_loop]. split; [destruct acc; cbn; [now rewrite app_nil_r|reflexivity]|].
    split; [constructor|]. intros i x. split; [intros []|]. intros (Hx & Hi & a & b & _ & Hb & _).
    exfalso. assert (x < length (map snd whole)) by (apply nth_error_Some; congruence).
    rewrite map_length, Hw, app_nil_r in H. unfold tagged in *. lia.
  - cbn [unique_loop]. unfold set_data_at.
    change (find (fun y => tag_cmp cmp y d) (hitems set)) with (find (fun y => cmp (snd y) (snd d)) (hitems set)).
    assert (Hnth : nth_error whole (length past) = Some d).
    { rewrite Hw, nth_error_app2, Nat.sub_diag by lia. reflexivity. }
    assert (Hnthv : nth_error (map snd whole) (length past) = Some (snd d)) by now apply map_nth_error.
    assert (Hpl : length past < length whole) by (rewrite Hw, app_length; cbn; lia).
    assert (Hw' : whole = (past ++ [d]) ++ r) by (rewrite <- app_assoc; exact Hw).
    assert (Hl' : length (past ++ [d]) = S (length past)) by (rewrite app_length; cbn; lia).
    destruct (find (fun y => cmp (snd y) (snd d)) (hitems set)) as [data|] eqn:F.
    + assert (F' := F). rewrite Hs in F'. destruct (find_index _ _ _ F') as (i & Hi & Hci & Hil & Hfirst).
      assert (Hiw : nth_error whole i = Some data) by (rewrite Hw, nth_error_app1 by exact Hil; exact Hi).
      assert (Hidx : tag_index whole (fst data) 0 = Some i).
      { rewrite (tag_index_first whole 0 i data Hiw); [reflexivity|].
        intros j q Hj Hq E. assert (Hqv : snd q = snd data).
        { apply Hc; [exact (nth_error_In _ _ Hq)|exact (nth_error_In _ _ Hiw)|exact E]. }
        assert (Hqp : nth_error past j = Some q) by (rewrite Hw, nth_error_app1 in Hq by lia; exact Hq).
        pose proof (Hfirst j q Hj Hqp) as Hf. cbn in Hf, Hci. congruence. }
      rewrite Hidx. rewrite dup_msg_ok by lia. cbn [bind].
      destruct (IH (past ++ [d]) set (Some (match acc with None => [] | Some e => e end ++ [(o, dup_text (i, length past))])) Hw')
        as (ps & Hps & Hsort & Hin).
      { split; [exact Hg|]. intros d'. rewrite Hs, find_app.
        destruct (find (fun y => cmp (snd y) (snd d')) past) eqn:F2; [reflexivity|].
        cbn [find]. destruct (cmp (snd d) (snd d')) eqn:E; [exfalso|reflexivity].
        pose proof (find_none_nth _ _ F2 i data Hi) as Hn. cbn in Hn.
        rewrite (cmp_trans _ _ _ Hci E) in Hn. discriminate. }
      rewrite Hl' in Hps. exists ((i, length past) :: ps). split; [|split].
      * rewrite Hps. f_equal. unfold errs_of. destruct acc; cbn [map]; now rewrite <- app_assoc.
      * constructor; [exact Hsort|]. apply Forall_forall. intros [i' x'] Hin'. apply Hin in Hin'. cbn. lia.
      * assert (Hfe : first_equal (map snd whole) i (length past)).
        { split; [exact Hil|]. exists (snd data), (snd d). split; [now apply map_nth_error|]. split; [exact Hnthv|].
          split; [exact Hci|]. intros j c Hj Hcj.
          destruct (nth_error past j) as [q|] eqn:Hq; [|apply nth_error_None in Hq; lia].
          assert (nth_error whole j = Some q) by (rewrite Hw, nth_error_app1 by lia; exact Hq).
          rewrite (map_nth_error snd _ _ H) in Hcj. injection Hcj as <-. exact (Hfirst j q Hj Hq). }
        intros i' x'. split.
        -- intros [E|H]; [injection E as <- <-; split; [lia|exact Hfe]|]. apply Hin in H. split; [lia|apply H].
        -- intros [Hx Hf]. destruct (Nat.eq_dec x' (length past)) as [->|Hne].
           ++ left. f_equal. destruct Hf as (Hi' & a & b & Ha & Hb & Hab & Hmin).
              destruct Hfe as (_ & a2 & b2 & Ha2 & Hb2 & Hab2 & Hmin2).
              assert (b = b2) by congruence. subst b2.
              destruct (Nat.lt_trichotomy i i') as [Hlt|[Heq|Hgt]]; [|exact Heq|].
              ** exfalso. rewrite (Hmin i a2 Hlt Ha2) in Hab2. discriminate.
              ** exfalso. rewrite (Hmin2 i' a Hgt Ha) in Hab. discriminate.
           ++ right. apply Hin. split; [rewrite Hl'; lia|exact Hf].
    + assert (Hns : set_in (tag_cmp cmp) set d = false).
      { destruct (set_in (tag_cmp cmp) set d) eqn:E; [exfalso|reflexivity]. unfold set_in in E.
        apply existsb_exists in E. destruct E as (y & Hy & E). pose proof (find_none _ _ F y Hy) as Hn.
        cbn in Hn. unfold tag_cmp in E. congruence. }
      unfold set_add. rewrite Hns. destruct (good_append set d Hg) as (set' & Eapp & Hit & Hg'). unfold tagged in *. rewrite Eapp. cbn [bind fst].
      destruct (IH (past ++ [d]) set' acc Hw') as (ps & Hps & Hsort & Hin).
      { split; [exact Hg'|]. intros d'. unfold tagged in *. rewrite Hit, !find_app, Hs. reflexivity. }
      rewrite Hl' in Hps. exists ps. split; [exact Hps|]. split; [exact Hsort|].
      intros i x. rewrite Hin, Hl'. split; [intros [H1 H2]; split; [lia|exact H2]|].
      intros [Hx Hf]. split; [|exact Hf]. destruct (Nat.eq_dec x (length past)) as [->|]; [exfalso|lia].
      destruct Hf as (Hi' & a & b & Ha & Hb & Hab & _). assert (b = snd d) by congruence. subst b.
      rewrite Hs in F. destruct (nth_error past i) as [q|] eqn:Hq; [|apply nth_error_None in Hq; lia].
      assert (Hqw : nth_error whole i = Some q) by (rewrite Hw, nth_error_app1 by lia; exact Hq).
      rewrite (map_nth_error snd _ _ Hqw) in Ha. injection Ha as <-.
      pose proof (find_none_nth _ _ F i q Hq) as Hn. cbn in Hn. congruence.
Qed.
Lemma unique_check_spec (l : list (@tagged A)) : consistent l -> (N.of_nat (length l) <= 10 ^ 9)%N ->
  exists ps, unique_check cmp o l = Ok (errs_of None ps) /\
    StronglySorted (fun p q => snd p < snd q) ps /\
    forall i x, In (i, x) ps <-> first_equal (map snd l) i x.
Proof.
  intros Hc Hl. destruct (unique_loop_spec l Hc Hl l [] hs_empty None eq_refl) as (ps & H1 & H2 & H3).
  - split; [apply good_empty|]. intros d. reflexivity.
  - exists ps. split; [exact H1|]. split; [exact H2|]. intros i x. rewrite H3. cbn. split; [tauto|]. intros H; split; [lia|exact H].
Qed.
End Unique.

Lemma own_tags_snd {A} (l : list A) : map snd (own_tags l) = l.
Proof.
  unfold own_tags. generalize 0. induction l as [|x l IH]; intros n; [reflexivity|]. cbn. now rewrite IH.
Qed.
Lemma own_tags_length {A} (l : list A) : length (own_tags l) = length l.
Proof. unfold own_tags, tagged. rewrite combine_length, seq_length. lia. Qed.
Lemma own_tags_consistent {A} (l : list A) : consistent (own_tags l).
Proof.
  assert (H : forall l n p q, In p (combine (seq n (length l)) l) -> In q (combine (seq n (length l)) l) ->
            fst p = fst q -> snd p = snd q :> A).
  { clear l. induction l as [|x l IH]; intros n p q Hp Hq E; [destruct Hp|].
    cbn in Hp, Hq. destruct Hp as [<-|Hp], Hq as [<-|Hq]; [reflexivity| | |now apply (IH (S n))].
    - destruct q as [j y]. apply in_combine_l in Hq. apply in_seq in Hq. cbn in E. lia.
    - destruct p as [j y]. apply in_combine_l in Hp. apply in_seq in Hp. cbn in E. lia. }
  exact (H l 0).
Qed.

(** ** Running rules *)
Definition verdict (l : list (vobj * str)) : vres := match l with [] => VOk | _ => VErr l end.
Definition acc_of (l : list (vobj * str)) : option (list (vobj * str)) := match l with [] => None | _ => Some l end.
Definition pfx (p : str) (l : list (vobj * str)) : list (vobj * str) := map (fun e => (fst e, p ++ snd e)) l.
Lemma prefix_msgs_ok p l : prefix_msgs p l = Ok (pfx p l).
Proof.
  induction l as [|[o m] l IH]; [reflexivity|]. cbn [prefix_msgs pfx map fst snd].
  rewrite put_ok by (rewrite app_length; lia). cbn [bind]. rewrite IH. reflexivity.
Qed.
Lemma valgenres_prefix_ok p l : valgenres_prefix (verdict l) p = Ok (verdict (pfx p l)).
Proof.
  destruct l as [|e l]; [reflexivity|]. cbn [verdict valgenres_prefix]. rewrite prefix_msgs_ok. reflexivity.
Qed.
Lemma acc_list l : match acc_of l with None => [] | Some e => e end = l.
Proof. now destruct l. Qed.
Lemma acc_verdict l : match acc_of l with None => VOk | Some e => VErr e end = verdict l.
Proof. now destruct l. Qed.

Fixpoint reports {A} (rules : list (rule A)) (mss : list (list (vobj * str))) : list (vobj * str) :=
  match rules, mss with
  | r :: rules', ms :: mss' => pfx (fst r) ms ++ reports rules' mss'
  | _, _ => []
  end.
Lemma execute_loop_ok {A} (o : A) rules mss :
  Forall2 (fun r ms => snd r o = Ok (verdict ms)) rules mss ->
  forall a, execute_loop o rules (acc_of a) = Ok (verdict (a ++ reports rules mss)).
Proof.
  intros H. induction H as [|[msg chk] ms rules mss Hr _ IH]; intros a.
  - cbn [execute_loop reports]. now rewrite acc_verdict, app_nil_r.
  - cbn [execute_loop snd fst reports] in *. rewrite Hr. cbn [bind].
    destruct ms as [|e ms].
    + cbn [verdict]. rewrite IH. reflexivity.
    + assert (P := valgenres_prefix_ok msg (e :: ms)). cbn [verdict] in *. rewrite P. cbn [bind].
      rewrite acc_list. cbn [pfx map verdict valgenres_concat bind].
      change ((fst e, msg ++ snd e) :: map (fun e0 => (fst e0, msg ++ snd e0)) ms) with (pfx msg (e :: ms)).
      destruct (a ++ pfx msg (e :: ms)) as [|x y] eqn:E; [apply app_eq_nil in E; destruct E; discriminate|].
      change (Some (x :: y)) with (acc_of (x :: y)). rewrite IH, <- E. now rewrite <- app_assoc.
Qed.
Lemma execute_ok {A} (o : A) rules mss :
  Forall2 (fun r ms => snd r o = Ok (verdict ms)) rules mss -> execute o rules = Ok (verdict (reports rules mss)).
Proof. intros H. exact (execute_loop_ok o rules mss H []). Qed.

(** Reports of the objects of a list, each with its position. *)
Fixpoint numbered {A} (i : N) (l : list A) (mss : list (list (vobj * str))) : list (vobj * str) :=
  match l, mss with
  | _ :: r, ms :: s => pfx (dec i ++ S_ ".") ms ++ numbered (N.succ i) r s
  | _, _ => []
  end.
Lemma position_fits x : (x < 2 ^ 32)%N -> put (N.to_nat (digits_count x) * 3) (dec x ++ S_ ".") = Ok (dec x ++ S_ ".").
Proof.
  intros H. apply put_ok. rewrite app_length. change (length (S_ ".")) with 1.
  destruct (N.lt_ge_cases x (10 ^ 9)) as [L|G].
  - rewrite digits_count_ok by exact L. rewrite Nat2N.id.
    assert (length (dec x) <> 0). { intros E. apply (dec_nonempty x). now destruct (dec x). }
    lia.
  - destruct (digits_count_big x G H) as [E1 E2]. rewrite E1. change (N.to_nat 9) with 9. lia.
Qed.
Lemma listobjs_loop_ok {A} (rules : list (rule A)) l mss :
  Forall2 (fun o ms => execute o rules = Ok (verdict ms)) l mss ->
  forall x a, (x + N.of_nat (length l) <= 2 ^ 32)%N ->
  listobjs_loop rules l x (acc_of a) = Ok (verdict (a ++ numbered x l mss)).
Proof.
  intros H. induction H as [|o ms l mss Ho _ IH]; intros x a Hx.
  - cbn [listobjs_loop numbered]. now rewrite acc_verdict, app_nil_r.
  - cbn [listobjs_loop numbered length] in *. rewrite Ho. cbn [bind].
    assert (Hx' : (N.succ x + N.of_nat (length l) <= 2 ^ 32)%N) by lia.
    destruct ms as [|e ms].
    + cbn [verdict]. rewrite IH by exact Hx'. reflexivity.
    + cbn [verdict]. rewrite position_fits by lia. cbn [bind].
      assert (P := valgenres_prefix_ok (dec x ++ S_ ".") (e :: ms)). cbn [verdict] in P. rewrite P. cbn [bind].
      rewrite acc_list. unfold pfx at 1. cbn [map verdict valgenres_concat bind].
      match goal with |- context [a ++ ?z] => change z with (pfx (dec x ++ S_ ".") (e :: ms)) end.
      destruct (a ++ pfx (dec x ++ S_ ".") (e :: ms)) as [|u v] eqn:E; [apply app_eq_nil in E; destruct E; discriminate|].
      change (Some (u :: v)) with (acc_of (u :: v)). rewrite IH by exact Hx'. rewrite <- E. now rewrite <- app_assoc.
Qed.
Lemma listobjs_ok {A} (rules : list (rule A)) l mss :
  Forall2 (fun o ms => execute o rules = Ok (verdict ms)) l mss -> (N.of_nat (length l) <= 2 ^ 32)%N ->
  listobjs_validate rules l = Ok (verdict (numbered 0 l mss)).
Proof. intros H Hl. exact (listobjs_loop_ok rules l mss H 0%N [] ltac:(lia)). Qed.
