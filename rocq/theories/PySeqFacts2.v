(** Facts about assignment and deletion of slices. *)
From Verif Require Import CStr CStrFacts HSListModel ObjListModel ObjListFacts PySeqModel PySeqFacts.

Lemma skipn_skipn {B} (x y : nat) (l : list B) : skipn x (skipn y l) = skipn (x + y) l.
Proof.
  revert l; induction y as [|y IH]; intros l; [now rewrite Nat.add_0_r|].
  destruct l as [|b l]; [now rewrite !skipn_nil|]. rewrite Nat.add_succ_r. cbn [skipn]. apply IH.
Qed.

Section Facts2.
Context {A : Type} (same : A -> A -> bool) (kind : ikind) (key : A -> option str) (valid : A -> bool).
Implicit Types (o : ol (option A)) (l vs : list A).
Notation items := (list (option A)).

(** ** The search for an id *)
(** [l] has an item with the id of [x]. *)
Definition has_id l x : Prop := exists y, In y l /\ key y = key x.
Lemma id_cmp_iff a b : id_cmp a b = true <-> a = b.
Proof.
  destruct a as [s|], b as [t|]; cbn; split; intros H; try discriminate; auto.
  - now rewrite (proj1 (streq_iff s t) H).
  - injection H as ->. apply streq_refl.
Qed.
Lemma uniq_loop_spec l x :
  exists b, uniq_loop key (map Some l) (key x) = Ok b /\ (b = true <-> has_id l x).
Proof.
  induction l as [|y l IH]; cbn [map uniq_loop].
  - exists false. split; [reflexivity|]. split; [discriminate|]. intros (z & [] & _).
  - destruct (id_cmp (key x) (key y)) eqn:E.
    + exists true. split; [reflexivity|]. split; [|reflexivity]. intros _. exists y.
      apply id_cmp_iff in E. split; [now left|now rewrite E].
    + destruct IH as (b & -> & Hb). exists b. split; [reflexivity|]. rewrite Hb. split.
      * intros (z & Hz & Ez). exists z. split; [now right|exact Ez].
      * intros (z & [<-|Hz] & Ez); [|now exists z].
        assert (id_cmp (key x) (key y) = true) by (now apply id_cmp_iff). congruence.
Qed.
Lemma uniq_check_spec o l x : kind = ById -> holds o l ->
  exists b, uniq_check kind key o (Some x) = Ok b /\ (b = true <-> has_id l x).
Proof. intros -> (_ & E & _). cbn [uniq_check]. rewrite E. apply uniq_loop_spec. Qed.
Lemma check_all_spec o l vs : kind = ById -> holds o l ->
  exists b, check_all kind key o (map Some vs) = Ok b /\ (b = true <-> exists v, In v vs /\ has_id l v).
Proof.
  intros Hk H. induction vs as [|v vs IH]; cbn [map check_all].
  - exists false. split; [reflexivity|]. split; [discriminate|]. intros (z & [] & _).
  - destruct (uniq_check_spec o l v Hk H) as (b & -> & Hb). cbn [bind]. destruct b.
    + exists true. split; [reflexivity|]. split; [|reflexivity]. intros _. exists v. split; [now left|now apply Hb].
    + destruct IH as (b & -> & Hb2). exists b. split; [reflexivity|]. rewrite Hb2. split.
      * intros (z & Hz & Ez). exists z. split; [now right|exact Ez].
      * intros (z & [<-|Hz] & Ez); [|now exists z]. apply Hb in Ez. discriminate.
Qed.
Lemma check_all_kind o v (r : items) : kind <> ById -> check_all kind key o (v :: r) = UB.
Proof. intros H. cbn. destruct kind; [contradiction| |]; reflexivity. Qed.

(** ** Overwriting and removing *)
Lemma list_upd_firstn_skipn (l : items) p v : p < length l ->
  list_upd l p v = firstn p l ++ v :: skipn (S p) l.
Proof. intros H. rewrite list_upd_split by assumption. reflexivity. Qed.
Lemma ow_loop_spec (ws : items) : forall pos (l : items), pos <= length l ->
  let m := Nat.min (length ws) (length l - pos) in
  ow_loop pos l ws = (pos + m, firstn pos l ++ firstn m ws ++ skipn (pos + m) l, skipn m ws).
Proof.
  induction ws as [|w ws IH]; intros pos l Hp; cbn zeta; cbn [ow_loop length].
  - cbn [Nat.min]. rewrite Nat.add_0_r. cbn [firstn app skipn]. now rewrite firstn_skipn.
  - destruct (Nat.ltb_spec pos (length l)) as [Hlt|Hge].
    + rewrite IH by (rewrite list_upd_length; lia). rewrite list_upd_length. cbn zeta.
      replace (Nat.min (S (length ws)) (length l - pos)) with (S (Nat.min (length ws) (length l - S pos))) by lia.
      set (m := Nat.min (length ws) (length l - S pos)).
      rewrite (list_upd_firstn_skipn l pos w Hlt).
      assert (Hf : length (firstn pos l) = pos) by (rewrite firstn_length; lia).
      apply pair_equal_spec; split; [apply pair_equal_spec; split; [lia|]|reflexivity].
      rewrite firstn_app, Hf. replace (S pos - pos) with 1 by lia.
      rewrite firstn_all2 by lia. cbn [firstn].
      replace (skipn (S pos + m) (firstn pos l ++ w :: skipn (S pos) l)) with (skipn (pos + S m) l).
      * rewrite <- app_assoc. reflexivity.
      * rewrite skipn_app, Hf. replace (S pos + m - pos) with (S m) by lia.
        rewrite (skipn_all2 (firstn pos l)) by lia. cbn [app].
        change (skipn (S m) (w :: skipn (S pos) l)) with (skipn m (skipn (S pos) l)).
        rewrite skipn_skipn. f_equal. lia.
    + replace (length l - pos) with 0 by lia. rewrite Nat.min_0_r, Nat.add_0_r. cbn [firstn app skipn].
      rewrite firstn_skipn. reflexivity.
Qed.
Lemma remove_times_spec i k : forall o, ogood o -> i <= length (oitems o) ->
  ogood (remove_times o i k) /\ oitems (remove_times o i k) = firstn i (oitems o) ++ skipn (i + k) (oitems o).
Proof.
  induction k as [|k IH]; intros o Hg Hi; cbn [remove_times].
  - rewrite Nat.add_0_r, firstn_skipn. split; [exact Hg|reflexivity].
  - unfold ol_remove_at. destruct (Nat.ltb_spec i (length (oitems o))) as [Hlt|Hge]; cbn [fst].
    + destruct (IH (ol_unlink o i)) as [Hg2 Hi2].
      * now apply ogood_unlink.
      * cbn [ol_unlink oitems]. rewrite list_del_length by lia. lia.
      * split; [exact Hg2|]. rewrite Hi2. cbn [ol_unlink oitems]. unfold list_del.
        assert (Hf : length (firstn i (oitems o)) = i) by (rewrite firstn_length; lia).
        f_equal.
        -- rewrite firstn_app, Hf, Nat.sub_diag. cbn [firstn]. rewrite app_nil_r. apply firstn_all2. lia.
        -- rewrite skipn_app, Hf. rewrite skipn_all2 by lia. cbn [app]. rewrite skipn_skipn. f_equal. lia.
    + destruct (IH o Hg Hi) as [Hg2 Hi2]. split; [exact Hg2|]. rewrite Hi2. f_equal.
      rewrite !skipn_all2 by lia. reflexivity.
Qed.

(** ** Assignment, step 1 *)
(** The list the code builds: from [pos] on the items are overwritten; what
    remains up to [stop] is removed. *)
Definition overwritten {B} (l : list B) (pos stop : nat) (ws : list B) : list B :=
  firstn pos l ++ ws ++ skipn (Nat.max stop (pos + length ws)) l.
(** Python: the items from [start] to [stop] are replaced. *)
Definition spliced {B} (l : list B) (start stop : nat) (ws : list B) : list B :=
  firstn start l ++ ws ++ skipn (Nat.max start stop) l.

Lemma setslice_step1 o l s i vs :
  kind = ById -> holds o l -> set_indices o s = Some i -> i_step i = 1%Z -> (0 <= i_start i)%Z -> (0 <= i_stop i)%Z ->
  (forall v, In v vs -> ~ has_id l v) ->
  exists o', seq_setslice kind key o s (Some (map Some vs)) = Ok (o', Ret tt) /\ ogood o' /\
    oitems o' = map Some (overwritten l (Nat.min (Z.to_nat (i_start i)) (length l)) (Z.to_nat (i_stop i)) vs).
Proof.
  intros Hk H Es Hst H0 H1 Hno. unfold seq_setslice. rewrite Es.
  destruct i as [ist isp istep ilen]. cbn [i_step i_start i_stop] in *. subst istep.
  cbn [Z.eqb Pos.eqb negb andb].
  destruct (check_all_spec o l vs Hk H) as (b & -> & Hb). cbn [bind].
  destruct b. { destruct (proj1 Hb eq_refl) as (v & Hv & Hid). destruct (Hno v Hv Hid). }
  destruct (Z.ltb_spec isp 0); [lia|].
  pose proof H as (Hg & E & Hbd). pose proof (holds_len _ _ H) as Hlen.
  rewrite Hlen. set (pos := Nat.min (Z.to_nat ist) (length l)).
  pose proof (ow_loop_spec (map Some vs) pos (oitems o)) as Hw. rewrite Hlen in Hw.
  specialize (Hw ltac:(lia)). cbn zeta in Hw. rewrite Hw. rewrite map_length.
  set (m := Nat.min (length vs) (length l - pos)).
  set (l' := firstn pos (oitems o) ++ firstn m (map Some vs) ++ skipn (pos + m) (oitems o)).
  assert (Hl' : length l' = length l).
  { unfold l'. rewrite !app_length, !firstn_length, skipn_length, map_length, Hlen. lia. }
  assert (Hg' : ogood (mkOL l' (otail o) (olen o))).
  { destruct Hg as [Hga Hgb]. split; cbn [olen oitems otail]; [rewrite Hga, Hl'; exact Hlen|].
    destruct (otail o); auto; [|rewrite Hl'; rewrite Hgb; exact Hlen].
    rewrite Hgb in Hlen. cbn in Hlen. apply length_zero_iff_nil. lia. }
  unfold overwritten.
  destruct (Nat.eqb_spec (pos + m) (length l)) as [He|He].
  - destruct (ogood_append_all (skipn m (map Some vs)) _ Hg') as (o'' & -> & Hi & Hg2). cbn [bind].
    exists o''. split; [reflexivity|]. split; [exact Hg2|]. rewrite Hi. cbn [oitems]. unfold l'.
    rewrite E, skipn_all2 by (rewrite map_length; lia).
    rewrite (skipn_all2 (n := Nat.max _ _)) by lia.
    rewrite !app_nil_r, <- app_assoc, firstn_skipn, firstn_map, <- map_app. reflexivity.
  - assert (Hm : m = length vs) by lia.
    destruct (remove_times_spec (pos + m) (Z.to_nat (isp - Z.of_nat (pos + m))) _ Hg') as [Hg2 Hi].
    { cbn [oitems]. rewrite Hl'. lia. }
    eexists. split; [reflexivity|]. split; [exact Hg2|]. rewrite Hi. cbn [oitems]. unfold l'.
    rewrite firstn_all2 with (l := map Some vs) by (rewrite map_length; lia).
    assert (Hf : length (firstn pos (oitems o) ++ map Some vs) = pos + m).
    { rewrite app_length, firstn_length, map_length, Hlen. lia. }
    rewrite !app_assoc. rewrite firstn_app, Hf, Nat.sub_diag. cbn [firstn].
    rewrite app_nil_r, firstn_all2 by lia.
    rewrite skipn_app, Hf. rewrite skipn_all2 by lia. cbn [app]. rewrite skipn_skipn.
    rewrite E, firstn_map, skipn_map, <- !map_app. f_equal. f_equal. f_equal. lia.
Qed.

Lemma holds_fits o l : holds o l -> fits o.
Proof. intros H. unfold fits. rewrite (holds_len _ _ H). apply H. Qed.
Lemma set_indices_eq o l s : holds o l ->
  set_indices o s =
  match slice_indices s (Z.of_nat (length l)) with
  | None => None
  | Some i => if (i_len i =? 0)%Z then slice_indices s (Z.of_nat (length l) + i_start i) else Some i
  end.
Proof.
  intros H. unfold set_indices. rewrite (fits_uint o (proj1 H) (holds_fits _ _ H)), (holds_len _ _ H). reflexivity.
Qed.

(** ** Extended steps *)
Lemma set_indices_len_lt o l s i : holds o l -> (2 <= length l) -> set_indices o s = Some i ->
  (2 <= i_step i)%Z -> (0 <= i_len i < Z.of_nat (length l))%Z.
Proof.
  intros H Hn. rewrite (set_indices_eq _ _ _ H). set (n := Z.of_nat (length l)).
  destruct (slice_indices s n) as [i1|] eqn:E1; [|discriminate].
  destruct (Z.eqb_spec (i_len i1) 0) as [H0|H0].
  - intros E2 Hs. split; [eapply slice_len_nonneg; eauto|].
    (* span of the second selection is at most n *)
    destruct (slice_step _ _ _ E1) as [S1 _]. destruct (slice_step _ _ _ E2) as [S2 _].
    assert (Hspan : (i_stop i - i_start i <= n)%Z).
    { revert E1 E2. unfold slice_indices. rewrite <- S2.
      destruct (Z.eqb_spec (i_step i) 0); [lia|]. intros [= <-]. cbn [i_start]. intros E2.
      injection E2 as E2. rewrite <- E2. cbn [i_start i_stop].
      assert (Hn0 : (0 <= n)%Z) by lia. clear E2. set (st := i_step i) in *. clearbody st n.
      clear - Hn0 Hs.
      destruct (Z.ltb_spec st 0); [lia|].
      destruct (sl_start s) as [a|], (sl_stop s) as [b|]; unfold adjust;
        repeat match goal with
               | |- context [Z.ltb ?x ?y] => destruct (Z.ltb_spec x y)
               | |- context [Z.leb ?x ?y] => destruct (Z.leb_spec x y)
               end; try lia;
        repeat match goal with H : context [Z.leb ?x ?y] |- _ => destruct (Z.leb_spec x y) end; lia. }
    rewrite (slice_len _ _ _ E2). destruct (Z.ltb_spec (i_step i) 0); [lia|].
    destruct (Z.ltb_spec (i_start i) (i_stop i)); [|lia].
    assert ((i_stop i - i_start i - 1) / i_step i <= (n - 1) / 2)%Z.
    { transitivity ((n - 1) / i_step i)%Z; [apply Z.div_le_mono; lia|].
      apply Z.div_le_compat_l; lia. }
    assert ((n - 1) / 2 < n - 1)%Z by (apply Z.div_lt; lia). lia.
  - intros [= <-] Hs. split; [eapply slice_len_nonneg; eauto|].
    destruct (slice_bounds s n i1 (Zle_0_nat _) E1) as [Hb _]. specialize (Hb ltac:(lia)).
    rewrite (slice_len _ _ _ E1). destruct (Z.ltb_spec (i_step i1) 0); [lia|].
    destruct (Z.ltb_spec (i_start i1) (i_stop i1)); [|lia].
    assert ((i_stop i1 - i_start i1 - 1) / i_step i1 <= (n - 1) / 2)%Z.
    { transitivity ((n - 1) / i_step i1)%Z; [apply Z.div_le_mono; lia|].
      apply Z.div_le_compat_l; lia. }
    assert ((n - 1) / 2 < n - 1)%Z by (apply Z.div_lt; lia). lia.
Qed.
Lemma setslice_extended o l s ws k : holds o l -> 2 <= length l -> sl_step s = Some k -> (2 <= k)%Z ->
  seq_setslice kind key o s (Some ws) = Ok (o, Raise EValue).
Proof.
  intros H Hn Hs Hk. unfold seq_setslice. destruct (set_indices o s) as [i|] eqn:E; [|reflexivity].
  assert (Hst : i_step i = k).
  { revert E. rewrite (set_indices_eq _ _ _ H). destruct (slice_indices s (Z.of_nat (length l))) as [i1|] eqn:E1; [|discriminate].
    destruct (i_len i1 =? 0)%Z.
    - intros E2. destruct (slice_step _ _ _ E2) as [-> _]. now rewrite Hs.
    - intros [= <-]. destruct (slice_step _ _ _ E1) as [-> _]. now rewrite Hs. }
  pose proof (set_indices_len_lt _ _ _ _ H Hn E ltac:(lia)) as Hl. pose proof (proj2 (proj2 H)) as Hb.
  destruct i as [ist isp istep ilen]. cbn [i_step i_len] in *. subst istep.
  rewrite (fits_uint o (proj1 H) (holds_fits _ _ H)), (holds_len _ _ H).
  rewrite to_uint_small by lia.
  destruct (Z.eqb_spec k 1); [lia|]. destruct (Z.eqb_spec (Z.of_nat (length l)) ilen); [lia|]. reflexivity.
Qed.

(** ** Deletion *)
Lemma adv_nowrap n k : forall pos, pos + k < n -> adv n k pos = Ok (pos + k).
Proof.
  intros pos Hp. unfold adv.
  assert (H1 : forall k pos, pos + k < n -> adv1 n k pos = (0, pos + k)).
  { clear. induction k as [|k IH]; intros pos Hp; cbn [adv1]; [now rewrite Nat.add_0_r|].
    destruct (Nat.eqb_spec pos n); [lia|]. rewrite IH by lia. f_equal. lia. }
  rewrite H1 by exact Hp. destruct (Nat.eqb_spec (pos + k) n); [lia|]. reflexivity.
Qed.
Lemma mark_loop_length n step : forall k pos (l l' : items) d,
  mark_loop n k step pos l = Ok (l', d) -> length l' = length l.
Proof.
  induction k as [|k IH]; intros pos l l' d; cbn [mark_loop].
  - now intros [= <- _].
  - destruct (pos =? n); [now intros [= <- _]|].
    destruct (adv n step pos) as [p| |]; cbn [bind]; try discriminate.
    intros E. apply IH in E. now rewrite E, list_upd_length.
Qed.
(** A deleted slice never shortens the list. *)
Lemma delslice_length o s o' r : seq_delslice o s = Ok (o', r) -> length (oitems o') = length (oitems o).
Proof.
  unfold seq_delslice. destruct (set_indices o s) as [[ist isp istep ilen]|]; [|now intros [= <- _]].
  destruct (mark_loop _ _ _ _ _) as [[l' d]| |] eqn:E; cbn [bind]; try discriminate.
  apply mark_loop_length in E. destruct d.
  - destruct (sweep None l') as [[[x|]|]| |]; cbn [bind]; try discriminate; try (intros [= <- _]; exact E).
    intros [= <- _]. unfold ol_remove_at. cbn [oitems].
    destruct (Nat.ltb_spec (length (oitems o)) (length l')); [lia|]. exact E.
  - intros [= <- _]. exact E.
Qed.
Lemma sweep_ub (it : items) : forall prev p, nth_error it p = Some None -> S p < length it -> sweep prev it = UB.
Proof.
  induction it as [|x it IH]; intros prev p Hp Hl; [destruct p; discriminate|].
  cbn [sweep]. destruct prev as [[y|]|]; try reflexivity;
  (destruct p as [|p]; cbn in Hp, Hl; [injection Hp as ->; destruct it; [cbn in Hl; lia|reflexivity]|apply IH with p; auto; lia]).
Qed.
Lemma sweep_ok (it : items) l : forall prev, it = map Some l -> prev <> Some None ->
  exists q, sweep prev it = Ok q /\ q <> Some None.
Proof.
  revert l. induction it as [|x it IH]; intros l prev E Hp; cbn [sweep].
  - now exists prev.
  - destruct l as [|y l]; [discriminate|]. cbn in E. injection E as -> E.
    destruct prev as [[z|]|]; try congruence; apply (IH l); auto; discriminate.
Qed.
Lemma sweep_last (it : items) l : forall prev, it = map Some l ++ [None] -> prev <> Some None ->
  sweep prev it = Ok (Some None).
Proof.
  revert l. induction it as [|x it IH]; intros l prev E Hp; [now destruct l|]. cbn [sweep].
  destruct l as [|y l]; cbn in E; injection E as -> E.
  - subst it. destruct prev as [[z|]|]; try congruence; reflexivity.
  - destruct prev as [[z|]|]; try congruence; apply (IH l); auto; discriminate.
Qed.
Lemma nth_error_list_upd (l : items) p q v : nth_error (list_upd l p v) q =
  if p =? q then (if p <? length l then Some v else None) else nth_error l q.
Proof.
  revert p q; induction l as [|x l IH]; intros [|p] [|q]; cbn; auto; try now destruct (p =? q).
  now rewrite IH.
Qed.
(** Items once marked stay marked. *)
Lemma mark_loop_keeps n step q : forall k pos (l l' : items) d,
  mark_loop n k step pos l = Ok (l', d) -> nth_error l q = Some None -> nth_error l' q = Some None.
Proof.
  induction k as [|k IH]; intros pos l l' d; cbn [mark_loop].
  - now intros [= <- _].
  - destruct (pos =? n); [now intros [= <- _]|].
    destruct (adv n step pos) as [p| |]; cbn [bind]; try discriminate.
    intros E Hq. apply (IH _ _ _ _ E). rewrite nth_error_list_upd. destruct (Nat.eqb_spec pos q) as [->|]; [|exact Hq].
    assert (q < length l) by (apply nth_error_Some; congruence).
    destruct (Nat.ltb_spec q (length l)); [reflexivity|lia].
Qed.
Lemma mark_loop_done n step : forall k pos (l : items),
  (forall j, j < k -> pos + j * step < n) ->
  match mark_loop n k step pos l with Ok (_, d) => d = true | UB => True | NoFuel => False end.
Proof.
  induction k as [|k IH]; intros pos l Hr; cbn [mark_loop]; [reflexivity|].
  pose proof (Hr 0 ltac:(lia)) as H0. cbn in H0. destruct (Nat.eqb_spec pos n); [lia|].
  destruct k as [|k].
  - unfold adv. destruct (adv1 n step pos) as [k' p'].
    assert (Ha : forall k p, match adv2 n k p with NoFuel => False | _ => True end).
    { clear. induction k as [|k IH]; intros p; cbn [adv2]; [exact I|]. destruct (p =? n); [exact I|apply IH]. }
    specialize (Ha k' (if p' =? n then 0 else p')). destruct (adv2 n k' _); cbn [bind mark_loop]; auto.
  - pose proof (Hr 1 ltac:(lia)). rewrite adv_nowrap by lia. cbn [bind]. apply IH.
    intros j Hj. specialize (Hr (S j) ltac:(lia)). cbn in Hr. lia.
Qed.

Lemma delslice_pos o l s i : holds o l ->
  slice_indices s (Z.of_nat (length l)) = Some i -> (0 < i_step i)%Z -> (0 < i_len i)%Z ->
  S (Z.to_nat (i_start i)) < length l -> seq_delslice o s = UB.
Proof.
  intros H E Hs Hl Hst. pose proof (fun k => slice_in_range s _ i k (Zle_0_nat _) E) as Hr.
  destruct (slice_bounds s _ i (Zle_0_nat _) E) as [Hb _]. specialize (Hb Hs).
  unfold seq_delslice. rewrite (set_indices_eq _ _ _ H), E.
  destruct i as [ist isp istep ilen]. cbn [i_step i_start i_stop i_len] in *.
  destruct (Z.eqb_spec ilen 0); [lia|]. rewrite (holds_len _ _ H).
  rewrite Nat.min_l by lia.
  pose proof (mark_loop_done (length l) (Z.to_nat istep) (Z.to_nat ilen) (Z.to_nat ist) (oitems o)) as Hd.
  destruct (mark_loop (length l) (Z.to_nat ilen) (Z.to_nat istep) (Z.to_nat ist) (oitems o)) as [[l' d]| |] eqn:Em; cbn [bind].
  - rewrite Hd by (intros j Hj; specialize (Hr j ltac:(lia)); unfold pick in Hr; cbn [i_step i_start] in Hr; nia).
    assert (Hn : nth_error l' (Z.to_nat ist) = Some None).
    { destruct (Z.to_nat ilen) as [|k] eqn:Ek; [lia|]. cbn [mark_loop] in Em.
      destruct (Nat.eqb_spec (Z.to_nat ist) (length l)); [lia|].
      destruct (adv (length l) (Z.to_nat istep) (Z.to_nat ist)); cbn [bind] in Em; try discriminate.
      eapply mark_loop_keeps; [exact Em|]. rewrite nth_error_list_upd, Nat.eqb_refl, (holds_len _ _ H).
      destruct (Nat.ltb_spec (Z.to_nat ist) (length l)); [reflexivity|lia]. }
    rewrite (sweep_ub l' None (Z.to_nat ist) Hn); [reflexivity|].
    apply mark_loop_length in Em. rewrite Em, (holds_len _ _ H). lia.
  - reflexivity.
  - exfalso. apply Hd. intros j Hj; specialize (Hr j ltac:(lia)); unfold pick in Hr; cbn [i_step i_start] in Hr; nia.
Qed.

Lemma firstn_last l x l' : l = l' ++ [x] -> list_upd (map Some l) (length l') None = map Some l' ++ [None].
Proof.
  intros ->. rewrite map_app. cbn [map]. rewrite <- (map_length (@Some A) l'). apply list_upd_app.
Qed.
Lemma adv2_ok n k pos : pos + k <= n -> adv2 n k pos = Ok (pos + k).
Proof.
  revert pos; induction k as [|k IH]; intros pos H; cbn [adv2]; [now rewrite Nat.add_0_r|].
  destruct (Nat.eqb_spec pos n); [lia|]. rewrite IH by lia. f_equal. lia.
Qed.
Lemma adv2_bad n k pos : pos <= n -> n < pos + k -> adv2 n k pos = UB.
Proof.
  revert pos; induction k as [|k IH]; intros pos Hp H; [lia|]. cbn [adv2].
  destruct (Nat.eqb_spec pos n); [reflexivity|]. apply IH; lia.
Qed.
(** Only the last item is selected: it becomes NULL and stays. *)
Lemma delslice_last o l x s i : holds o (l ++ [x]) ->
  slice_indices s (Z.of_nat (length (l ++ [x]))) = Some i -> (0 < i_step i)%Z -> (0 < i_len i)%Z ->
  Z.to_nat (i_start i) = length l ->
  seq_delslice o s =
  if (i_step i <=? Z.of_nat (length l) + 2)%Z
  then Ok (mkOL (map Some l ++ [None]) (otail o) (olen o), Ret tt) else UB.
Proof.
  intros H E Hs Hl Hst. pose proof (fun k => slice_in_range s _ i k (Zle_0_nat _) E) as Hr.
  destruct (slice_bounds s _ i (Zle_0_nat _) E) as [Hb _]. specialize (Hb Hs).
  unfold seq_delslice. rewrite (set_indices_eq _ _ _ H), E.
  destruct i as [ist isp istep ilen]. cbn [i_step i_start i_stop i_len] in *.
  destruct (Z.eqb_spec ilen 0); [lia|]. rewrite (holds_len _ _ H).
  rewrite app_length in *. cbn [length] in *. rewrite Hst, Nat.min_l by lia.
  assert (ilen = 1)%Z.
  { destruct (Z.eq_dec ilen 1); [assumption|]. specialize (Hr 1 ltac:(lia)). unfold pick in Hr. cbn [i_step i_start] in Hr. nia. }
  subst ilen. change (Z.to_nat 1) with 1. cbn [mark_loop].
  destruct (Nat.eqb_spec (length l) (length l + 1)); [lia|].
  unfold adv. destruct (Z.to_nat istep) as [|k] eqn:Ek; [lia|]. cbn [adv1].
  destruct (Nat.eqb_spec (length l) (length l + 1)); [lia|].
  replace (adv1 (length l + 1) k (S (length l))) with (k, S (length l)).
  2:{ destruct k; [reflexivity|]. cbn [adv1]. destruct (Nat.eqb_spec (S (length l)) (length l + 1)); [reflexivity|lia]. }
  destruct (Nat.eqb_spec (S (length l)) (length l + 1)); [|lia].
  destruct (Z.leb_spec istep (Z.of_nat (length l) + 2)) as [Hle|Hgt].
  - rewrite adv2_ok by lia. cbn [bind mark_loop].
    rewrite (proj1 (proj2 H)), (firstn_last _ x l eq_refl).
    rewrite (sweep_last _ l None eq_refl) by discriminate. cbn [bind].
    unfold ol_remove_at. cbn [oitems]. rewrite app_length, map_length. cbn [length].
    destruct (Nat.ltb_spec (length l + 1) (length l + 1)); [lia|]. reflexivity.
  - rewrite adv2_bad by lia. reflexivity.
Qed.
(** Nothing is selected, and nothing by the second computation either. *)
Lemma delslice_none o l s i : holds o l -> set_indices o s = Some i -> i_len i = 0%Z ->
  seq_delslice o s = Ok (o, Ret tt).
Proof.
  intros H E Hl. unfold seq_delslice. rewrite E. destruct i as [ist isp istep ilen]. cbn [i_len] in Hl. subst ilen.
  cbn [Z.to_nat mark_loop bind].
  destruct (sweep_ok (oitems o) l None (proj1 (proj2 H)) ltac:(discriminate)) as (q & -> & Hq). cbn [bind].
  replace (mkOL (oitems o) (otail o) (olen o)) with o by (destruct o; reflexivity).
  destruct q as [[y|]|]; auto; congruence.
Qed.
End Facts2.
