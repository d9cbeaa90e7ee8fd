(** Facts about the Python sequence layer. *)
From Verif Require Import CStr CStrFacts HSListModel ObjListModel ObjListFacts PySeqModel.

(** * Integers *)
Lemma to_uint_small z : (0 <= z < 2^32)%Z -> to_uint z = z.
Proof. intros H. unfold to_uint. now apply Z.mod_small. Qed.
Lemma to_int_small z : (-2^31 <= z < 2^31)%Z -> to_int z = z.
Proof.
  intros H. unfold to_int, to_uint.
  destruct (Z.ltb_spec z 0) as [Hn|Hn].
  - replace (z mod 2^32)%Z with (z + 2^32)%Z.
    + destruct (Z.ltb_spec (z + 2^32) (2^31)); lia.
    + apply Zmod_unique with (-1)%Z; lia.
  - rewrite Z.mod_small by lia. destruct (Z.ltb_spec z (2^31)); lia.
Qed.
Lemma to_int_to_uint z : to_uint (to_int z) = to_uint z.
Proof.
  unfold to_int. set (u := to_uint z).
  assert (Hu : (0 <= u < 2^32)%Z) by (apply Z.mod_pos_bound; lia).
  destruct (Z.ltb_spec u (2^31)).
  - now apply to_uint_small.
  - unfold to_uint. replace (u - 2^32)%Z with (u + (-1) * 2^32)%Z by lia. rewrite Z_mod_plus_full.
    now apply Z.mod_small.
Qed.

(** * Slices *)
(** The [k]-th selected position. *)
Definition pick (i : indices) (k : nat) : Z := (i_start i + Z.of_nat k * i_step i)%Z.

(** What the indices of a slice are: a position of the range is selected
    exactly if it lies before the stop (in the direction of the step). *)
Lemma slice_step s n i : slice_indices s n = Some i ->
  i_step i = match sl_step s with Some k => k | None => 1%Z end /\ i_step i <> 0%Z.
Proof.
  unfold slice_indices. destruct (Z.eqb_spec (match sl_step s with Some k => k | None => 1%Z end) 0); [discriminate|].
  intros [= <-]. cbn [i_step]. split; [reflexivity|assumption].
Qed.
Lemma adjust_range step n z : (0 <= n)%Z ->
  ((0 < step -> 0 <= adjust step n z <= n) /\ (step < 0 -> -1 <= adjust step n z <= n - 1))%Z.
Proof.
  intros Hn. unfold adjust.
  destruct (Z.ltb_spec z 0), (Z.ltb_spec (z + n) 0), (Z.ltb_spec step 0), (Z.leb_spec n z); split; lia.
Qed.
Lemma slice_bounds s n i : (0 <= n)%Z -> slice_indices s n = Some i ->
  ((0 < i_step i -> 0 <= i_start i <= n /\ 0 <= i_stop i <= n) /\
   (i_step i < 0 -> -1 <= i_start i <= n - 1 /\ -1 <= i_stop i <= n - 1))%Z.
Proof.
  intros Hn E. destruct (slice_step _ _ _ E) as [Hs Hs0]. revert E. unfold slice_indices.
  destruct (Z.eqb_spec (match sl_step s with Some k => k | None => 1%Z end) 0); [discriminate|].
  intros [= <-]. cbn [i_start i_stop i_step] in *.
  set (st := match sl_step s with Some k => k | None => 1%Z end) in *.
  destruct (sl_start s) as [a|], (sl_stop s) as [b|];
    repeat match goal with |- context [adjust st n ?z] =>
      let H1 := fresh in let H2 := fresh in
      destruct (adjust_range st n z Hn) as [H1 H2]; generalize dependent (adjust st n z); intros ? H1 H2 end;
    destruct (Z.ltb_spec st 0); split; intros; try lia;
    repeat match goal with H : (_ -> _)%Z |- _ => specialize (H ltac:(lia)) end; lia.
Qed.
Lemma slice_len s n i : slice_indices s n = Some i ->
  i_len i = (if i_step i <? 0
             then (if i_stop i <? i_start i then (i_start i - i_stop i - 1) / (- i_step i) + 1 else 0)
             else (if i_start i <? i_stop i then (i_stop i - i_start i - 1) / i_step i + 1 else 0))%Z.
Proof.
  unfold slice_indices.
  destruct (Z.eqb_spec (match sl_step s with Some k => k | None => 1%Z end) 0); [discriminate|].
  intros [= <-]. reflexivity.
Qed.
Lemma slice_len_nonneg s n i : slice_indices s n = Some i -> (0 <= i_len i)%Z.
Proof.
  intros E. rewrite (slice_len _ _ _ E). destruct (slice_step _ _ _ E) as [_ H0].
  destruct (Z.ltb_spec (i_step i) 0).
  - destruct (Z.ltb_spec (i_stop i) (i_start i)); [|lia].
    assert (0 <= (i_start i - i_stop i - 1) / - i_step i)%Z by (apply Z.div_pos; lia). lia.
  - destruct (Z.ltb_spec (i_start i) (i_stop i)); [|lia].
    assert (0 <= (i_stop i - i_start i - 1) / i_step i)%Z by (apply Z.div_pos; lia). lia.
Qed.
(** [k] counts a selected position iff it is before the stop. *)
Lemma slice_selects s n i k : slice_indices s n = Some i ->
  (Z.of_nat k < i_len i <->
   (if i_step i <? 0 then i_stop i < pick i k else pick i k < i_stop i))%Z.
Proof.
  intros E. rewrite (slice_len _ _ _ E). destruct (slice_step _ _ _ E) as [_ H0]. unfold pick.
  destruct (Z.ltb_spec (i_step i) 0) as [Hs|Hs].
  - destruct (Z.ltb_spec (i_stop i) (i_start i)) as [Hlt|Hge].
    + set (q := ((i_start i - i_stop i - 1) / - i_step i)%Z).
      assert (Hq : (i_start i - i_stop i - 1 = (- i_step i) * q + (i_start i - i_stop i - 1) mod (- i_step i))%Z)
        by (apply Z.div_mod; lia).
      assert (Hm : (0 <= (i_start i - i_stop i - 1) mod (- i_step i) < - i_step i)%Z) by (apply Z.mod_pos_bound; lia).
      split; intros Hk; nia.
    + split; intros Hk; nia.
  - destruct (Z.ltb_spec (i_start i) (i_stop i)) as [Hlt|Hge].
    + set (q := ((i_stop i - i_start i - 1) / i_step i)%Z).
      assert (Hq : (i_stop i - i_start i - 1 = i_step i * q + (i_stop i - i_start i - 1) mod i_step i)%Z)
        by (apply Z.div_mod; lia).
      assert (Hm : (0 <= (i_stop i - i_start i - 1) mod i_step i < i_step i)%Z) by (apply Z.mod_pos_bound; lia).
      split; intros Hk; nia.
    + split; intros Hk; nia.
Qed.
(** Selected positions are positions of the list. *)
Lemma slice_in_range s n i k : (0 <= n)%Z -> slice_indices s n = Some i ->
  (Z.of_nat k < i_len i)%Z -> (0 <= pick i k < n)%Z.
Proof.
  intros Hn E Hk. apply (slice_selects _ _ _ _ E) in Hk.
  destruct (slice_bounds _ _ _ Hn E) as [Hp Hm]. destruct (slice_step _ _ _ E) as [_ H0].
  revert Hk. unfold pick. destruct (Z.ltb_spec (i_step i) 0) as [Hs|Hs]; intros Hk.
  - specialize (Hm Hs). nia.
  - specialize (Hp ltac:(lia)). nia.
Qed.

(** * Sequences *)
Section Facts.
Context {A : Type} (same : A -> A -> bool) (kind : ikind) (key : A -> option str) (valid : A -> bool).
Implicit Types (o : ol (option A)) (l : list A).

(** [holds o l]: the wrapped list is in order and its items are [l], none of
    them NULL; fewer than 2^31 of them. *)
Definition holds o l : Prop :=
  ogood o /\ oitems o = map Some l /\ (Z.of_nat (length l) < 2^31)%Z.

Lemma holds_olen o l : holds o l -> olen o = length l.
Proof. intros ([H _] & E & _). rewrite H, E. apply map_length. Qed.
Lemma holds_len o l : holds o l -> length (oitems o) = length l.
Proof. intros (_ & E & _). rewrite E. apply map_length. Qed.

Lemma upos_in o l z : holds o l -> (0 <= z < Z.of_nat (length l))%Z -> upos o z = Z.to_nat z.
Proof.
  intros H Hz. pose proof (proj2 (proj2 H)). unfold upos. rewrite (holds_len _ _ H).
  rewrite to_uint_small by lia. destruct (Z.ltb_spec z (Z.of_nat (length l))); lia.
Qed.
Lemma upos_out o l z : holds o l -> (Z.of_nat (length l) <= to_uint z)%Z -> upos o z = length l.
Proof.
  intros H Hz. unfold upos. rewrite (holds_len _ _ H).
  destruct (Z.ltb_spec (to_uint z) (Z.of_nat (length l))); lia.
Qed.
Lemma to_uint_neg z : (-2^31 <= z < 0)%Z -> to_uint z = (z + 2^32)%Z.
Proof. intros H. unfold to_uint. symmetry. apply Zmod_unique with (-1)%Z; lia. Qed.

(** Python's indexing: the position an index designates. *)
Definition py_pos (len : nat) (i : Z) : option nat :=
  (if (0 <=? i) && (i <? Z.of_nat len) then Some (Z.to_nat i)
   else if (- Z.of_nat len <=? i) && (i <? 0) then Some (Z.to_nat (i + Z.of_nat len))
   else None)%Z%bool.
Definition py_at l (i : Z) : pyret A :=
  match py_pos (length l) i with
  | Some p => match nth_error l p with Some x => Ret x | None => Raise EIndex end
  | None => Raise EIndex
  end.

Lemma seq_getitem_gen o l index : holds o l ->
  seq_getitem o index =
  let i := to_int (if index <? 0 then Z.of_nat (length l) + index else index)%Z in
  if ((0 <=? i) && (i <? Z.of_nat (length l)))%Z%bool
  then match nth_error l (Z.to_nat i) with Some x => Ret x | None => Raise EIndex end
  else Raise EIndex.
Proof.
  intros H. unfold seq_getitem. rewrite (holds_olen _ _ H), ol_get_nth.
  set (i := to_int _). cbn zeta.
  assert (Hi : (-2^31 <= i < 2^31)%Z).
  { subst i. unfold to_int. set (u := to_uint _).
    assert (0 <= u < 2^32)%Z by (apply Z.mod_pos_bound; lia). destruct (Z.ltb_spec u (2^31)); lia. }
  destruct (Z.leb_spec 0 i), (Z.ltb_spec i (Z.of_nat (length l))); cbn [andb].
  - rewrite (upos_in _ _ _ H) by lia. rewrite (proj1 (proj2 H)), nth_error_map.
    now destruct (nth_error l (Z.to_nat i)).
  - rewrite (upos_out _ _ _ H) by (rewrite to_uint_small; lia).
    rewrite (proj1 (proj2 H)), nth_error_map. now rewrite (proj2 (nth_error_None l _)) by lia.
  - rewrite (upos_out _ _ _ H).
    + rewrite (proj1 (proj2 H)), nth_error_map. now rewrite (proj2 (nth_error_None l _)) by lia.
    + rewrite to_uint_neg by lia. pose proof (proj2 (proj2 H)). lia.
  - lia.
Qed.

Lemma seq_getitem_spec o l index : holds o l -> (-2^31 <= index < 2^31)%Z ->
  seq_getitem o index = py_at l index.
Proof.
  intros H Hi. rewrite (seq_getitem_gen _ _ _ H). cbn zeta. unfold py_at, py_pos.
  pose proof (proj2 (proj2 H)) as Hl.
  rewrite to_int_small by (destruct (Z.ltb_spec index 0); lia).
  destruct (Z.ltb_spec index 0) as [Hn|Hn].
  - destruct (Z.leb_spec 0 index); [lia|]. cbn [andb].
    destruct (Z.leb_spec 0 (Z.of_nat (length l) + index)), (Z.leb_spec (- Z.of_nat (length l)) index); try lia; cbn [andb].
    + destruct (Z.ltb_spec (Z.of_nat (length l) + index) (Z.of_nat (length l))); [|lia].
      now rewrite Z.add_comm.
    + reflexivity.
  - destruct (Z.leb_spec 0 index); [|lia]. cbn [andb].
    destruct (Z.ltb_spec index (Z.of_nat (length l))); cbn [andb]; [reflexivity|].
    now rewrite Bool.andb_false_r.
Qed.

(** ** Assignment and deletion by index *)
Lemma idx_beyond_spec o l index : holds o l -> (-2^31 <= index < 2^31)%Z ->
  idx_beyond o index = (Z.of_nat (length l) <=? index)%Z.
Proof.
  intros H Hi. pose proof (proj2 (proj2 H)). unfold idx_beyond. rewrite (holds_olen _ _ H).
  rewrite (to_int_small index) by lia. rewrite to_int_small by lia.
  destruct (Z.ltb_spec (Z.of_nat (length l) - 1) index), (Z.leb_spec (Z.of_nat (length l)) index); lia.
Qed.
Lemma list_upd_map l p x : list_upd (map Some l) p (Some x) = map Some (list_upd l p x).
Proof. revert p; induction l as [|y l IH]; intros [|p]; cbn; auto. now rewrite IH. Qed.
Lemma list_del_map l p : list_del (map (@Some A) l) p = map Some (list_del l p).
Proof. unfold list_del. now rewrite map_app, firstn_map, skipn_map. Qed.

Lemma holds_set o l p x : holds o l -> p < length l ->
  holds (fst (ol_set o p (Some x))) (list_upd l p x).
Proof.
  intros H Hp. pose proof H as (Hg & E & Hb).
  destruct (ol_step_spec (osame same) o (LSet p (Some x)) Hg I) as (o' & out & Es & Hg' & Hsp).
  cbn [ol_step] in Es. injection Es as <- <-. cbn [lspec] in Hsp.
  rewrite (holds_len _ _ H) in Hsp. destruct Hsp as [(_ & Hi & _)|(Hc & _)]; [|lia].
  split; [exact Hg'|]. split.
  - rewrite Hi, E, <- list_upd_map. symmetry. apply list_upd_split. rewrite map_length. exact Hp.
  - now rewrite list_upd_length.
Qed.
Lemma set_past o l x : holds o l -> fst (ol_set o (length l) (Some x)) = o.
Proof.
  intros H. unfold ol_set. rewrite (holds_len _ _ H). destruct (Nat.ltb_spec (length l) (length l)); [lia|]. reflexivity.
Qed.
Lemma holds_del o l p : holds o l -> p < length l ->
  holds (fst (ol_remove_at o p)) (firstn p l ++ skipn (S p) l).
Proof.
  intros H Hp. pose proof H as (Hg & E & Hb).
  unfold ol_remove_at. rewrite (holds_len _ _ H). destruct (Nat.ltb_spec p (length l)); [|lia]. cbn [fst].
  split; [apply ogood_unlink; [exact Hg|rewrite (holds_len _ _ H); exact Hp]|]. split.
  - unfold ol_unlink. cbn [oitems]. rewrite E, list_del_map. reflexivity.
  - change (firstn p l ++ skipn (S p) l) with (list_del l p). rewrite list_del_length by exact Hp. lia.
Qed.
Lemma del_past o l : holds o l -> fst (ol_remove_at o (length l)) = o.
Proof.
  intros H. unfold ol_remove_at. rewrite (holds_len _ _ H).
  destruct (Nat.ltb_spec (length l) (length l)); [lia|]. reflexivity.
Qed.
Lemma upos_neg o l z : holds o l -> (-2^31 <= z < 0)%Z -> upos o z = length l.
Proof.
  intros H Hz. apply (upos_out _ _ _ H). rewrite to_uint_neg by lia. pose proof (proj2 (proj2 H)). lia.
Qed.

(** ** Reading a slice *)
Notation items := (list (option A)).
Lemma skipn_cons_nth (all : items) p x : nth_error all p = Some x -> skipn p all = x :: skipn (S p) all.
Proof.
  revert p; induction all as [|y all IH]; intros [|p] H; try discriminate; cbn in *.
  - now injection H as ->.
  - now apply IH.
Qed.
Lemma adv_wrap_nowrap (all : items) k : forall p, p + k < length all ->
  adv_wrap all (skipn p all) k = skipn (p + k) all.
Proof.
  induction k as [|k IH]; intros p Hp; cbn [adv_wrap].
  - now rewrite Nat.add_0_r.
  - destruct (nth_error all p) as [x|] eqn:E; [|apply nth_error_None in E; lia].
    rewrite (skipn_cons_nth _ _ _ E).
    destruct (nth_error all (S p)) as [y|] eqn:E2; [|apply nth_error_None in E2; lia].
    rewrite (skipn_cons_nth _ _ _ E2). rewrite <- (skipn_cons_nth _ _ _ E2).
    rewrite IH by lia. f_equal. lia.
Qed.
Lemma gs_loop_pos (all : items) istep : (0 < istep <= int_max)%Z ->
  forall n p ret, ogood ret -> (forall k, k < n -> p + k * Z.to_nat istep < length all) ->
  exists r t, gs_loop all (skipn p all) istep n ret = Ok r /\ ogood r /\
    oitems r = oitems ret ++ t /\ length t = n /\
    forall k, k < n -> nth_error t k = nth_error all (p + k * Z.to_nat istep).
Proof.
  intros Hs. induction n as [|n IH]; intros p ret Hg Hr; cbn [gs_loop].
  - exists ret, []. rewrite app_nil_r. repeat split; auto; try apply Hg. intros k Hk; lia.
  - pose proof (Hr 0 ltac:(lia)) as H0. cbn in H0. rewrite Nat.add_0_r in H0.
    destruct (nth_error all p) as [x|] eqn:E; [|apply nth_error_None in E; lia].
    rewrite (skipn_cons_nth _ _ _ E). rewrite <- (skipn_cons_nth _ _ _ E).
    destruct (ogood_append ret x Hg) as (r1 & -> & Hi & Hg1). cbn [bind].
    destruct (Z.ltb_spec int_max istep); [lia|].
    destruct n as [|n].
    + cbn [gs_loop]. exists r1, [x]. split; [reflexivity|]. split; [exact Hg1|]. split; [exact Hi|]. split; [reflexivity|].
      intros [|k] Hk; [|lia]. cbn. now rewrite Nat.add_0_r, E.
    + rewrite adv_wrap_nowrap by (specialize (Hr 1 ltac:(lia)); lia).
      destruct (IH (p + Z.to_nat istep) r1 Hg1) as (r & t & Er & Hgr & Hir & Hlt & Hn).
      { intros k Hk. specialize (Hr (S k) ltac:(lia)). cbn in Hr. lia. }
      rewrite Er. exists r, (x :: t). split; [reflexivity|]. split; [exact Hgr|]. split.
      { rewrite Hir, Hi, <- app_assoc. reflexivity. }
      split; [cbn; lia|].
      intros [|k] Hk; cbn [nth_error].
      * cbn. now rewrite Nat.add_0_r, E.
      * rewrite Hn by lia. f_equal. cbn. lia.
Qed.
Lemma gs_loop_neg (all : items) istep p x : (istep < 0)%Z -> nth_error all p = Some x ->
  forall n ret, ogood ret ->
  exists r, gs_loop all (skipn p all) istep n ret = Ok r /\ ogood r /\
    oitems r = oitems ret ++ repeat x n.
Proof.
  intros Hs E. replace (Z.to_nat istep) with 0 by lia.
  induction n as [|n IH]; intros ret Hg; cbn [gs_loop].
  - exists ret. now rewrite app_nil_r.
  - rewrite (skipn_cons_nth _ _ _ E). rewrite <- (skipn_cons_nth _ _ _ E).
    destruct (ogood_append ret x Hg) as (r1 & -> & Hi & Hg1). cbn [bind].
    destruct (Z.ltb_spec int_max istep); [unfold int_max in *; lia|].
    replace (Z.to_nat istep) with 0 by lia. cbn [adv_wrap].
    destruct (IH r1 Hg1) as (r & -> & Hgr & Hir). exists r. split; [reflexivity|]. split; [exact Hgr|].
    rewrite Hir, Hi, <- app_assoc. reflexivity.
Qed.
Lemma gs_loop_big (all : items) istep p x n ret : (int_max < istep)%Z -> nth_error all p = Some x -> ogood ret ->
  gs_loop all (skipn p all) istep (S n) ret = UB.
Proof.
  intros Hs E Hg. cbn [gs_loop]. rewrite (skipn_cons_nth _ _ _ E).
  destruct (ogood_append ret x Hg) as (r1 & -> & Hi & Hg1). cbn [bind].
  now destruct (Z.ltb_spec int_max istep); [|lia].
Qed.

(** [reads l i r]: [r] are the selected items of [l], in the order of the selection. *)
Definition reads (l : items) (i : indices) (r : items) : Prop :=
  Z.of_nat (length r) = i_len i /\
  forall k, (Z.of_nat k < i_len i)%Z -> nth_error r k = nth_error l (Z.to_nat (pick i k)).

Definition fits o : Prop := (Z.of_nat (length (oitems o)) < 2^31)%Z.
Lemma fits_uint o : ogood o -> fits o -> to_uint (Z.of_nat (olen o)) = Z.of_nat (length (oitems o)).
Proof. intros [-> _] H. unfold fits in H. apply to_uint_small. lia. Qed.

Lemma seq_getslice_pos o s i : ogood o -> fits o ->
  slice_indices s (Z.of_nat (length (oitems o))) = Some i -> (0 < i_step i <= int_max)%Z ->
  exists r, seq_getslice o s = Ok (Ret r) /\ ogood r /\ reads (oitems o) i (oitems r).
Proof.
  intros Hg Hf E Hs. unfold seq_getslice. rewrite (fits_uint _ Hg Hf), E.
  pose proof (slice_len_nonneg _ _ _ E) as Hl.
  pose proof (fun k => slice_in_range s _ i k (Zle_0_nat _) E) as Hr.
  destruct (slice_bounds s _ i (Zle_0_nat _) E) as [Hb _]. specialize (Hb ltac:(lia)).
  destruct i as [ist isp istep ilen]. cbn [i_step i_start i_stop i_len] in *.
  destruct (oitems o) as [|a0 all0] eqn:Eo.
  - exists ol_create. split; [reflexivity|]. split; [apply ogood_create|].
    assert (ilen = 0)%Z.
    { destruct (Z.eq_dec ilen 0) as [|Hne]; [assumption|]. specialize (Hr 0 ltac:(lia)). cbn in Hr. lia. }
    subst. split; [reflexivity|]. intros k Hk. cbn [i_len] in Hk. lia.
  - rewrite <- Eo in *. set (all := oitems o) in *.
    destruct (Z.ltb_spec (Z.of_nat (length all)) ist); [lia|].
    destruct (gs_loop_pos all istep Hs (Z.to_nat ilen) (Z.to_nat ist) ol_create ogood_create) as (r & t & Er & Hgr & Hi & Hlt & Hn).
    { intros k Hk. specialize (Hr k ltac:(lia)). unfold pick in Hr. cbn [i_step i_start] in Hr. nia. }
    rewrite Er. cbn [bind]. exists r. split; [reflexivity|]. split; [exact Hgr|].
    cbn [oitems ol_create app] in Hi. rewrite Hi. split; [cbn [i_len]; lia|].
    cbn [i_len]. intros k Hk. rewrite Hn by lia. f_equal. unfold pick. cbn [i_step i_start]. nia.
Qed.
Lemma seq_getslice_neg o s i : ogood o -> fits o ->
  slice_indices s (Z.of_nat (length (oitems o))) = Some i -> (i_step i < 0)%Z ->
  exists r, seq_getslice o s = Ok (Ret r) /\ ogood r /\
    Z.of_nat (length (oitems r)) = i_len i /\
    forall k, (Z.of_nat k < i_len i)%Z -> nth_error (oitems r) k = nth_error (oitems o) (Z.to_nat (i_start i)).
Proof.
  intros Hg Hf E Hs. unfold seq_getslice. rewrite (fits_uint _ Hg Hf), E.
  pose proof (slice_len_nonneg _ _ _ E) as Hl.
  pose proof (slice_in_range s _ i 0 (Zle_0_nat _) E) as Hr.
  destruct (slice_bounds s _ i (Zle_0_nat _) E) as [_ Hb]. specialize (Hb Hs).
  destruct i as [ist isp istep ilen]. cbn [i_step i_start i_stop i_len] in *. unfold pick in Hr. cbn in Hr.
  destruct (oitems o) as [|a0 all0] eqn:Eo.
  - exists ol_create. split; [reflexivity|]. split; [apply ogood_create|].
    assert (ilen = 0)%Z. { destruct (Z.eq_dec ilen 0) as [|Hne]; [assumption|]. specialize (Hr ltac:(lia)). cbn in Hr. lia. }
    subst. split; [reflexivity|]. intros k Hk. lia.
  - rewrite <- Eo in *. set (all := oitems o) in *.
    destruct (Z.ltb_spec (Z.of_nat (length all)) ist); [lia|].
    destruct (Z.eq_dec ilen 0) as [->|Hne].
    + cbn. exists ol_create. split; [reflexivity|]. split; [apply ogood_create|]. split; [reflexivity|]. intros; lia.
    + specialize (Hr ltac:(lia)).
      destruct (nth_error all (Z.to_nat ist)) as [x|] eqn:Ex; [|apply nth_error_None in Ex; lia].
      destruct (gs_loop_neg all istep (Z.to_nat ist) x Hs Ex (Z.to_nat ilen) ol_create ogood_create) as (r & Er & Hgr & Hi).
      rewrite Er. cbn [bind]. exists r. split; [reflexivity|]. split; [exact Hgr|].
      cbn [oitems ol_create app] in Hi. rewrite Hi. rewrite repeat_length. split; [lia|].
      intros k Hk. apply nth_error_repeat. lia.
Qed.
Lemma seq_getslice_big o s i : ogood o -> fits o ->
  slice_indices s (Z.of_nat (length (oitems o))) = Some i -> (int_max < i_step i)%Z ->
  seq_getslice o s = if (0 <? i_len i)%Z then UB else Ok (Ret ol_create).
Proof.
  intros Hg Hf E Hs. unfold seq_getslice. rewrite (fits_uint _ Hg Hf), E.
  pose proof (slice_len_nonneg _ _ _ E) as Hl.
  pose proof (slice_in_range s _ i 0 (Zle_0_nat _) E) as Hr.
  destruct (slice_bounds s _ i (Zle_0_nat _) E) as [Hb _]. specialize (Hb ltac:(unfold int_max in *; lia)).
  destruct i as [ist isp istep ilen]. cbn [i_step i_start i_stop i_len] in *. unfold pick in Hr. cbn in Hr.
  destruct (oitems o) as [|a0 all0] eqn:Eo.
  - destruct (Z.ltb_spec 0 ilen); [|reflexivity]. specialize (Hr ltac:(lia)). cbn in Hr. lia.
  - rewrite <- Eo in *. set (all := oitems o) in *.
    destruct (Z.ltb_spec (Z.of_nat (length all)) ist); [lia|].
    destruct (Z.ltb_spec 0 ilen) as [Hp|Hp].
    + specialize (Hr ltac:(lia)).
      destruct (nth_error all (Z.to_nat ist)) as [x|] eqn:Ex; [|apply nth_error_None in Ex; lia].
      destruct (Z.to_nat ilen) as [|m] eqn:Em; [lia|].
      now rewrite (gs_loop_big all istep _ x m ol_create Hs Ex ogood_create).
    + replace (Z.to_nat ilen) with 0 by lia. reflexivity.
Qed.

End Facts.
