(** Slices with a negative step: assignment and deletion. *)
From Verif Require Import CStr CStrFacts HSListModel ObjListModel ObjListFacts PySeqModel PySeqFacts PySeqFacts2 SpecI.

Section SpecI2.
Context {A : Type} (kind : ikind) (key : A -> option str) (valid : A -> bool).
Implicit Types (o : ol (option A)) (l vs : list A) (x : A).
Notation items := (list (option A)).

Lemma adv_zero n pos : pos < n -> adv n 0 pos = Ok pos.
Proof. intros H. unfold adv. cbn. now destruct (Nat.eqb_spec pos n); [lia|]. Qed.
Lemma list_upd_twice (l : items) p a b : list_upd (list_upd l p a) p b = list_upd l p b.
Proof. revert p. induction l as [|y l IH]; intros [|p]; cbn; auto. now rewrite IH. Qed.

(** No move is made between the items: the first selected one is written over
    and over. *)
Lemma rep_loop_zero n : forall k pos (l ws : items), pos < n -> S k <= length ws ->
  rep_loop n (S k) 0 pos l ws = Ok (list_upd l pos (nth k ws None), true).
Proof.
  induction k as [|k IH]; intros pos l ws Hp Hw; destruct ws as [|w ws]; cbn [length] in Hw; try lia.
  - cbn [rep_loop]. destruct (Nat.eqb_spec pos n); [lia|]. now rewrite adv_zero by exact Hp.
  - cbn [rep_loop]. destruct (Nat.eqb_spec pos n); [lia|]. rewrite adv_zero by exact Hp. cbn [bind].
    change (rep_loop n (S k) 0 pos (list_upd l pos w) ws = Ok (list_upd l pos (nth (S k) (w :: ws) None), true)).
    rewrite IH by (auto; lia). now rewrite list_upd_twice.
Qed.
Lemma rep_loop_zero_short n : forall k pos (l ws : items), pos < n -> length ws < k -> rep_loop n k 0 pos l ws = UB.
Proof.
  induction k as [|k IH]; intros pos l ws Hp Hw; [lia|]. cbn [rep_loop]. destruct (Nat.eqb_spec pos n); [lia|].
  destruct ws as [|w ws]; [reflexivity|]. rewrite adv_zero by exact Hp. cbn [bind length] in *. apply IH; auto; lia.
Qed.
Lemma mark_loop_zero n : forall k pos (l : items), pos < n -> mark_loop n (S k) 0 pos l = Ok (list_upd l pos None, true).
Proof.
  induction k as [|k IH]; intros pos l Hp.
  - cbn [mark_loop]. destruct (Nat.eqb_spec pos n); [lia|]. now rewrite adv_zero by exact Hp.
  - cbn [mark_loop]. destruct (Nat.eqb_spec pos n); [lia|]. rewrite adv_zero by exact Hp. cbn [bind].
    change (mark_loop n (S k) 0 pos (list_upd l pos None) = Ok (list_upd l pos None, true)).
    rewrite IH by exact Hp. now rewrite list_upd_twice.
Qed.

(** The start of a nonempty selection is a position. *)
Lemma start_in s n i : (0 <= n)%Z -> slice_indices s n = Some i -> (0 < i_len i)%Z -> (0 <= i_start i < n)%Z.
Proof.
  intros Hn E Hl. pose proof (slice_in_range s n i 0 Hn E) as H. unfold pick in H. cbn in H.
  rewrite Z.add_0_r in H. apply H. lia.
Qed.

Lemma delslice_neg o l s i : holds o l ->
  slice_indices s (Z.of_nat (length l)) = Some i -> (i_step i < 0)%Z -> (0 < i_len i)%Z ->
  seq_delslice o s =
  if S (Z.to_nat (i_start i)) <? length l then UB
  else Ok (mkOL (map Some (removelast l) ++ [None]) (otail o) (olen o), Ret tt).
Proof.
  intros H E Hs Hl. pose proof (start_in _ _ _ (Zle_0_nat _) E Hl) as Hst.
  unfold seq_delslice. rewrite (set_indices_eq _ _ _ H), E. destruct (Z.eqb_spec (i_len i) 0); [lia|].
  destruct i as [ist isp istep ilen]. cbn [i_start i_step i_len] in *.
  rewrite (holds_len _ _ H). rewrite Nat.min_l by lia.
  replace (Z.to_nat istep) with 0 by lia. destruct (Z.to_nat ilen) as [|k] eqn:Ek; [lia|].
  rewrite mark_loop_zero by lia. cbn [bind]. pose proof H as (_ & Ei & _). rewrite Ei.
  destruct (Nat.ltb_spec (S (Z.to_nat ist)) (length l)) as [Hlt|Hge].
  - rewrite (sweep_ub _ None (Z.to_nat ist)); [reflexivity| |].
    + rewrite nth_error_list_upd. rewrite map_length.
      destruct (Nat.ltb_spec (Z.to_nat ist) (length l)); [|lia]. now rewrite Nat.eqb_refl.
    + rewrite list_upd_length, map_length. exact Hlt.
  - destruct l as [|y l0] using rev_ind; [cbn in Hst; lia|]. clear IHl0.
    rewrite app_length in *. cbn [length] in *.
    replace (Z.to_nat ist) with (length l0) by lia.
    rewrite (firstn_last (l0 ++ [y]) y l0 eq_refl). rewrite removelast_last.
    rewrite (sweep_last _ l0 None eq_refl) by discriminate. cbn [bind].
    unfold ol_remove_at. cbn [oitems].
    destruct (Nat.ltb_spec (length l0 + 1) (length (map Some l0 ++ [None]))) as [Hc|_].
    + rewrite app_length, map_length in Hc. cbn in Hc. lia.
    + reflexivity.
Qed.

(** Whatever a deletion selects, it is undefined or leaves a NULL item last. *)
Lemma delslice_never o l s i : holds o l ->
  slice_indices s (Z.of_nat (length l)) = Some i -> (0 < i_len i)%Z ->
  seq_delslice o s = UB \/
  seq_delslice o s = Ok (mkOL (map Some (removelast l) ++ [None]) (otail o) (olen o), Ret tt).
Proof.
  intros H E Hl. pose proof (start_in _ _ _ (Zle_0_nat _) E Hl) as Hst.
  destruct (slice_step _ _ _ E) as [_ Hnz].
  destruct (Z.lt_trichotomy (i_step i) 0) as [Hs|[Hs|Hs]]; [|contradiction|].
  - rewrite (delslice_neg _ _ _ _ H E Hs Hl). destruct (_ <? _); auto.
  - destruct (Nat.lt_ge_cases (S (Z.to_nat (i_start i))) (length l)) as [Hlt|Hge].
    + left. exact (delslice_pos _ _ _ _ H E Hs Hl Hlt).
    + destruct l as [|y l0] using rev_ind; [cbn in Hst; lia|]. clear IHl0.
      assert (Hp : Z.to_nat (i_start i) = length l0).
      { rewrite app_length in Hst, Hge. cbn [length] in *. lia. }
      rewrite (delslice_last _ _ _ _ _ H E Hs Hl Hp), removelast_last. destruct (_ <=? _)%Z; auto.
Qed.

(** Assignment to the whole list backwards. *)
Lemma setslice_reverse o l s i vs : kind = ById -> holds o l ->
  slice_indices s (Z.of_nat (length l)) = Some i -> (i_step i < 0)%Z -> i_len i = Z.of_nat (length l) -> l <> [] ->
  (forall v, In v vs -> ~ has_id key l v) ->
  seq_setslice kind key o s (Some (map Some vs)) =
  match nth_error vs (length l - 1) with
  | None => UB
  | Some v => Ok (mkOL (map Some (list_upd l (Z.to_nat (i_start i)) v)) (otail o) (olen o), Ret tt)
  end.
Proof.
  intros Hk H E Hs Hl Hne Hno. destruct l as [|x0 l0] eqn:El; [contradiction|]. rewrite <- El in *.
  assert (Hn : 0 < length l) by (rewrite El; cbn; lia). clear El x0 l0.
  pose proof (start_in _ _ _ (Zle_0_nat _) E ltac:(lia)) as Hst. pose proof H as (Hg & Ei & Hb).
  unfold seq_setslice. rewrite (set_indices_eq _ _ _ H), E. destruct (Z.eqb_spec (i_len i) 0); [lia|].
  destruct i as [ist isp istep ilen]. cbn [i_start i_step i_len] in *. subst ilen.
  destruct (Z.eqb_spec istep 1); [lia|]. cbn [negb andb]. rewrite (holds_olen _ _ H), Z.eqb_refl. cbn [negb].
  destruct (check_all_spec kind key o l vs Hk H) as (d & -> & Hd). cbn [bind].
  destruct d. { exfalso. destruct (proj1 Hd eq_refl) as (v & Hv & Hi). exact (Hno v Hv Hi). }
  rewrite (holds_len _ _ H), Nat.min_l by lia. replace (Z.to_nat istep) with 0 by lia. rewrite Nat2Z.id.
  rewrite Ei. destruct (nth_error vs (length l - 1)) as [v|] eqn:Ev.
  - assert (Hlt : length l - 1 < length vs) by (apply nth_error_Some; congruence).
    replace (rep_loop (length l) (length l) 0) with (rep_loop (A := A) (length l) (S (length l - 1)) 0) by (f_equal; lia).
    rewrite rep_loop_zero by (rewrite ?map_length; lia). cbn [bind].
    rewrite (nth_error_nth (map Some vs) _ None (x := Some v)).
    + now rewrite list_upd_map.
    + rewrite nth_error_map, Ev. reflexivity.
  - apply nth_error_None in Ev. rewrite rep_loop_zero_short by (rewrite ?map_length; lia). reflexivity.
Qed.
End SpecI2.

Section SpecI3.
Context {A : Type} (same : A -> A -> bool) (kind : ikind) (key : A -> option str) (valid : A -> bool).
Implicit Types (o : ol (option A)) (l vs : list A) (x : A).

(** Assignment to an index in a list with unique ids. *)
Lemma setunique_ok o l i x : kind = ById -> holds o l -> is_int i -> (0 <= i)%Z -> ~ has_id key l x ->
  exists o', seq_setitem_unique kind key o i (Some x) = Ok (o', snd (py_set l i x)) /\ holds o' (fst (py_set l i x)).
Proof.
  intros Hk H Hi H0 Hx. destruct (setitem_nonneg same (fun _ => true) o l i x H Hi H0 eq_refl) as (o' & E & Ho).
  exists o'. split; [|exact Ho]. unfold seq_setitem_unique. unfold seq_setitem in E.
  destruct (idx_beyond o i); [now rewrite E|].
  destruct (uniq_check_spec kind key o l x Hk H) as (b & -> & Hb). cbn [bind].
  destruct b; [exfalso; apply Hx; now apply Hb|]. now rewrite E.
Qed.
Lemma setunique_taken o l i x : kind = ById -> holds o l -> is_int i -> has_id key l x ->
  seq_setitem_unique kind key o i (Some x) =
  Ok (o, Raise (if (Z.of_nat (length l) <=? i)%Z then EIndex else EKey)).
Proof.
  intros Hk H Hi Hx. unfold seq_setitem_unique. rewrite (idx_beyond_spec _ _ _ H Hi).
  destruct (Z.leb_spec (Z.of_nat (length l)) i); [reflexivity|].
  destruct (uniq_check_spec kind key o l x Hk H) as (b & -> & Hb). cbn [bind].
  destruct b; [reflexivity|]. apply Hb in Hx. discriminate.
Qed.
Lemma setunique_kind o l i x : kind <> ById -> holds o l -> is_int i -> (0 <= i < Z.of_nat (length l))%Z ->
  seq_setitem_unique kind key o i (Some x) = UB.
Proof.
  intros Hk H Hi Hr. unfold seq_setitem_unique. rewrite (idx_beyond_spec _ _ _ H Hi).
  destruct (Z.leb_spec (Z.of_nat (length l)) i); [lia|]. unfold uniq_check. now destruct kind.
Qed.
Lemma appendunique_ok o l x : kind = ById -> holds o l -> valid x = true -> small (l ++ [x]) -> ~ has_id key l x ->
  exists o', seq_append_unique kind key valid o (Some x) = Ok (o', Ret tt) /\ holds o' (l ++ [x]).
Proof.
  intros Hk H Hv Hs Hx. destruct (append_spec valid o l x H Hs Hv) as (o' & E & Ho). exists o'. split; [|exact Ho].
  unfold seq_append_unique. destruct (uniq_check_spec kind key o l x Hk H) as (b & -> & Hb). cbn [bind].
  destruct b; [exfalso; apply Hx; now apply Hb|exact E].
Qed.
Lemma appendunique_taken o l x : kind = ById -> holds o l -> has_id key l x ->
  seq_append_unique kind key valid o (Some x) = Ok (o, Raise EKey).
Proof.
  intros Hk H Hx. unfold seq_append_unique. destruct (uniq_check_spec kind key o l x Hk H) as (b & -> & Hb). cbn [bind].
  destruct b; [reflexivity|]. apply Hb in Hx. discriminate.
Qed.
Lemma setslice_taken o l s ws v : kind = ById -> holds o l -> In v ws -> has_id key l v ->
  exists e, seq_setslice kind key o s (Some (map Some ws)) = Ok (o, Raise e).
Proof.
  intros Hk H Hv Hx. unfold seq_setslice. destruct (set_indices o s) as [[ist isp istep ilen]|]; [|eexists; reflexivity].
  destruct (_ && _)%bool; [eexists; reflexivity|].
  destruct (check_all_spec kind key o l ws Hk H) as (d & -> & Hd). cbn [bind].
  destruct d; [eexists; reflexivity|]. assert (false = true) by (apply Hd; eauto). discriminate.
Qed.

(** ** A refused call changes nothing *)
Lemma recomputed_step s n i j : (0 <= n)%Z -> slice_indices s n = Some i ->
  slice_indices s (n + i_start i) = Some j -> i_len i = 0%Z -> (0 < i_step j)%Z -> (2 <= i_len j)%Z ->
  (i_step j < n \/ n <= i_start j)%Z.
Proof.
  intros Hn Ei Ej Hl Hs H2.
  assert (Hsel : (i_start j + i_step j < i_stop j)%Z).
  { pose proof (proj1 (slice_selects _ _ _ 1 Ej)) as Hx. unfold pick in Hx.
    destruct (Z.ltb_spec (i_step j) 0); [lia|]. specialize (Hx ltac:(lia)). lia. }
  assert (Hno : (i_stop i <= i_start i)%Z).
  { pose proof (proj2 (slice_selects _ _ _ 0 Ei)) as Hx. unfold pick in Hx.
    assert (Hst : i_step i = i_step j) by (rewrite (proj1 (slice_step _ _ _ Ei)), (proj1 (slice_step _ _ _ Ej)); reflexivity).
    destruct (Z.ltb_spec (i_step i) 0); [lia|]. destruct (Z.lt_ge_cases (i_start i) (i_stop i)); [|lia].
    specialize (Hx ltac:(lia)). lia. }
  unfold slice_indices in Ei, Ej.
  destruct (match sl_step s with Some k => k | None => 1%Z end =? 0)%Z; [discriminate|].
  injection Ei as <-. injection Ej as <-. cbn [i_start i_stop i_step i_len] in *. clear Hl H2.
  set (st := match sl_step s with Some k => k | None => 1%Z end) in *. clearbody st.
  unfold adjust in *. destruct (Z.ltb_spec st 0); [lia|].
  destruct (sl_start s) as [z|], (sl_stop s) as [w|];
  repeat match goal with
  | |- context [Z.ltb ?a ?b] => destruct (Z.ltb_spec a b)
  | |- context [Z.leb ?a ?b] => destruct (Z.leb_spec a b)
  | H : context [Z.ltb ?a ?b] |- _ => destruct (Z.ltb_spec a b)
  | H : context [Z.leb ?a ?b] |- _ => destruct (Z.leb_spec a b)
  end; lia.
Qed.
Lemma first_step s n i : (0 <= n)%Z -> slice_indices s n = Some i -> (0 < i_step i)%Z -> (2 <= i_len i)%Z -> (i_step i < n)%Z.
Proof.
  intros Hn E Hs H2. pose proof (slice_in_range s n i 1 Hn E ltac:(lia)) as H1.
  pose proof (slice_in_range s n i 0 Hn E ltac:(lia)) as H0. unfold pick in *. lia.
Qed.
(** Between the selected positions the walk never stops at the end. *)
Lemma set_indices_step o s i : ogood o -> fits o -> set_indices o s = Some i -> (2 <= i_len i)%Z ->
  Z.to_nat (i_step i) < length (oitems o) \/ length (oitems o) <= Z.to_nat (i_start i) \/ length (oitems o) = 0.
Proof.
  intros Hg Hf E H2. unfold set_indices in E. rewrite (fits_uint _ Hg Hf) in E.
  destruct (Nat.eq_dec (length (oitems o)) 0) as [|Hz]; [auto|].
  destruct (Z.lt_ge_cases 0 (i_step i)) as [Hs|Hs].
  - destruct (slice_indices s (Z.of_nat (length (oitems o)))) as [i0|] eqn:E0; [|discriminate].
    destruct (Z.eqb_spec (i_len i0) 0) as [Hl|Hl].
    + destruct (recomputed_step _ _ _ _ (Zle_0_nat _) E0 E Hl Hs H2); lia.
    + injection E as ->. pose proof (first_step _ _ _ (Zle_0_nat _) E0 Hs H2). lia.
  - left. lia.
Qed.
Lemma adv_in n step pos p : pos < n -> step < n -> adv n step pos = Ok p -> p < n.
Proof.
  intros Hp Hs E.
  assert (Ha : forall k q, q <= n -> adv1 n k q = if n <=? q + k then (k - (n - q), n) else (0, q + k)).
  { induction k as [|k IH]; intros q Hq; cbn [adv1].
    - rewrite Nat.add_0_r. destruct (Nat.leb_spec n q); [|reflexivity]. f_equal; lia.
    - destruct (Nat.eqb_spec q n) as [->|Hne].
      + destruct (Nat.leb_spec n (n + S k)); [|lia]. f_equal; lia.
      + rewrite IH by lia. replace (S q + k) with (q + S k) by lia. destruct (n <=? q + S k); [f_equal; lia|reflexivity]. }
  unfold adv in E. rewrite Ha in E by lia. destruct (Nat.leb_spec n (pos + step)).
  - rewrite Nat.eqb_refl in E. rewrite adv2_ok in E by lia. injection E as <-. lia.
  - cbn [adv2] in E. destruct (Nat.eqb_spec (pos + step) n); [lia|]. cbn in E. injection E as <-. lia.
Qed.
Lemma mark_loop_true n step : forall k pos (l l' : list (option A)) d, pos < n -> (k <= 1 \/ step < n) ->
  mark_loop n k step pos l = Ok (l', d) -> d = true.
Proof.
  induction k as [|k IH]; intros pos l l' d Hp Hk; cbn [mark_loop]; [now intros [= _ <-]|].
  destruct (Nat.eqb_spec pos n); [lia|]. destruct (adv n step pos) as [p| |] eqn:E; cbn [bind]; try discriminate.
  destruct k as [|k].
  - cbn [mark_loop]. now intros [= _ <-].
  - apply IH; [|lia]. apply (adv_in n step pos); auto. lia.
Qed.
Lemma rep_loop_true n step : forall k pos (l ws l' : list (option A)) d, pos < n -> (k <= 1 \/ step < n) ->
  rep_loop n k step pos l ws = Ok (l', d) -> d = true.
Proof.
  induction k as [|k IH]; intros pos l ws l' d Hp Hk; cbn [rep_loop]; [now intros [= _ <-]|].
  destruct (Nat.eqb_spec pos n); [lia|]. destruct ws as [|w ws]; [discriminate|].
  destruct (adv n step pos) as [p| |] eqn:E; cbn [bind]; try discriminate.
  destruct k as [|k].
  - cbn [rep_loop]. now intros [= _ <-].
  - apply IH; [|lia]. apply (adv_in n step pos); auto. lia.
Qed.
Lemma mark_refused o s i (l' : list (option A)) : ogood o -> fits o -> set_indices o s = Some i ->
  mark_loop (length (oitems o)) (Z.to_nat (i_len i)) (Z.to_nat (i_step i)) (Nat.min (Z.to_nat (i_start i)) (length (oitems o))) (oitems o)
  = Ok (l', false) -> l' = oitems o.
Proof.
  intros Hg Hf Ei E. set (pos := Nat.min _ _) in *.
  destruct (Nat.eq_dec pos (length (oitems o))) as [Hp|Hp].
  - destruct (Z.to_nat (i_len i)) as [|k]; [discriminate|]. cbn [mark_loop] in E. rewrite (proj2 (Nat.eqb_eq _ _) Hp) in E. now injection E.
  - assert (Hlt : pos < length (oitems o)) by lia. exfalso.
    assert (X : false = true); [|discriminate]. apply (mark_loop_true _ _ _ _ _ _ _ Hlt) in E; [exact E|].
    destruct (Z.lt_ge_cases (i_len i) 2); [left; lia|]. right. destruct (set_indices_step o s i Hg Hf Ei); lia.
Qed.
Lemma rep_refused o s i (ws l' : list (option A)) : ogood o -> fits o -> set_indices o s = Some i ->
  rep_loop (length (oitems o)) (Z.to_nat (i_len i)) (Z.to_nat (i_step i)) (Nat.min (Z.to_nat (i_start i)) (length (oitems o))) (oitems o) ws
  = Ok (l', false) -> l' = oitems o.
Proof.
  intros Hg Hf Ei E. set (pos := Nat.min _ _) in *.
  destruct (Nat.eq_dec pos (length (oitems o))) as [Hp|Hp].
  - destruct (Z.to_nat (i_len i)) as [|k]; [discriminate|]. cbn [rep_loop] in E. rewrite (proj2 (Nat.eqb_eq _ _) Hp) in E. now injection E.
  - assert (Hlt : pos < length (oitems o)) by lia. exfalso.
    assert (X : false = true); [|discriminate]. apply (rep_loop_true _ _ _ _ _ _ _ _ Hlt) in E; [exact E|].
    destruct (Z.lt_ge_cases (i_len i) 2); [left; lia|]. right. destruct (set_indices_step o s i Hg Hf Ei); lia.
Qed.
Lemma ol_same o : mkOL (oitems o) (otail o) (olen o) = o.
Proof. now destruct o. Qed.
Lemma failed_unchanged o c o' e : ogood o -> fits o ->
  idl_step same kind key valid o c = Ok (o', Raise e) -> o' = o.
Proof.
  intros Hg Hf. destruct c as [it|i it|i|i it|it| |s v|s]; cbn [idl_step].
  - unfold seq_append_unique. destruct it as [x|]; [|now intros [= <- _]].
    destruct (uniq_check kind key o (Some x)) as [[|]| |]; cbn [bind]; try discriminate; [now intros [= <- _]|].
    destruct (valid x); [|now intros [= <- _]]. destruct (ol_append o (Some x)); cbn [bind]; discriminate.
  - unfold seq_setitem_unique. destruct it as [x|]; [|now intros [= <- _]]. destruct (idx_beyond o i); [now intros [= <- _]|].
    destruct (uniq_check kind key o (Some x)) as [[|]| |]; cbn [bind]; try discriminate. now intros [= <- _].
  - unfold seq_delitem. destruct (idx_beyond o i); [now intros [= <- _]|discriminate].
  - unfold seq_insert. destruct it as [x|]; [|now intros [= <- _]]. destruct (valid x); [|now intros [= <- _]].
    destruct (ol_insert_at _ _ _); cbn [bind]; discriminate.
  - unfold seq_remove. destruct it as [x|]; [|now intros [= <- _]]. unfold ol_remove. destruct (ol_index _ _ _); cbn; [discriminate|].
    now intros [= <- _].
  - discriminate.
  - unfold seq_setslice. destruct (set_indices o s) as [[ist isp istep ilen]|] eqn:E; [|now intros [= <- _]].
    destruct v as [ws|]; [|now intros [= <- _]]. destruct (_ && _)%bool; [now intros [= <- _]|].
    destruct (check_all kind key o ws) as [[|]| |]; cbn [bind]; try discriminate; [now intros [= <- _]|].
    destruct (negb (istep =? 1)%Z).
    + destruct (rep_loop _ _ _ _ _ _) as [[l' d]| |] eqn:Er; cbn [bind]; try discriminate. destruct d; [discriminate|].
      intros [= <- _]. rewrite (rep_refused o s _ ws l' Hg Hf E Er). apply ol_same.
    + destruct (ow_loop _ _ _) as [[i its'] rest]. destruct (i =? length (oitems o)); [|discriminate].
      destruct (ol_append_all _ _); cbn [bind]; discriminate.
  - unfold seq_delslice. destruct (set_indices o s) as [[ist isp istep ilen]|] eqn:E; [|now intros [= <- _]].
    destruct (mark_loop _ _ _ _ _) as [[l' d]| |] eqn:Er; cbn [bind]; try discriminate. destruct d.
    + destruct (sweep None l') as [[[y|]|]| |]; cbn [bind]; discriminate.
    + intros [= <- _]. rewrite (mark_refused o s _ l' Hg Hf E Er). apply ol_same.
Qed.
End SpecI3.
