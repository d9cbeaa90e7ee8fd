(** Properties of the Python sequence layer. *)
From Coq Require Import Permutation.
From Verif Require Import CStr CStrFacts HSListModel ObjListModel ObjListFacts PySeqModel PySeqFacts PySeqFacts2.

Section SpecI.
Context {A : Type} (same : A -> A -> bool) (kind : ikind) (key : A -> option str) (valid : A -> bool).
Implicit Types (o : ol (option A)) (l vs : list A) (x : A).
Notation items := (list (option A)).

(** A C int. *)
Definition is_int (z : Z) : Prop := (-2^31 <= z < 2^31)%Z.
(** The list stays below 2^31 items. *)
Definition small l : Prop := (Z.of_nat (length l) < 2^31)%Z.

(** * Item assignment and deletion *)
(** What the code does. *)
Lemma setitem_exact o l i x : holds o l -> is_int i ->
  seq_setitem valid o i (Some x) =
  if (Z.of_nat (length l) <=? i)%Z then (o, Raise EIndex)
  else if valid x then
    if (i <? 0)%Z then (o, Ret tt) else (fst (ol_set o (Z.to_nat i) (Some x)), Ret tt)
  else (o, Raise EInvalid).
Proof.
  intros H Hi. unfold seq_setitem. rewrite (idx_beyond_spec _ _ _ H Hi).
  destruct (Z.leb_spec (Z.of_nat (length l)) i); [reflexivity|]. destruct (valid x); [|reflexivity].
  destruct (Z.ltb_spec i 0).
  - rewrite (upos_neg _ _ _ H) by (unfold is_int in Hi; lia). now rewrite (set_past _ _ _ H).
  - now rewrite (upos_in _ _ _ H) by lia.
Qed.
Lemma delitem_exact o l i : holds o l -> is_int i ->
  seq_delitem o i =
  if (Z.of_nat (length l) <=? i)%Z then (o, Raise EIndex)
  else if (i <? 0)%Z then (o, Ret tt) else (fst (ol_remove_at o (Z.to_nat i)), Ret tt).
Proof.
  intros H Hi. unfold seq_delitem. rewrite (idx_beyond_spec _ _ _ H Hi).
  destruct (Z.leb_spec (Z.of_nat (length l)) i); [reflexivity|].
  destruct (Z.ltb_spec i 0).
  - rewrite (upos_neg _ _ _ H) by (unfold is_int in Hi; lia). now rewrite (del_past _ _ H).
  - now rewrite (upos_in _ _ _ H) by lia.
Qed.

(** Python's assignment and deletion by index. *)
Definition py_set l (i : Z) x : list A * pyret unit :=
  match py_pos (length l) i with
  | Some p => (firstn p l ++ x :: skipn (S p) l, Ret tt)
  | None => (l, Raise EIndex)
  end.
Definition py_del l (i : Z) : list A * pyret unit :=
  match py_pos (length l) i with
  | Some p => (firstn p l ++ skipn (S p) l, Ret tt)
  | None => (l, Raise EIndex)
  end.
Lemma py_pos_nonneg n i : (0 <= i)%Z -> py_pos n i = if (i <? Z.of_nat n)%Z then Some (Z.to_nat i) else None.
Proof.
  intros H. unfold py_pos. destruct (Z.leb_spec 0 i); [|lia]. cbn [andb].
  destruct (Z.ltb_spec i (Z.of_nat n)); [reflexivity|].
  destruct (Z.ltb_spec i 0); [lia|]. now rewrite Bool.andb_false_r.
Qed.
Lemma setitem_nonneg o l i x : holds o l -> is_int i -> (0 <= i)%Z -> valid x = true ->
  exists o', seq_setitem valid o i (Some x) = (o', snd (py_set l i x)) /\ holds o' (fst (py_set l i x)).
Proof.
  intros H Hi H0 Hv. rewrite (setitem_exact _ _ _ _ H Hi), Hv. unfold py_set. rewrite py_pos_nonneg by exact H0.
  destruct (Z.leb_spec (Z.of_nat (length l)) i), (Z.ltb_spec i (Z.of_nat (length l))); try lia; cbn [fst snd].
  - exists o. auto.
  - destruct (Z.ltb_spec i 0); [lia|]. eexists. split; [reflexivity|].
    replace (firstn (Z.to_nat i) l ++ x :: skipn (S (Z.to_nat i)) l) with (list_upd l (Z.to_nat i) x)
      by (rewrite list_upd_split by lia; reflexivity).
    apply (holds_set same); [exact H|lia].
Qed.
Lemma delitem_nonneg o l i : holds o l -> is_int i -> (0 <= i)%Z ->
  exists o', seq_delitem o i = (o', snd (py_del l i)) /\ holds o' (fst (py_del l i)).
Proof.
  intros H Hi H0. rewrite (delitem_exact _ _ _ H Hi). unfold py_del. rewrite py_pos_nonneg by exact H0.
  destruct (Z.leb_spec (Z.of_nat (length l)) i), (Z.ltb_spec i (Z.of_nat (length l))); try lia; cbn [fst snd].
  - exists o. auto.
  - destruct (Z.ltb_spec i 0); [lia|]. eexists. split; [reflexivity|]. apply holds_del; [exact H|lia].
Qed.
Lemma setitem_negative o l i x : holds o l -> is_int i -> (i < 0)%Z -> valid x = true ->
  seq_setitem valid o i (Some x) = (o, Ret tt).
Proof.
  intros H Hi H0 Hv. rewrite (setitem_exact _ _ _ _ H Hi), Hv.
  destruct (Z.leb_spec (Z.of_nat (length l)) i); [lia|]. now destruct (Z.ltb_spec i 0); [|lia].
Qed.
Lemma delitem_negative o l i : holds o l -> is_int i -> (i < 0)%Z -> seq_delitem o i = (o, Ret tt).
Proof.
  intros H Hi H0. rewrite (delitem_exact _ _ _ H Hi).
  destruct (Z.leb_spec (Z.of_nat (length l)) i); [lia|]. now destruct (Z.ltb_spec i 0); [|lia].
Qed.

(** * Appending, inserting, removing, iterating, looking up by id *)
Lemma append_spec o l x : holds o l -> small (l ++ [x]) -> valid x = true ->
  exists o', seq_append valid o (Some x) = Ok (o', Ret tt) /\ holds o' (l ++ [x]).
Proof.
  intros (Hg & E & _) Hs Hv. unfold seq_append. rewrite Hv.
  destruct (ogood_append o (Some x) Hg) as (o' & -> & Hi & Hg'). cbn [bind].
  exists o'. split; [reflexivity|]. split; [exact Hg'|]. split; [|exact Hs]. rewrite Hi, E, map_app. reflexivity.
Qed.
(** Python's insert clamps the position. *)
Definition py_clamp (n : nat) (i : Z) : nat :=
  Z.to_nat (if i <? 0 then Z.max 0 (i + Z.of_nat n) else Z.min i (Z.of_nat n))%Z.
Lemma ins_index_spec o l i : holds o l -> is_int i ->
  to_uint (ins_index o i) = Z.of_nat (py_clamp (length l) i).
Proof.
  intros H Hi. unfold is_int in Hi. pose proof (proj2 (proj2 H)) as Hb. unfold ins_index, py_clamp.
  rewrite (holds_olen _ _ H). rewrite (to_int_small (Z.of_nat (length l))) by lia.
  destruct (Z.ltb_spec i 0) as [Hn|Hn].
  - rewrite to_int_small by lia. cbn zeta. destruct (Z.ltb_spec (i + Z.of_nat (length l)) 0).
    + rewrite Z.max_l by lia. reflexivity.
    + rewrite Z.max_r by lia. rewrite to_uint_small by lia. lia.
  - destruct (Z.ltb_spec (Z.of_nat (length l)) i).
    + rewrite Z.min_r by lia. rewrite to_uint_small by lia. lia.
    + rewrite Z.min_l by lia. rewrite to_uint_small by lia. lia.
Qed.
Lemma py_clamp_le n i : py_clamp n i <= n.
Proof. unfold py_clamp. destruct (Z.ltb_spec i 0); lia. Qed.
Lemma insert_spec o l i x : holds o l -> is_int i -> small (x :: l) -> valid x = true ->
  exists o', seq_insert valid o i (Some x) = Ok (o', Ret tt) /\
    holds o' (firstn (py_clamp (length l) i) l ++ x :: skipn (py_clamp (length l) i) l).
Proof.
  intros H Hi Hs Hv. pose proof H as (Hg & E & Hb). unfold seq_insert. rewrite Hv.
  rewrite (ins_index_spec _ _ _ H Hi), Nat2Z.id. set (p := py_clamp (length l) i).
  pose proof (py_clamp_le (length l) i) as Hp. fold p in Hp.
  destruct (ol_step_spec (osame same) o (LInsertAt p (Some x)) Hg I) as (o' & out & Es & Hg' & Hsp).
  cbn [ol_step] in Es. destruct (ol_insert_at o p (Some x)) as [[o1 r]| |]; cbn [bind fst snd] in *; try discriminate.
  injection Es as <- <-. cbn [lspec] in Hsp. rewrite (holds_len _ _ H) in Hsp.
  destruct Hsp as [(_ & Hi' & _)|(Hc & _)]; [|lia].
  exists o1. split; [reflexivity|]. split; [exact Hg'|]. split.
  - rewrite Hi', E, firstn_map, skipn_map, map_app. reflexivity.
  - unfold small in Hs. cbn [length] in Hs. rewrite app_length, firstn_length. cbn [length]. rewrite skipn_length. lia.
Qed.
(** remove takes away the first item that is the very object. *)
Lemma remove_spec o l x : holds o l ->
  (exists i o', seq_remove same o (Some x) = (o', Ret tt) /\ first_at same l x i /\
     holds o' (firstn i l ++ skipn (S i) l)) \/
  (absent same l x /\ seq_remove same o (Some x) = (o, Raise EValue)).
Proof.
  intros H. pose proof H as (Hg & E & Hb). unfold seq_remove, ol_remove, ol_index.
  pose proof (index_loop_spec (osame same) (oitems o) (Some x) 0) as Hix.
  destruct (index_loop (osame same) (oitems o) (Some x) 0) as [i|].
  - left. destruct Hix as [_ (l1 & y & l2 & El & Hlen & Hy & Hl1)]. rewrite Nat.sub_0_r in Hlen. cbn.
    rewrite E in El. apply map_eq_app in El. destruct El as (k1 & k2' & -> & <- & El2).
    destruct k2' as [|z k2]; [discriminate|]. cbn in El2. injection El2 as <- <-.
    rewrite map_length in Hlen. subst i.
    eexists (length k1), _. split; [reflexivity|]. split.
    + exists k1, z, k2. repeat split; auto. intros w Hw. apply (Hl1 (Some w)). now apply in_map.
    + pose proof (holds_del o (k1 ++ z :: k2) (length k1) H) as Hd.
      unfold ol_remove_at in Hd. rewrite (holds_len _ _ H) in Hd.
      destruct (Nat.ltb_spec (length k1) (length (k1 ++ z :: k2))) as [|Hc]; [|rewrite app_length in Hc; cbn in Hc; lia].
      apply Hd. lia.
  - right. split; [|reflexivity]. intros z Hz. apply (Hix (Some z)). rewrite E. now apply in_map.
Qed.
Lemma iter_spec o l : holds o l -> seq_iter o = l.
Proof.
  intros (_ & E & _). unfold seq_iter. rewrite E. clear. induction l as [|x l IH]; cbn; [reflexivity|now rewrite IH].
Qed.
(** Lookup by id: the first item with that id. *)
Lemma byid_spec o l id : kind <> NoId -> (kind = ByName -> forall y, In y l -> key y <> None) -> holds o l ->
  (exists l1 x l2, l = l1 ++ x :: l2 /\ key x = Some id /\ (forall y, In y l1 -> key y <> Some id) /\
     seq_byid kind key o id = Ok (Ret x)) \/
  ((forall y, In y l -> key y <> Some id) /\ seq_byid kind key o id = Ok (Raise EKey)).
Proof.
  intros Hk Hn (_ & E & _). unfold seq_byid. rewrite E. clear E. induction l as [|y l IH]; cbn [map byid_loop].
  - right. split; [|reflexivity]. intros y [].
  - specialize (IH (fun e z Hz => Hn e z (or_intror Hz))).
    assert (Hgo : match kind, key y with
      | NoId, _ | ByName, None => UB
      | _, k => if id_cmp k (Some id) then Ok (Ret y) else byid_loop kind key (map Some l) id
      end = if id_cmp (key y) (Some id) then Ok (Ret y) else byid_loop kind key (map Some l) id).
    { destruct kind; [reflexivity| |contradiction].
      destruct (key y) eqn:Ey; [reflexivity|]. exfalso. apply (Hn eq_refl y); [now left|exact Ey]. }
    rewrite Hgo. destruct (id_cmp (key y) (Some id)) eqn:Ec.
    + left. exists [], y, l. apply id_cmp_iff in Ec. split; [reflexivity|]. split; [exact Ec|]. split; [intros z []|reflexivity].
    + assert (Hy : key y <> Some id) by (intros Hc; apply (proj2 (id_cmp_iff _ _)) in Hc; congruence).
      destruct IH as [(l1 & x & l2 & -> & Hx & Hl1 & Er)|[Ha Er]].
      * left. exists (y :: l1), x, l2. split; [reflexivity|]. split; [exact Hx|]. split; [intros z [<-|Hz]; auto|exact Er].
      * right. split; [|exact Er]. intros z [<-|Hz]; auto.
Qed.

(** * Lists whose items are found by their id *)
(** The calls on a list of groups, categories or environments
    (PyCOMPSSeq_append_unique, PyCOMPSSeq_mapping_extra and the inherited
    PyCOMPSSeq_methods). *)
Inductive sop :=
| SAppend (item : option A) | SSet (i : Z) (item : option A) | SDel (i : Z)
| SInsert (i : Z) (item : option A) | SRemove (item : option A) | SClear
| SSetSlice (s : slice) (val : option items) | SDelSlice (s : slice).
Definition idl_step o (c : sop) : res (ol (option A) * pyret unit) :=
  match c with
  | SAppend it => seq_append_unique kind key valid o it
  | SSet i it => seq_setitem_unique kind key o i it
  | SDel i => Ok (seq_delitem o i)
  | SInsert i it => seq_insert valid o i it
  | SRemove it => Ok (seq_remove same o it)
  | SClear => Ok (seq_clear o, Ret tt)
  | SSetSlice s v => seq_setslice kind key o s v
  | SDelSlice s => seq_delslice o s
  end.
Fixpoint idl_run o (cs : list sop) : res (ol (option A) * list (pyret unit)) :=
  match cs with
  | [] => Ok (o, [])
  | c :: r => p <- idl_step o c ;; q <- idl_run (fst p) r ;; Ok (fst q, snd p :: snd q)
  end.

(** The objects in the list (NULL items left out). *)
Fixpoint objects (its : items) : list A :=
  match its with
  | [] => []
  | Some x :: r => x :: objects r
  | None :: r => objects r
  end.
Definition ids (its : items) : list (option str) := map key (objects its).
(** Nothing is inserted, and assigned sequences have distinct ids. *)
Definition keeps_ids (c : sop) : Prop :=
  match c with
  | SInsert _ _ => False
  | SSetSlice _ (Some vs) => NoDup (ids vs)
  | _ => True
  end.

Lemma objects_app its1 its2 : objects (its1 ++ its2) = objects its1 ++ objects its2.
Proof. induction its1 as [|[x|] its1 IH]; cbn; [reflexivity|now rewrite IH|exact IH]. Qed.
Lemma objects_map l : objects (map Some l) = l.
Proof. induction l as [|x l IH]; cbn; [reflexivity|now rewrite IH]. Qed.
Lemma ids_app its1 its2 : ids (its1 ++ its2) = ids its1 ++ ids its2.
Proof. unfold ids. now rewrite objects_app, map_app. Qed.
Lemma nodup_mid (a b c : list (option str)) : NoDup (a ++ b ++ c) -> NoDup (a ++ c).
Proof.
  induction a as [|x a IH]; cbn; intros H.
  - induction b as [|y b IHb]; [exact H|]. cbn in H. inversion H; auto.
  - inversion H as [|? ? Hx Hn]; subst. constructor; [|now apply IH].
    intros Hi. apply Hx. rewrite !in_app_iff in *. tauto.
Qed.
Lemma nodup_upd (its : items) p v rest :
  NoDup (ids its ++ ids [v] ++ rest) -> NoDup (ids (list_upd its p v) ++ rest).
Proof.
  intros H. destruct (Nat.lt_ge_cases p (length its)) as [Hp|Hp].
  - rewrite list_upd_split by exact Hp.
    rewrite <- (firstn_skipn p its) in H at 1. destruct (skipn p its) as [|y r] eqn:E.
    { assert (length (skipn p its) = length its - p) by apply skipn_length. rewrite E in H0. cbn in H0. lia. }
    assert (Hr : skipn (S p) its = r).
    { clear -E Hp. revert its E Hp. induction p as [|p IH]; intros [|z its] E Hp; cbn in *; try discriminate.
      - now injection E.
      - apply IH; auto; lia. }
    rewrite Hr. rewrite (ids_app (firstn p its) (y :: r)) in H. rewrite !ids_app.
    change (y :: r) with ([y] ++ r) in H. rewrite ids_app in H.
    rewrite <- !app_assoc in H. apply nodup_mid in H.
    (* a ++ r ++ v ++ rest -> a ++ v ++ r ++ rest *)
    rewrite <- !app_assoc. apply Permutation_NoDup with (2 := H).
    apply Permutation_app_head. rewrite !app_assoc. apply Permutation_app_tail.
    apply Permutation_app_comm.
  - assert (Hu : list_upd its p v = its).
    { clear H. revert p Hp. induction its as [|z its IH]; intros [|p] Hp; cbn in *; auto; try lia. now rewrite IH by lia. }
    rewrite Hu. now apply nodup_mid in H.
Qed.
Lemma nodup_sub_del (its : items) p : NoDup (ids its) -> NoDup (ids (list_del its p)).
Proof.
  intros H. unfold list_del. rewrite ids_app.
  rewrite <- (firstn_skipn p its), ids_app in H.
  destruct (skipn p its) as [|y r] eqn:E.
  - assert (Hn : skipn (S p) its = []).
    { apply length_zero_iff_nil. assert (length (skipn p its) = length its - p) by apply skipn_length.
      rewrite E in H0. cbn in H0. rewrite skipn_length. lia. }
    now rewrite Hn.
  - assert (Hr : skipn (S p) its = r).
    { clear -E. revert its E. induction p as [|p IH]; intros [|z its] E; cbn in *; try discriminate.
      - now injection E.
      - now apply IH. }
    rewrite Hr. change (y :: r) with ([y] ++ r) in H. rewrite ids_app in H. now apply nodup_mid in H.
Qed.
Lemma nodup_mark (its : items) p : NoDup (ids its) -> NoDup (ids (list_upd its p None)).
Proof.
  intros H. rewrite <- (app_nil_r (ids (list_upd _ _ _))). apply nodup_upd. cbn. now rewrite app_nil_r.
Qed.
Lemma uniq_loop_false (its : items) id : uniq_loop key its id = Ok false -> ~ In id (ids its).
Proof.
  induction its as [|[y|] its IH]; cbn [uniq_loop]; intros H; [intros []| |discriminate].
  destruct (id_cmp id (key y)) eqn:E; [discriminate|]. intros [Hy|Hi].
  - assert (id_cmp id (key y) = true) by (apply id_cmp_iff; auto). congruence.
  - now apply IH.
Qed.
Lemma uniq_check_false o c : uniq_check kind key o c = Ok false ->
  exists x, c = Some x /\ ~ In (key x) (ids (oitems o)).
Proof.
  unfold uniq_check. destruct kind; try discriminate. destruct c as [x|]; [|discriminate].
  intros H. exists x. split; [reflexivity|now apply uniq_loop_false].
Qed.
Lemma check_all_false o (ws : items) : check_all kind key o ws = Ok false ->
  forall k, In k (ids ws) -> ~ In k (ids (oitems o)).
Proof.
  induction ws as [|w ws IH]; cbn [check_all]; intros H k Hk; [destruct Hk|].
  destruct (uniq_check kind key o w) as [[|]| |] eqn:E; cbn [bind] in H; try discriminate.
  apply uniq_check_false in E. destruct E as (x & -> & Hx).
  destruct Hk as [<-|Hk]; [exact Hx|]. now apply IH.
Qed.
Lemma nodup_app_disj (a b : list (option str)) : NoDup a -> NoDup b -> (forall k, In k b -> ~ In k a) -> NoDup (a ++ b).
Proof.
  intros Ha Hb Hd. induction a as [|x a IH]; cbn; [exact Hb|].
  inversion Ha as [|? ? Hx Hn]; subst. constructor.
  - rewrite in_app_iff. intros [Hi|Hi]; [auto|]. apply (Hd x Hi). now left.
  - apply IH; [exact Hn|]. intros k Hk Hka. apply (Hd k Hk). now right.
Qed.
Lemma ids_cons v (r : items) : ids (v :: r) = ids [v] ++ ids r.
Proof. change (v :: r) with ([v] ++ r). apply ids_app. Qed.

Lemma rep_loop_inv n step : forall k pos (its ws its' : items) d,
  rep_loop n k step pos its ws = Ok (its', d) -> NoDup (ids its ++ ids ws) ->
  NoDup (ids its') /\ length its' = length its.
Proof.
  induction k as [|k IH]; intros pos its ws its' d; cbn [rep_loop].
  - intros [= <- _] H. split; [|reflexivity]. rewrite <- (app_nil_r (ids its)). apply (nodup_mid _ (ids ws)). now rewrite app_nil_r.
  - destruct (pos =? n).
    + intros [= <- _] H. split; [|reflexivity]. rewrite <- (app_nil_r (ids its)). apply (nodup_mid _ (ids ws)). now rewrite app_nil_r.
    + destruct ws as [|w ws]; [discriminate|]. destruct (adv n step pos) as [p| |]; cbn [bind]; try discriminate.
      intros E H. rewrite ids_cons in H. apply nodup_upd with (p := pos) in H.
      destruct (IH _ _ _ _ _ E H) as [H1 H2]. rewrite list_upd_length in H2. auto.
Qed.
Lemma ow_loop_inv : forall (ws : items) pos (its its' rest : items) i,
  ow_loop pos its ws = (i, its', rest) -> NoDup (ids its ++ ids ws) ->
  NoDup (ids its' ++ ids rest) /\ length its' = length its.
Proof.
  induction ws as [|w ws IH]; intros pos its its' rest i; cbn [ow_loop].
  - intros [= _ <- <-] H. auto.
  - destruct (pos <? length its).
    + intros E H. rewrite ids_cons in H. apply nodup_upd with (p := pos) in H.
      destruct (IH _ _ _ _ _ E H) as [H1 H2]. rewrite list_upd_length in H2. auto.
    + intros [= _ <- <-] H. auto.
Qed.
Lemma ogood_replace o (its : items) : ogood o -> length its = length (oitems o) -> ogood (mkOL its (otail o) (olen o)).
Proof.
  intros [Ha Hb] Hl. split; cbn [olen oitems otail]; [lia|].
  destruct (otail o); auto; [|lia]. rewrite Hb in Hl. now apply length_zero_iff_nil.
Qed.
Lemma remove_times_inv i : forall k o, ogood o -> NoDup (ids (oitems o)) ->
  ogood (remove_times o i k) /\ NoDup (ids (oitems (remove_times o i k))).
Proof.
  induction k as [|k IH]; intros o Hg Hn; cbn [remove_times]; [auto|].
  unfold ol_remove_at. destruct (Nat.ltb_spec i (length (oitems o))); cbn [fst]; [|now apply IH].
  apply IH; [now apply ogood_unlink|]. cbn [ol_unlink oitems]. now apply nodup_sub_del.
Qed.
Lemma mark_loop_inv n step : forall k pos (its its' : items) d,
  mark_loop n k step pos its = Ok (its', d) -> NoDup (ids its) -> NoDup (ids its').
Proof.
  induction k as [|k IH]; intros pos its its' d; cbn [mark_loop].
  - now intros [= <- _].
  - destruct (pos =? n); [now intros [= <- _]|]. destruct (adv n step pos) as [p| |]; cbn [bind]; try discriminate.
    intros E H. apply (IH _ _ _ _ E). now apply nodup_mark.
Qed.

Definition idl_inv o : Prop := ogood o /\ NoDup (ids (oitems o)).

Lemma idl_remove_at o p : idl_inv o -> idl_inv (fst (ol_remove_at o p)).
Proof.
  intros [Hg Hn]. unfold ol_remove_at. destruct (Nat.ltb_spec p (length (oitems o))); cbn [fst]; [|split; assumption].
  split; [now apply ogood_unlink|]. cbn [ol_unlink oitems]. now apply nodup_sub_del.
Qed.
Lemma idl_set o p x : idl_inv o -> ~ In (key x) (ids (oitems o)) -> idl_inv (fst (ol_set o p (Some x))).
Proof.
  intros [Hg Hn] Hx. unfold ol_set. destruct (Nat.ltb_spec p (length (oitems o))); cbn [fst]; [|split; assumption].
  split; [apply ogood_replace; [exact Hg|apply list_upd_length]|]. cbn [oitems].
  rewrite <- (app_nil_r (ids (list_upd _ _ _))). apply nodup_upd. rewrite app_nil_r.
  apply nodup_app_disj; auto.
  - cbn. constructor; [intros []|constructor].
  - cbn. intros k [<-|[]]. exact Hx.
Qed.
Lemma idl_step_inv o c o' r : keeps_ids c -> idl_inv o -> idl_step o c = Ok (o', r) -> idl_inv o'.
Proof.
  intros Hk Hi. pose proof Hi as [Hg Hn]. destruct c as [it|i it|i|i it|it| |s v|s]; cbn [idl_step keeps_ids] in *; try contradiction.
  - unfold seq_append_unique. destruct it as [x|]; [|now intros [= <- _]].
    destruct (uniq_check kind key o (Some x)) as [[|]| |] eqn:E; cbn [bind]; try discriminate; [now intros [= <- _]|].
    destruct (valid x); [|now intros [= <- _]].
    apply uniq_check_false in E. destruct E as (x' & [= <-] & Hx).
    destruct (ogood_append o (Some x) Hg) as (o1 & -> & Hit & Hg1). cbn [bind]. intros [= <- _].
    split; [exact Hg1|]. rewrite Hit, ids_app. apply nodup_app_disj; auto.
    + cbn. constructor; [intros []|constructor].
    + cbn. intros k [<-|[]]. exact Hx.
  - unfold seq_setitem_unique. destruct it as [x|]; [|now intros [= <- _]].
    destruct (idx_beyond o i); [now intros [= <- _]|].
    destruct (uniq_check kind key o (Some x)) as [[|]| |] eqn:E; cbn [bind]; try discriminate; [now intros [= <- _]|].
    apply uniq_check_false in E. destruct E as (x' & [= <-] & Hx). intros [= <- _]. now apply idl_set.
  - unfold seq_delitem. destruct (idx_beyond o i); intros [= <- _]; [exact Hi|now apply idl_remove_at].
  - unfold seq_remove. destruct it as [x|]; [|now intros [= <- _]].
    unfold ol_remove, ol_index. pose proof (index_loop_spec (osame same) (oitems o) (Some x) 0) as Hix.
    destruct (index_loop (osame same) (oitems o) (Some x) 0) as [j|].
    + destruct Hix as [_ Hf]. apply first_at_lt in Hf. rewrite Nat.sub_0_r in Hf.
      cbn. intros [= <- _]. pose proof (idl_remove_at o j Hi) as Hr. unfold ol_remove_at in Hr.
      destruct (Nat.ltb_spec j (length (oitems o))); [exact Hr|lia].
    + cbn. intros [= <- _]. exact Hi.
  - intros [= <- _]. split; [apply ogood_create|]. constructor.
  - unfold seq_setslice. destruct (set_indices o s) as [[ist isp istep ilen]|]; [|now intros [= <- _]].
    destruct v as [ws|]; [|now intros [= <- _]].
    destruct (negb (istep =? 1)%Z && negb (to_uint (Z.of_nat (olen o)) =? to_uint ilen)%Z)%bool; [now intros [= <- _]|].
    destruct (check_all kind key o ws) as [[|]| |] eqn:E; cbn [bind]; try discriminate; [now intros [= <- _]|].
    assert (Hd : NoDup (ids (oitems o) ++ ids ws)) by (apply nodup_app_disj; auto; now apply check_all_false).
    destruct (negb (istep =? 1)%Z).
    + destruct (rep_loop _ _ _ _ _ _) as [[its' d]| |] eqn:Er; cbn [bind]; try discriminate.
      intros [= <- _]. destruct (rep_loop_inv _ _ _ _ _ _ _ _ Er Hd) as [H1 H2].
      split; [now apply ogood_replace|exact H1].
    + destruct (ow_loop _ _ _) as [[i its'] rest] eqn:Eo. destruct (ow_loop_inv _ _ _ _ _ _ Eo Hd) as [H1 H2].
      pose proof (ogood_replace o its' Hg H2) as Hg'.
      destruct (i =? length (oitems o)).
      * destruct (ogood_append_all rest _ Hg') as (o1 & -> & Hit & Hg1). cbn [bind]. intros [= <- _].
        split; [exact Hg1|]. rewrite Hit. cbn [oitems]. now rewrite ids_app.
      * intros [= <- _]. apply remove_times_inv; [exact Hg'|]. cbn [oitems].
        rewrite <- (app_nil_r (ids its')). apply (nodup_mid _ (ids rest)). now rewrite app_nil_r.
  - unfold seq_delslice. destruct (set_indices o s) as [[ist isp istep ilen]|]; [|now intros [= <- _]].
    destruct (mark_loop _ _ _ _ _) as [[its' d]| |] eqn:E; cbn [bind]; try discriminate.
    pose proof (mark_loop_length _ _ _ _ _ _ _ E) as Hl. pose proof (mark_loop_inv _ _ _ _ _ _ _ E Hn) as Hm.
    assert (Hi' : idl_inv (mkOL its' (otail o) (olen o))) by (split; [now apply ogood_replace|exact Hm]).
    destruct d; [|now intros [= <- _]].
    destruct (sweep None its') as [[[y|]|]| |]; cbn [bind]; try discriminate; intros [= <- _]; auto.
    now apply idl_remove_at.
Qed.
Lemma idl_run_inv cs : forall o o' rs, Forall keeps_ids cs -> idl_inv o ->
  idl_run o cs = Ok (o', rs) -> idl_inv o'.
Proof.
  induction cs as [|c cs IH]; intros o o' rs Hk Hi; cbn [idl_run]; [now intros [= <- _]|].
  inversion Hk as [|? ? Hc Hcs]; subst.
  destruct (idl_step o c) as [[o1 r1]| |] eqn:E; cbn [bind fst snd]; try discriminate.
  destruct (idl_run o1 cs) as [[o2 r2]| |] eqn:E2; cbn [bind fst snd]; try discriminate.
  intros [= <- _]. apply (IH o1 o2 r2 Hcs); [|exact E2]. apply (idl_step_inv o c o1 r1 Hc Hi E).
Qed.

(** * Slice assignment against Python's *)
Lemma splice_agrees o l s i vs :
  kind = ById -> holds o l ->
  slice_indices s (Z.of_nat (length l)) = Some i -> i_step i = 1%Z -> (0 < i_len i)%Z ->
  (forall v, In v vs -> ~ has_id key l v) ->
  (Z.of_nat (length vs) <= i_len i \/ i_stop i = Z.of_nat (length l))%Z ->
  exists o', seq_setslice kind key o s (Some (map Some vs)) = Ok (o', Ret tt) /\ ogood o' /\
    oitems o' = map Some (spliced l (Z.to_nat (i_start i)) (Z.to_nat (i_stop i)) vs).
Proof.
  intros Hk H E Hs Hl Hno Hfit.
  destruct (slice_bounds s _ i (Zle_0_nat _) E) as [Hb _]. specialize (Hb ltac:(lia)).
  assert (Hlen : i_len i = (i_stop i - i_start i)%Z /\ (i_start i < i_stop i)%Z).
  { rewrite (slice_len _ _ _ E) in Hl |- *. rewrite Hs in *. cbn in Hl |- *.
    destruct (Z.ltb_spec (i_start i) (i_stop i)); [|lia]. rewrite Z.div_1_r. lia. }
  assert (Es : set_indices o s = Some i).
  { rewrite (set_indices_eq _ _ _ H), E. destruct (Z.eqb_spec (i_len i) 0); [lia|reflexivity]. }
  destruct (setslice_step1 kind key o l s i vs Hk H Es Hs ltac:(lia) ltac:(lia) Hno) as (o' & Er & Hg & Hi).
  exists o'. split; [exact Er|]. split; [exact Hg|]. rewrite Hi. f_equal. unfold overwritten, spliced.
  rewrite Nat.min_l by lia. f_equal. f_equal.
  destruct Hfit as [Hf|Hf].
  - f_equal. lia.
  - rewrite !skipn_all2 by lia. reflexivity.
Qed.
End SpecI.
