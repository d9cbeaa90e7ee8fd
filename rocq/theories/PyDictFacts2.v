(** Facts about MDict. *)
From Coq Require Import Permutation.
From Verif Require Import CStr CStrFacts HSListModel HSListFacts SetModel SetFacts RTreeModel RTreeFacts RTreeFacts2
  RTreeFacts3 RTreeFacts4 MRTreeModel MRTreeFacts MRTreeFacts2 MRTreeFacts3 ObjModel StrModel StrFacts PyObjModel SpecA SpecB
  PyDictModel PyDictFacts.

Notation mvals := (list (mval ostr)).
Lemma oflat_other (d d' : mdict) k : (forall k', k' <> k -> mlook d' k' = mlook d k') ->
  forall k', k' <> k -> oflat (mlook d' k') = oflat (mlook d k').
Proof. intros H k' Hn. now rewrite H. Qed.

Lemma store_at (t : mdict) k (vs : mvals) : minv t -> k <> [] ->
  exists t', pm_store t k vs = Ok t' /\ minv t' /\ mlen t' = (mlen t + Z.of_nat (Nat.max 1 (length vs)))%Z /\
    mlook t' k = Some (olist (mlook t k) ++ vs) /\
    (forall k', k' <> k -> oflat (mlook t' k') = oflat (mlook t k')) /\
    (forall k', mlook t k' <> None -> mlook t' k' <> None).
Proof.
  intros Ht Hk. destruct vs as [|v vs].
  - destruct (mt_put_null_at t k Ht Hk) as (t' & E & H1 & H2 & H3 & H4 & H5). exists t'. unfold pm_store. split; [exact E|].
    split; [exact H1|]. split; [cbn [length Nat.max]; lia|]. split; [now rewrite app_nil_r|]. split; [exact H4|exact H5].
  - destruct (put_all_at (v :: vs) t k Ht Hk) as (t' & E & H1 & H2 & H3 & H4 & H5). exists t'. split; [exact E|].
    split; [exact H1|]. split; [rewrite H2; cbn [length Nat.max]; lia|]. split; [exact H3|]. split; [exact H4|exact H5].
Qed.
Lemma store_minv (t : mdict) k vs t' : minv t -> pm_store t k vs = Ok t' -> minv t'.
Proof.
  intros Ht E. destruct k as [|c k].
  - destruct vs as [|v vs]; cbn [pm_store] in E.
    + unfold mt_put_null in E. cbn in E. inversion E. exact Ht.
    + assert (H : forall l (u : mdict), minv u -> forall u', put_all u [] l = Ok u' -> minv u').
      { induction l as [|x l IH]; intros u Hu u' Eu; cbn [put_all] in Eu; [now inversion Eu; subst|].
        unfold mt_put in Eu. cbn in Eu. refine (IH _ _ _ Eu). exact Hu. }
      exact (H _ _ Ht _ E).
  - destruct (store_at t (c :: k) vs Ht ltac:(discriminate)) as (t2 & E2 & H2 & _). congruence.
Qed.
Lemma unset_minv (t : mdict) k t' : minv t -> mt_unset t k = Ok t' -> minv t'.
Proof.
  intros Ht E. destruct k as [|c k].
  - unfold mt_unset in E. cbn in E. inversion E. exact Ht.
  - pose proof (mt_unset_spec t (c :: k) Ht ltac:(discriminate)) as H. rewrite E in H. apply H.
Qed.
Lemma pm_set_minv d k v d' r : minv d -> pm_set d k v = Ok (d', r) -> minv d'.
Proof.
  intros Hd E. unfold pm_set in E. destruct (key_arg k) as [s| |].
  2,3: inversion E; subst; exact Hd.
  destruct v as [l| |l| |].
  - apply bind_ok in E. destruct E as (d1 & E1 & E). apply bind_ok in E. destruct E as (d2 & E2 & E). cbn [bind] in E.
    inversion E; subst. exact (store_minv _ _ _ _ (unset_minv _ _ _ Hd E1) E2).
  - apply bind_ok in E. destruct E as (l0 & E0 & E). apply bind_ok in E. destruct E as (d1 & E1 & E).
    apply bind_ok in E. destruct E as (l1 & E3 & E). apply bind_ok in E. destruct E as (d2 & E2 & E). cbn [bind] in E.
    inversion E; subst. exact (store_minv _ _ _ _ (unset_minv _ _ _ Hd E1) E2).
  - destruct (strlist_in l) as [[xs p]|]; [|inversion E; subst; exact Hd].
    apply bind_ok in E. destruct E as (d1 & E1 & E). apply bind_ok in E. destruct E as (d2 & E2 & E). cbn [bind] in E.
    inversion E; subst. exact (store_minv _ _ _ _ (unset_minv _ _ _ Hd E1) E2).
  - inversion E; subst; exact Hd.
  - apply bind_ok in E. destruct E as (d1 & E1 & E). cbn [bind] in E. inversion E; subst. exact (unset_minv _ _ _ Hd E1).
Qed.
Lemma pmreach_minv d : pmreach d -> minv d.
Proof.
  induction 1 as [|d k v d' r H IH E|d e d' r Hd IHd He IHe E].
  - apply minv_create.
  - exact (pm_set_minv _ _ _ _ _ IH E).
  - unfold pm_update in E. apply bind_ok in E. destruct E as (d2 & E2 & E). inversion E; subst.
    destruct (mt_unite_spec d e IHd IHe) as (t & Et & Ht & _). congruence.
Qed.

(** What a reader sees. *)
Definition texts (d : mdict) (k : str) : list ostr := plain (mt_get d (cut k)).
Definition has (d : mdict) (k : str) : Prop := pm_has_key d (PyText k) = Ok (Ret true).
Lemma has_mlook d k : has d k <-> mlook d (cut k) <> None.
Proof.
  unfold has, pm_has_key. cbn [key_arg]. rewrite mt_get_mlook. cbn [bind]. destruct (mlook d (cut k)); split; congruence.
Qed.
Lemma get_mlook d k : pm_get d (PyText k) = Ok (match mlook d (cut k) with Some l => Ret l | None => Raise KeyError end).
Proof. unfold pm_get. cbn [key_arg]. rewrite mt_get_mlook. reflexivity. Qed.
Lemma texts_mlook d k : texts d k = oflat (mlook d (cut k)).
Proof. apply plain_oflat. Qed.
(** [k] is the only key that properly extends some key. *)
Definition sole_extension (d : mdict) (k : str) : Prop := only_extension d (cut k).
(** Some key properly extends [k]. *)
Definition extended (d : mdict) (k : str) : Prop := exists s, proper_prefix (cut k) s /\ listed d s.
Definition count_at (d : mdict) (k : str) : nat := match mt_get d (cut k) with Ok (Some l) => length l | _ => 0 end.
Lemma count_olist d k : count_at d k = length (olist (mlook d (cut k))).
Proof. unfold count_at. rewrite mt_get_mlook. now destruct (mlook d (cut k)). Qed.
Lemma extended_mlook d k : (exists s, s <> [] /\ mlook d (cut k ++ s) <> None) <-> extended d k.
Proof.
  split.
  - intros (s & Hs & Hl). exists (cut k ++ s). split; [|now apply listed_mlook]. destruct s as [|c s]; [congruence|]. now exists c, s.
  - intros (s & (c & r & ->) & Hh). apply listed_mlook in Hh. exists (c :: r). split; [discriminate|exact Hh].
Qed.

Lemma assign_at d k (vs : mvals) : minv d -> k <> [] ->
  (mt_unset d k = UB /\ only_extension d k) \/
  (~ only_extension d k /\ exists d1 d', mt_unset d k = Ok d1 /\ pm_store d1 k vs = Ok d' /\ minv d' /\
     (mlook d1 k = None \/ mlook d1 k = Some []) /\
     (mlook d1 k <> None <-> mlook d k <> None /\ exists s, s <> [] /\ mlook d (k ++ s) <> None) /\
     (forall k', k' <> k -> mlook d1 k' = mlook d k') /\
     mlen d1 = (mlen d - Z.of_nat (length (olist (mlook d k))))%Z /\
     mlook d' k = Some vs /\
     (forall k', k' <> k -> oflat (mlook d' k') = oflat (mlook d k')) /\
     (forall k', mlook d k' <> None -> mlook d' k' <> None) /\
     mlen d' = (mlen d - Z.of_nat (length (olist (mlook d k))) + Z.of_nat (Nat.max 1 (length vs)))%Z).
Proof.
  intros Hd Hk. pose proof (mt_unset_spec d k Hd Hk) as H.
  destruct (mt_unset d k) as [d1| |] eqn:E; [right|left; split; [reflexivity|now apply (lone_only d k Hd)]|contradiction].
  destruct H as (Hm & Hn & Hl & Hlen). split; [intros Ho; apply Hn; now apply (lone_only d k Hd)|].
  destruct (mt_unset_at d k d1 Hd Hk E) as (U1 & U2 & U3).
  destruct (store_at d1 k vs Hm Hk) as (d' & E' & S1 & S2 & S3 & S4 & S5).
  exists d1, d'. split; [reflexivity|]. split; [exact E'|]. split; [exact S1|]. split; [exact U2|]. split; [exact U3|].
  split; [exact U1|]. split; [exact Hlen|].
  assert (Hv : mlook d' k = Some vs) by (rewrite S3; destruct U2 as [-> | ->]; reflexivity).
  split; [exact Hv|]. split; [|split].
  - intros k' Hne. rewrite S4 by exact Hne. now rewrite U1.
  - intros k' Hne. destruct (streq_spec k' k) as [->|Hk']; [rewrite Hv; discriminate|]. apply S5. now rewrite U1.
  - rewrite S2, Hlen. reflexivity.
Qed.

(** What an assignment stores; [None]: it raises TypeError. *)
Definition given (v : mdarg) : option mvals :=
  match v with
  | MSeq l => Some l
  | MList l => option_map fst (strlist_in l)
  | _ => None
  end.
Lemma pm_assign d s v vs : pmreach d -> cut s <> [] -> given v = Some vs ->
  (pm_set d (PyText s) v = UB /\ sole_extension d s) \/
  (~ sole_extension d s /\ exists d' r, pm_set d (PyText s) v = Ok (d', r) /\ pmreach d' /\
     pm_get d' (PyText s) = Ok (Ret vs) /\
     (forall s', cut s' <> cut s -> texts d' s' = texts d s') /\
     (forall s', has d s' -> has d' s') /\
     pm_len d' = (pm_len d - Z.of_nat (count_at d s) + Z.of_nat (Nat.max 1 (length vs)))%Z).
Proof.
  intros Hr Hs Hv. pose proof (pmreach_minv d Hr) as Hd. unfold sole_extension.
  destruct (assign_at d (cut s) vs Hd Hs) as [(E & Ho)|(Hn & d1 & d' & E1 & E2 & Hd' & _ & _ & _ & _ & A & B & C & D)].
  - left. split; [|exact Ho]. unfold pm_set. cbn [key_arg]. destruct v as [l| |l| |]; try discriminate Hv.
    + rewrite E. reflexivity.
    + cbn [given] in Hv. destruct (strlist_in l) as [[xs p]|]; [|discriminate Hv]. rewrite E. reflexivity.
  - right. split; [exact Hn|].
    assert (Hx : exists r, pm_set d (PyText s) v = Ok (d', r)).
    { unfold pm_set. cbn [key_arg]. destruct v as [l| |l| |]; try discriminate Hv.
      - cbn [given] in Hv. inversion Hv; subst l. rewrite E1. cbn [bind]. rewrite E2. cbn [bind]. eauto.
      - cbn [given] in Hv. destruct (strlist_in l) as [[xs p]|]; [|discriminate Hv]. cbn in Hv. inversion Hv; subst xs.
        rewrite E1. cbn [bind]. rewrite E2. cbn [bind]. eauto. }
    destruct Hx as (r & Ex). exists d', r. split; [exact Ex|]. split; [exact (PM_set _ _ _ _ _ Hr Ex)|].
    split; [rewrite get_mlook, A; reflexivity|]. split; [|split].
    + intros s' Hne. rewrite !texts_mlook. now apply B.
    + intros s'. rewrite !has_mlook. apply C.
    + unfold pm_len. rewrite D, count_olist. reflexivity.
Qed.
(** The result of an assignment of a Python list of texts. *)
Lemma strlist_texts (ls : list str) : strlist_in (map PyText ls) = Some (map (fun s => MV (Some (cut s))) ls, false).
Proof. induction ls as [|s ls IH]; [reflexivity|]. cbn [map strlist_in str_in]. rewrite IH. reflexivity. Qed.
Lemma pm_assign_result d s ls : pmreach d -> cut s <> [] -> ~ sole_extension d s ->
  exists d', pm_set d (PyText s) (MList (map PyText ls)) = Ok (d', Ret tt) /\
    pm_get d' (PyText s) = Ok (Ret (map (fun x => MV (Some (cut x))) ls)).
Proof.
  intros Hr Hs Hn.
  destruct (pm_assign d s (MList (map PyText ls)) (map (fun x => MV (Some (cut x))) ls) Hr Hs) as [(_ & H)|(_ & d' & r & E & _ & G & _)].
  - cbn [given]. now rewrite strlist_texts.
  - contradiction.
  - exists d'. split; [|exact G]. rewrite E. f_equal. f_equal. unfold pm_set in E. cbn [key_arg] in E. rewrite strlist_texts in E.
    apply bind_ok in E. destruct E as (d1 & _ & E). apply bind_ok in E. destruct E as (d2 & _ & E). cbn [bind] in E. now inversion E.
Qed.
(** Refused assignments leave the dictionary alone. *)
Lemma pm_refused d k v : (forall s, k <> PyText s) \/ v = MOther \/ (exists l, v = MList l /\ strlist_in l = None) ->
  exists r, pm_set d k v = Ok (d, r) /\ r <> Ret tt.
Proof.
  intros H. unfold pm_set. destruct (key_arg k) as [s| |] eqn:Ek.
  - destruct H as [H|[->|(l & -> & ->)]].
    + destruct k; try discriminate Ek. exfalso. exact (H s0 eq_refl).
    + eexists. split; [reflexivity|discriminate].
    + eexists. split; [reflexivity|discriminate].
  - eexists. split; [reflexivity|discriminate].
  - eexists. split; [reflexivity|]. cbn [key_fails]. match goal with |- context[if ?b then _ else _] => destruct b end; discriminate.
Qed.
Lemma strlist_none l : strlist_in l = None <-> exists v, In v l /\ str_in v = None.
Proof.
  induction l as [|v l IH]; cbn [strlist_in]; [split; [discriminate|intros (v & [] & _)]|].
  destruct (str_in v) as [[x p]|] eqn:Ev.
  - destruct (strlist_in l) as [[xs q]|]; split; try discriminate.
    + intros (w & [<-|Hw] & E); [congruence|]. destruct IH as [_ IH]. discriminate IH. eauto.
    + intros _. destruct IH as [IH _]. destruct (IH eq_refl) as (w & Hw & E). exists w. split; [now right|exact E].
    + reflexivity.
  - split; [intros _; exists v; split; [now left|exact Ev]|reflexivity].
Qed.

(** Deletion. *)
Lemma pm_delete d s : pmreach d -> cut s <> [] ->
  (pm_set d (PyText s) MDel = UB /\ sole_extension d s) \/
  (~ sole_extension d s /\ exists d', pm_set d (PyText s) MDel = Ok (d', Ret tt) /\ pmreach d' /\
     (forall s', cut s' <> cut s -> pm_get d' (PyText s') = pm_get d (PyText s')) /\
     (has d s -> extended d s -> pm_get d' (PyText s) = Ok (Ret [])) /\
     (~ (has d s /\ extended d s) -> pm_get d' (PyText s) = Ok (Raise KeyError)) /\
     pm_len d' = (pm_len d - Z.of_nat (count_at d s))%Z).
Proof.
  intros Hr Hs. pose proof (pmreach_minv d Hr) as Hd. unfold sole_extension.
  destruct (assign_at d (cut s) [] Hd Hs) as [(E & Ho)|(Hn & d1 & d' & E1 & _ & _ & A & B & C & D & _)].
  - left. split; [|exact Ho]. unfold pm_set. cbn [key_arg]. rewrite E. reflexivity.
  - right. split; [exact Hn|].
    assert (Ex : pm_set d (PyText s) MDel = Ok (d1, Ret tt)) by (unfold pm_set; cbn [key_arg]; rewrite E1; reflexivity).
    exists d1. split; [exact Ex|]. split; [exact (PM_set _ _ _ _ _ Hr Ex)|]. split; [|split; [|split]].
    + intros s' Hne. rewrite !get_mlook. now rewrite C.
    + intros Hh He. rewrite get_mlook. apply has_mlook in Hh. apply extended_mlook in He.
      assert (H : mlook d1 (cut s) <> None) by (apply B; auto). destruct A as [A|A]; [congruence|]. now rewrite A.
    + intros Hne. rewrite get_mlook. rewrite has_mlook, <- extended_mlook in Hne.
      destruct A as [A|A]; [now rewrite A|]. exfalso. apply Hne. apply B. rewrite A. discriminate.
    + unfold pm_len. rewrite D, count_olist. reflexivity.
Qed.
(** d[k] = d[k]. *)
Lemma pm_self d s l : pmreach d -> cut s <> [] -> pm_get d (PyText s) = Ok (Ret l) ->
  (pm_set d (PyText s) MOwn = UB /\ sole_extension d s) \/
  (~ sole_extension d s /\ exists d', pm_set d (PyText s) MOwn = Ok (d', Ret tt) /\
     (extended d s -> pm_get d' (PyText s) = Ok (Ret [])) /\
     (~ extended d s -> pm_get d' (PyText s) = Ok (Ret l))).
Proof.
  intros Hr Hs Hg. pose proof (pmreach_minv d Hr) as Hd. unfold sole_extension.
  assert (Hl : mlook d (cut s) = Some l) by (rewrite get_mlook in Hg; destruct (mlook d (cut s)); congruence).
  assert (Hh : mlook d (cut s) <> None) by (rewrite Hl; discriminate).
  unfold pm_set. cbn [key_arg]. rewrite (mt_get_mlook d), Hl. cbn [bind].
  destruct (assign_at d (cut s) [] Hd Hs) as [(E & Ho)|(Hn & d1 & d' & E1 & E2 & _ & A & B & _ & _ & V & _)].
  - left. split; [|exact Ho]. rewrite E. reflexivity.
  - right. split; [exact Hn|]. rewrite E1. cbn [bind]. rewrite mt_get_mlook. cbn [bind].
    pose proof (extended_mlook d s) as Hx. destruct A as [A|A]; rewrite A.
    + destruct (assign_at d (cut s) l Hd Hs) as [(E' & _)|(_ & d1' & d2 & E1' & E2' & _ & _ & _ & _ & _ & V' & _)]; [congruence|].
      assert (d1' = d1) by congruence. subst d1'. rewrite E2'. cbn [bind]. exists d2. split; [reflexivity|]. split.
      * intros He. exfalso. apply (proj2 B); [|exact A]. split; [exact Hh|]. now apply Hx.
      * intros _. rewrite get_mlook, V'. reflexivity.
    + rewrite E2. cbn [bind]. exists d'. split; [reflexivity|]. split.
      * intros _. rewrite get_mlook, V. reflexivity.
      * intros He. exfalso. apply He. apply Hx. apply B. rewrite A. discriminate.
Qed.

(** Update, comparison, lists. *)
Lemma pm_update_texts d e : pmreach d -> pmreach e ->
  exists d', pm_update d (Some e) = Ok (d', Ret tt) /\ pmreach d' /\ forall s, texts d' s = texts d s ++ texts e s.
Proof.
  intros Hd He. destruct (mt_unite_spec d e (pmreach_minv _ Hd) (pmreach_minv _ He)) as (t & E & _ & Hl).
  assert (Ex : pm_update d (Some e) = Ok (t, Ret tt)) by (unfold pm_update; rewrite E; reflexivity).
  exists t. split; [exact Ex|]. split; [exact (PM_update _ _ _ _ Hd He Ex)|]. intros s. rewrite !texts_mlook. apply Hl.
Qed.
Lemma mval_ind' {V} (P : mval V -> Prop) : (forall v, P (MV v)) -> (forall l, Forall P l -> P (MNest l)) -> forall v, P v.
Proof.
  intros H1 H2. fix IH 1. intros [v|l]; [apply H1|]. apply H2. induction l as [|x l IHl]; constructor; [apply IH|exact IHl].
Qed.
Lemma mval_eq_nest l m : mval_eq (MNest l) (MNest m) = mvals_eq l m.
Proof. revert m. induction l as [|x l IH]; intros [|y m]; try reflexivity.  Qed.
Lemma mval_eq_refl v : mval_eq v v = true.
Proof.
  induction v as [x|l IH] using mval_ind'; [cbn; now apply ostr_cmp_eq|]. rewrite mval_eq_nest.
  induction IH as [|x l Hx _ IHl]; [reflexivity|]. cbn [mvals_eq]. now rewrite Hx, IHl.
Qed.
Lemma mvals_eq_refl l : mvals_eq l l = true.
Proof. rewrite <- mval_eq_nest. apply mval_eq_refl. Qed.
Lemma pm_cmp_keys d e : pmreach d -> pmreach e ->
  exists b, pm_cmp d (Some e) OpEq = Ok (Ret b) /\ pm_cmp d (Some e) OpNe = Ok (Ret (negb b)) /\
    (b = true <-> forall k, listed d k <-> listed e k).
Proof.
  intros Hd He. destruct (mt_cmp_spec mvals_eq d e mvals_eq_refl (pmreach_minv _ Hd) (pmreach_minv _ He)) as (b & E & Hb).
  exists b. unfold pm_cmp, dict_cmp. rewrite E. cbn [bind]. split; [reflexivity|]. split; [reflexivity|]. rewrite Hb.
  split; intros H k; specialize (H k); rewrite !listed_mlook in *; destruct (mlook d k), (mlook e k); intuition congruence.
Qed.
Lemma pm_lists d : pmreach d ->
  exists ps, NoDup (map fst ps) /\ (forall k l, In (k, l) ps <-> mt_get d k = Ok (Some l)) /\
    mt_pairs d = Ok ps /\
    pm_keys d = Ok (to_pys (map fst ps)) /\
    pm_items d = (if forallb utf8 (map fst ps) then Ok (Ret ps) else UB) /\
    pm_values d = match ps with [] => Ok (Ret []) | _ => UB end.
Proof.
  intros Hr. destruct (mt_pairs_spec d (pmreach_minv d Hr)) as (ps & E & H1 & H2 & H3 & H4). exists ps.
  split; [exact H1|]. split; [exact H2|]. split; [exact E|]. unfold pm_keys, pm_items, pm_values. rewrite E, H3, H4. cbn [bind].
  split; [reflexivity|]. split.
  - replace (forallb (fun p => utf8 (fst p)) ps) with (forallb utf8 (map fst ps)); [reflexivity|].
    clear. induction ps as [|p ps IH]; [reflexivity|]. cbn. now rewrite IH.
  - destruct ps; reflexivity.
Qed.
Lemma no_pairs d : pmreach d -> (mt_pairs d = Ok [] <-> forall k, ~ listed d k).
Proof.
  intros Hr. destruct (mt_pairs_spec d (pmreach_minv d Hr)) as (ps & E & _ & H & _). rewrite E. split.
  - intros E' k (l & Hl). inversion E'; subst. apply H in Hl. contradiction.
  - intros Hn. destruct ps as [|[k l] ps]; [reflexivity|]. exfalso. apply (Hn k). exists l. apply H. now left.
Qed.
Lemma hitems_pairs d : pmreach d -> (hitems (mroot d) = [] <-> forall k, ~ listed d k).
Proof.
  intros Hr. pose proof (pmreach_minv d Hr) as (Hw & _ & Hf). split.
  - intros E k Hl. apply listed_mlook in Hl. apply Hl. unfold mlook. destruct k as [|c k]; [apply look_nil|].
    apply look_notin; [exact Hw|]. rewrite E. constructor.
  - intros Hn. destruct (hitems (mroot d)) as [|n l] eqn:E; [reflexivity|]. exfalso.
    assert (Hin : In n (hitems (mroot d))) by (rewrite E; now left).
    apply (Hn (nkey n)). apply listed_mlook. unfold mlook. rewrite (look_in (mroot d) n) by (auto; exact (wff_key _ _ Hw Hin)). rewrite nlook_self.
    exact (full_data _ _ Hf Hin).
Qed.
Lemma pm_copy_clear d : pmreach d ->
  ((exists k, listed d k) -> pm_copy d = UB /\ pm_clear d = UB) /\
  ((forall k, ~ listed d k) -> pm_clear d = Ok d /\ exists d', pm_copy d = Ok d' /\ (forall k, ~ listed d' k) /\ pm_len d' = pm_len d).
Proof.
  intros Hr. pose proof (hitems_pairs d Hr) as H. unfold pm_copy, pm_clear, mt_clear.
  destruct (hitems (mroot d)) as [|n l] eqn:E.
  - split; [intros (k & Hk); exfalso; exact (proj1 H eq_refl k Hk)|]. intros _. split; [reflexivity|]. eexists. split; [reflexivity|].
    split; [|reflexivity]. intros k Hl. apply listed_mlook in Hl. apply Hl. unfold mlook. cbn [mroot]. apply look_empty.
  - split; [auto|]. intros Hn. apply H in Hn. discriminate.
Qed.

(** Texts. *)
Fixpoint shown (v : mval ostr) : str :=
  match v with MV x => str_tostr x | MNest l => S_ "[" ++ join (S_ ", ") (map shown l) ++ S_ "]" end.
Definition seq_shown (l : mvals) : str := S_ "[" ++ join (S_ ", ") (map shown l) ++ S_ "]".
Lemma mval_text_shown v : mval_text v = Ok (shown v).
Proof.
  induction v as [x|l IH] using mval_ind'; [reflexivity|]. cbn [mval_text shown].
  match goal with |- bind (?go l) _ = _ => assert (E : go l = Ok (map shown l)) end.
  { induction IH as [|y l Hy _ IHl]; [reflexivity|]. rewrite Hy. cbn [bind]. rewrite IHl. reflexivity. }
  rewrite E. cbn [bind]. apply list_tostr_ok.
Qed.
Lemma seq_texts_shown l : seq_texts l = Ok (map shown l).
Proof. unfold seq_texts. induction l as [|y l IH]; [reflexivity|]. cbn [map_r map]. rewrite mval_text_shown. cbn [bind]. rewrite IH. reflexivity. Qed.
Definition readable (p : str * mvals) : bool := utf8 (fst p) && utf8 (seq_shown (snd p)).
Lemma pm_entries_ok ps : ps <> [] ->
  pm_entries ps = if forallb readable ps
                  then Ok (join (S_ ", ") (map (fun p => entry_text (fst p, seq_shown (snd p)) []) ps)) else UB.
Proof.
  induction ps as [|[k l] ps IH]; [congruence|]. intros _. destruct ps as [|p ps].
  - cbn [pm_entries forallb map join]. unfold readable. unfold decode at 1. cbn [fst snd].
    destruct (utf8 k); [|reflexivity]. cbn [bind andb]. rewrite seq_texts_shown. cbn [bind]. rewrite list_tostr_ok. cbn [bind].
    fold (seq_shown l). unfold decode. destruct (utf8 (seq_shown l)); reflexivity.
  - specialize (IH ltac:(discriminate)). set (q := p :: ps) in *.
    change (pm_entries ((k, l) :: q)) with
      (k' <- decode k ;; ts <- seq_texts l ;; t <- list_tostr ts ;; t' <- decode t ;;
       rest <- pm_entries q ;; Ok (entry_text (k', t') (S_ ", ") ++ rest)).
    rewrite IH, seq_texts_shown. cbn [forallb map]. rewrite join_cons by (subst q; discriminate).
    replace (readable (k, l)) with (utf8 k && utf8 (seq_shown l)) by reflexivity. unfold decode at 1. cbn [fst snd]. destruct (utf8 k); [|reflexivity]. cbn [bind andb].
    rewrite list_tostr_ok. cbn [bind]. fold (seq_shown l). unfold decode. destruct (utf8 (seq_shown l)); [|reflexivity]. cbn [bind andb].
    destruct (forallb readable q); [|reflexivity]. cbn [bind]. f_equal. unfold entry_text. cbn [fst snd].
    rewrite !app_nil_r, <- !app_assoc. reflexivity.
Qed.
Lemma pm_str_text d ps : mt_pairs d = Ok ps ->
  pm_str d = match ps with
             | [] => UB
             | _ => if forallb readable ps
                    then Ok (S_ "{" ++ join (S_ ", ") (map (fun p => fst p ++ S_ " = '" ++ seq_shown (snd p) ++ S_ "'") ps) ++ S_ "}")
                    else UB
             end.
Proof.
  intros E. unfold pm_str. rewrite E. cbn [bind]. destruct ps as [|p ps]; [reflexivity|]. rewrite pm_entries_ok by discriminate.
  destruct (forallb readable (p :: ps)); [|reflexivity]. cbn [bind].
  assert (Hm : forall l, map (fun p0 : str * mvals => entry_text (fst p0, seq_shown (snd p0)) []) l = map (fun p0 => fst p0 ++ S_ " = '" ++ seq_shown (snd p0) ++ S_ "'") l).
  { intros l. apply map_ext. intros p0. unfold entry_text. cbn [fst snd]. now rewrite app_nil_r. }
  rewrite Hm. reflexivity.
Qed.

(** d.update(d) does not end. *)
Lemma self_forever n : forall (l : mvals) i, i < length l -> exists st, self_turns n (l, i) = Some st.
Proof.
  induction n as [|n IH]; intros l i Hi; [eexists; reflexivity|]. cbn [self_turns self_turn]. unfold self_turn. cbn [fst snd].
  destruct (nth_error l i) as [v|] eqn:E; [|apply nth_error_None in E; lia]. apply IH. rewrite app_length. cbn. lia.
Qed.
