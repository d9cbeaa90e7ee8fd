(** Facts about the memory of the document objects: the account of references that
    every counter keeps, and what releasing a reference does. *)
From Coq Require Import Permutation.
From Verif Require Import CStr CStrFacts ObjMemModel.

(** * References *)
Fixpoint somes (l : list ref) : list addr := match l with [] => [] | Some a :: r => a :: somes r | None :: r => somes r end.
Definition sref (s : slot) : list addr := match s with Ptr (Some a) => [a] | _ => [] end.
Definition refs (l : list slot) : list addr := flat_map sref l.
(** What an object keeps references to. *)
Definition kids (c : cell) : list addr := refs (map snd (slots c)).
Definition live (h : mem) (a : addr) : Prop := exists c, nth_error h a = Some (Some c).
Notation cnt a l := (count_occ Nat.eq_dec l a).
Definition kidsof (h : mem) (c : addr) : list addr := match nth_error h c with Some (Some x) => kids x | _ => [] end.
Fixpoint sumn (n : nat) (f : nat -> nat) : nat := match n with O => 0 | S n' => sumn n' f + f n' end.
Definition isin (c : addr) (E : list addr) : bool := if in_dec Nat.eq_dec c E then true else false.
(** The references to [a] kept by the objects outside [E]. *)
Definition heldE (h : mem) (E : list addr) (a : addr) : nat := sumn (length h) (fun c => if isin c E then 0 else cnt a (kidsof h c)).
(** [ext]: the references owned by callers; the slots of [E] are counted there too. *)
Record Inv (h : mem) (ext E : list addr) : Prop := mkInv {
  inv_refc : forall a c, nth_error h a = Some (Some c) -> S (refc c) = cnt a ext + heldE h E a;
  inv_live : forall a, 0 < cnt a ext + heldE h E a -> live h a }.

(** * Sums *)
Lemma sumn_ext n f g : (forall i, i < n -> f i = g i) -> sumn n f = sumn n g.
Proof. induction n; cbn; intros H; [reflexivity|]. rewrite IHn by (intros; apply H; lia). now rewrite H by lia. Qed.
Lemma sumn_upd n f g i : i < n -> (forall j, j < n -> j <> i -> f j = g j) -> sumn n f + g i = sumn n g + f i.
Proof.
  induction n; cbn; intros Hi H; [lia|].
  destruct (Nat.eq_dec i n) as [->|Hn].
  - rewrite (sumn_ext n f g) by (intros; apply H; lia). lia.
  - rewrite (H n) by lia. specialize (IHn ltac:(lia) ltac:(intros; apply H; lia)). lia.
Qed.
Lemma sumn_le n f g : (forall i, i < n -> f i <= g i) -> sumn n f <= sumn n g.
Proof. induction n; cbn; intros H; [lia|]. specialize (IHn ltac:(intros; apply H; lia)). specialize (H n ltac:(lia)). lia. Qed.
Lemma sumn_pos n f : 0 < sumn n f <-> exists i, i < n /\ 0 < f i.
Proof.
  induction n; cbn; [split; [lia|intros (i & Hi & _); lia]|].
  split.
  - intros H. destruct (Nat.eq_dec (f n) 0); [|exists n; lia]. destruct (proj1 IHn ltac:(lia)) as (i & Hi & Hf). exists i. lia.
  - intros (i & Hi & Hf). destruct (Nat.eq_dec i n) as [->|]; [lia|]. assert (0 < sumn n f) by (apply IHn; exists i; lia). lia.
Qed.

(** * Memory *)
Lemma poke_same (h : mem) a c : a < length h -> nth_error (poke h a c) a = Some c.
Proof.
  unfold poke. revert a; induction h as [|x h IH]; cbn; intros [|a] H; try lia; [reflexivity|]. apply IH; lia.
Qed.
Lemma poke_other (h : mem) a b c : a <> b -> nth_error (poke h a c) b = nth_error h b.
Proof.
  unfold poke. revert a b; induction h as [|x h IH]; cbn; intros [|a] [|b] H; auto; try lia. apply IH; lia.
Qed.
Lemma poke_length h a c : length (poke h a c) = length h.
Proof. apply list_upd_length. Qed.
Lemma live_lt h a : live h a -> a < length h.
Proof. intros (c & H). apply nth_error_Some. congruence. Qed.
Lemma at_lt (h : mem) a c : nth_error h a = Some (Some c) -> a < length h.
Proof. intros H. apply live_lt. now exists c. Qed.
Lemma peek_ok (h : mem) a c : nth_error h a = Some (Some c) -> peek h a = Ok c.
Proof. unfold peek. now intros ->. Qed.
Lemma kidsof_at (h : mem) a c : nth_error h a = Some (Some c) -> kidsof h a = kids c.
Proof. unfold kidsof. now intros ->. Qed.
Lemma kidsof_lt h c x : In x (kidsof h c) -> c < length h.
Proof. unfold kidsof. intros H. apply nth_error_Some. destruct (nth_error h c); [discriminate|destruct H]. Qed.
Lemma isin_true c E : isin c E = true <-> In c E.
Proof. unfold isin. destruct (in_dec Nat.eq_dec c E); split; auto; discriminate. Qed.
Lemma isin_false c E : isin c E = false <-> ~ In c E.
Proof. unfold isin. destruct (in_dec Nat.eq_dec c E); split; auto; [discriminate|contradiction]. Qed.
Lemma isin_cons c a E : isin c (a :: E) = orb (a =? c) (isin c E).
Proof.
  destruct (isin c (a :: E)) eqn:H1.
  - apply isin_true in H1. destruct H1 as [->|H1]; [now rewrite Nat.eqb_refl|]. apply isin_true in H1. rewrite H1. now rewrite orb_true_r.
  - apply isin_false in H1. symmetry. apply orb_false_iff. split; [apply Nat.eqb_neq|apply isin_false]; intros H; apply H1; [left|right]; auto.
Qed.

(** * The account under changes of memory *)
Lemma heldE_ext h h' E a : length h' = length h -> (forall c, kidsof h' c = kidsof h c) -> heldE h' E a = heldE h E a.
Proof. intros Hl H. unfold heldE. rewrite Hl. apply sumn_ext. intros i _. now rewrite H. Qed.
Lemma heldE_pos h E a : 0 < heldE h E a <-> exists c, ~ In c E /\ In a (kidsof h c).
Proof.
  unfold heldE. rewrite sumn_pos. split.
  - intros (c & _ & H). destruct (isin c E) eqn:Hc; [lia|]. exists c. split; [now apply isin_false|].
    apply (count_occ_In Nat.eq_dec). exact H.
  - intros (c & Hc & Hi). exists c. split; [eapply kidsof_lt; eauto|]. apply isin_false in Hc. rewrite Hc. now apply count_occ_In.
Qed.
(** Changing one object's items. *)
Lemma heldE_change h h' E l a : length h' = length h -> l < length h -> ~ In l E -> (forall c, c <> l -> kidsof h' c = kidsof h c) ->
  heldE h' E a + cnt a (kidsof h l) = heldE h E a + cnt a (kidsof h' l).
Proof.
  intros Hlen Hl HE H. unfold heldE. rewrite Hlen. apply isin_false in HE.
  pose proof (sumn_upd (length h) (fun c => if isin c E then 0 else cnt a (kidsof h' c)) (fun c => if isin c E then 0 else cnt a (kidsof h c)) l Hl) as U.
  cbn beta in U. rewrite HE in U. apply U. intros j _ Hj. now rewrite H.
Qed.
(** Setting an object aside. *)
Lemma heldE_aside h E l a : l < length h -> ~ In l E -> heldE h E a = heldE h (l :: E) a + cnt a (kidsof h l).
Proof.
  intros Hl HE. unfold heldE. apply isin_false in HE.
  pose proof (sumn_upd (length h) (fun c => if isin c E then 0 else cnt a (kidsof h c)) (fun c => if isin c (l :: E) then 0 else cnt a (kidsof h c)) l Hl) as U.
  cbn beta in U. rewrite HE, isin_cons, Nat.eqb_refl in U. cbn [orb] in U. rewrite <- U; [lia|].
  intros j _ Hj. rewrite isin_cons. destruct (Nat.eqb_spec l j); [congruence|reflexivity].
Qed.
Lemma heldE_le h h' E a : length h' = length h -> (forall c, kidsof h' c = kidsof h c \/ kidsof h' c = []) -> heldE h' E a <= heldE h E a.
Proof.
  intros Hl H. unfold heldE. rewrite Hl. apply sumn_le. intros i _. destruct (isin i E); [lia|]. destruct (H i) as [->| ->]; cbn; lia.
Qed.
Lemma heldE_app h c E a : heldE (h ++ [c]) E a =
  heldE h E a + (if isin (length h) E then 0 else match c with Some x => cnt a (kids x) | None => 0 end).
Proof.
  unfold heldE. rewrite app_length, Nat.add_1_r. cbn [sumn]. f_equal.
  - apply sumn_ext. intros i Hi. destruct (isin i E); [reflexivity|]. unfold kidsof. now rewrite nth_error_app1.
  - destruct (isin (length h) E); [reflexivity|]. unfold kidsof. rewrite nth_error_app2, Nat.sub_diag by lia. cbn. now destruct c.
Qed.

(** * The invariant *)
Lemma Inv_perm h ext ext' E : (forall a, cnt a ext' = cnt a ext) -> Inv h ext E -> Inv h ext' E.
Proof. intros P [H1 H2]. constructor; auto; intros a; rewrite P; auto. Qed.
Lemma Inv_nil : Inv [] [] [].
Proof. constructor; cbn; intros [|a]; try discriminate; lia. Qed.
Lemma Inv_ext_live h ext E a : Inv h ext E -> In a ext -> live h a.
Proof. intros I Ha. apply (inv_live _ _ _ I). apply (count_occ_In Nat.eq_dec) in Ha. lia. Qed.
Lemma Inv_kid_live h ext E c a : Inv h ext E -> ~ In c E -> In a (kidsof h c) -> live h a.
Proof. intros I Hc Ha. apply (inv_live _ _ _ I). assert (0 < heldE h E a) by (apply heldE_pos; eauto). lia. Qed.
(** Giving out a new object. *)
Lemma Inv_create h ext x : Inv h ext [] -> kids x = [] -> refc x = 0 -> Inv (h ++ [Some x]) (length h :: ext) [].
Proof.
  intros I Hk Hp.
  assert (Hh : forall a, heldE (h ++ [Some x]) [] a = heldE h [] a).
  { intros a. rewrite heldE_app. cbn. rewrite Hk. cbn. lia. }
  assert (Hn : cnt (length h) ext + heldE h [] (length h) = 0).
  { destruct (Nat.eq_dec (cnt (length h) ext + heldE h [] (length h)) 0) as [E0|E0]; [exact E0|].
    assert (L : live h (length h)) by (apply (inv_live _ _ _ I); lia). apply live_lt in L. lia. }
  constructor.
  - intros a c Hc. rewrite Hh. destruct (Nat.lt_ge_cases a (length h)) as [Ha|Ha].
    + rewrite nth_error_app1 in Hc by assumption. cbn [count_occ]. destruct (Nat.eq_dec (length h) a); [lia|]. now apply (inv_refc _ _ _ I).
    + assert (a = length h). { assert (a < length (h ++ [Some x])) by (apply nth_error_Some; congruence). rewrite app_length in *. cbn in *. lia. }
      subst a. rewrite nth_error_app2, Nat.sub_diag in Hc by lia. cbn in Hc. injection Hc as <-. rewrite Hp. cbn [count_occ].
      destruct (Nat.eq_dec (length h) (length h)); [lia|congruence].
  - intros a. rewrite Hh. cbn [count_occ]. destruct (Nat.eq_dec (length h) a) as [<-|Hne]; intros H.
    + exists x. rewrite nth_error_app2, Nat.sub_diag by lia. reflexivity.
    + destruct (inv_live _ _ _ I a H) as (c & Hc). exists c. rewrite nth_error_app1; [exact Hc|]. apply nth_error_Some. congruence.
Qed.
(** Replacing the slots of an object: what it takes, callers lose. *)
Lemma Inv_put h ext ext' E l c x : Inv h ext E -> ~ In l E -> nth_error h l = Some (Some c) -> refc x = refc c ->
  (forall a, cnt a ext' + cnt a (kids x) = cnt a ext + cnt a (kids c)) ->
  Inv (poke h l (Some x)) ext' E.
Proof.
  intros I HE Hc Hp Hsum. pose proof (at_lt _ _ _ Hc) as Hl. set (h' := poke h l (Some x)).
  assert (Hk : kidsof h' l = kids x) by (unfold h'; rewrite (kidsof_at _ _ x); [reflexivity|now apply poke_same]).
  assert (Hh : forall a, cnt a ext' + heldE h' E a = cnt a ext + heldE h E a).
  { intros a. pose proof (heldE_change h h' E l a (poke_length _ _ _) Hl HE) as U.
    rewrite Hk, (kidsof_at _ _ _ Hc) in U. specialize (Hsum a).
    assert (forall c0, c0 <> l -> kidsof h' c0 = kidsof h c0) as U0. { intros c0 Hne. unfold kidsof, h'. rewrite poke_other by congruence. reflexivity. }
    specialize (U U0). lia. }
  constructor.
  - intros a c' H. rewrite Hh. unfold h' in H. destruct (Nat.eq_dec l a) as [<-|Hne].
    + rewrite poke_same in H by assumption. injection H as <-. rewrite Hp. now apply (inv_refc _ _ _ I).
    + rewrite poke_other in H by assumption. now apply (inv_refc _ _ _ I).
  - intros a H. rewrite Hh in H. destruct (inv_live _ _ _ I a H) as (c' & Hc'). unfold h', live. destruct (Nat.eq_dec l a) as [<-|Hne].
    + rewrite poke_same by assumption. eauto.
    + rewrite poke_other by assumption. eauto.
Qed.
(** Counting up or down. *)
Lemma Inv_count h ext ext' E a c n : Inv h ext E -> nth_error h a = Some (Some c) ->
  n + cnt a ext = refc c + cnt a ext' -> (forall b, b <> a -> cnt b ext' = cnt b ext) ->
  Inv (poke h a (Some (mkC n (kind c) (slots c)))) ext' E.
Proof.
  intros I Hc Hn Ho. pose proof (at_lt _ _ _ Hc) as Hl. set (h' := poke h a (Some (mkC n (kind c) (slots c)))).
  assert (Hh : forall b, heldE h' E b = heldE h E b).
  { intros b. apply heldE_ext; [apply poke_length|]. intros x. unfold kidsof, h'. destruct (Nat.eq_dec a x) as [<-|Hne].
    - rewrite poke_same by assumption. now rewrite Hc.
    - now rewrite poke_other by assumption. }
  pose proof (inv_refc _ _ _ I a c Hc) as Hr.
  constructor.
  - intros b c' H. rewrite Hh. unfold h' in H. destruct (Nat.eq_dec a b) as [<-|Hne].
    + rewrite poke_same in H by assumption. injection H as <-. cbn. lia.
    + rewrite poke_other in H by assumption. rewrite Ho by congruence. now apply (inv_refc _ _ _ I).
  - intros b H. rewrite Hh in H. unfold h', live. destruct (Nat.eq_dec a b) as [<-|Hne].
    + rewrite poke_same by assumption. eauto.
    + rewrite poke_other by assumption. apply (inv_live _ _ _ I). now rewrite Ho in H by congruence.
Qed.
(** Setting a list aside: its items are counted among the callers' references. *)
Lemma Inv_aside h ext E l : Inv h ext E -> l < length h -> ~ In l E -> Inv h (kidsof h l ++ ext) (l :: E).
Proof.
  intros I Hl HE. constructor; intros a; pose proof (heldE_aside h E l a Hl HE) as U.
  - intros c Hc. rewrite count_occ_app. pose proof (inv_refc _ _ _ I a c Hc). lia.
  - intros H. rewrite count_occ_app in H. apply (inv_live _ _ _ I). lia.
Qed.

(** * Releasing a reference *)
(** Objects only disappear; the others keep their contents. *)
Definition shrinks (h h' : mem) : Prop :=
  length h' = length h /\
  forall a c', nth_error h' a = Some (Some c') -> exists c, nth_error h a = Some (Some c) /\ kind c' = kind c /\ slots c' = slots c /\ refc c' <= refc c.
Lemma shrinks_refl h : shrinks h h.
Proof. split; auto. intros a c H. exists c. auto. Qed.
Lemma shrinks_trans h1 h2 h3 : shrinks h1 h2 -> shrinks h2 h3 -> shrinks h1 h3.
Proof.
  intros [L1 S1] [L2 S2]. split; [congruence|]. intros a c3 H3. destruct (S2 _ _ H3) as (c2 & H2 & K2 & E2 & R2). destruct (S1 _ _ H2) as (c1 & H1 & K1 & E1 & R1).
  exists c1. split; [exact H1|]. split; [congruence|]. split; [congruence|lia].
Qed.
Lemma shrinks_kids h h' c : shrinks h h' -> kidsof h' c = kidsof h c \/ kidsof h' c = [].
Proof.
  intros [_ H]. unfold kidsof. destruct (nth_error h' c) as [[x|]|] eqn:E; auto. destruct (H _ _ E) as (y & -> & _ & Es & _). unfold kids. rewrite Es. auto.
Qed.
Definition liveE (h : mem) (E : list addr) : nat :=
  sumn (length h) (fun c => if isin c E then 0 else match nth_error h c with Some (Some _) => 1 | _ => 0 end).
Lemma liveE_shrinks h h' E : shrinks h h' -> liveE h' E <= liveE h E.
Proof.
  intros [L H]. unfold liveE. rewrite L. apply sumn_le. intros i _. destruct (isin i E); [lia|].
  destruct (nth_error h' i) as [[x|]|] eqn:Ei; try lia. destruct (H _ _ Ei) as (y & -> & _). lia.
Qed.
Lemma liveE_aside h E a c : nth_error h a = Some (Some c) -> ~ In a E -> liveE h E = S (liveE h (a :: E)).
Proof.
  intros Hc HE. unfold liveE. apply isin_false in HE.
  pose proof (sumn_upd (length h) (fun c => if isin c E then 0 else match nth_error h c with Some (Some _) => 1 | _ => 0 end)
                (fun c => if isin c (a :: E) then 0 else match nth_error h c with Some (Some _) => 1 | _ => 0 end) a (at_lt _ _ _ Hc)) as U.
  cbn beta in U. rewrite HE, isin_cons, Nat.eqb_refl, Hc in U. cbn [orb] in U. rewrite Nat.add_1_r in U. rewrite <- U; [lia|].
  intros j _ Hj. rewrite isin_cons. destruct (Nat.eqb_spec a j); [congruence|reflexivity].
Qed.
Lemma liveE_length h E : liveE h E <= length h.
Proof.
  unfold liveE. assert (K : forall n f, (forall i, f i <= 1) -> sumn n f <= n).
  { intros n f Hf. induction n; cbn; [lia|]. specialize (Hf n). lia. }
  apply K. intros i. destruct (isin i E); [lia|]. destruct (nth_error h i) as [[x|]|]; lia.
Qed.
Lemma somes_cons r l : somes (r :: l) = somes [r] ++ somes l.
Proof. now destruct r. Qed.
Lemma somes_app l1 l2 : somes (l1 ++ l2) = somes l1 ++ somes l2.
Proof. induction l1 as [|[a|] l1 IH]; cbn; auto. now rewrite IH. Qed.
Lemma somes_in a l : In a (somes l) <-> In (Some a) l.
Proof.
  induction l as [|[b|] l IH]; cbn; [tauto| |].
  - rewrite IH. split; (intros [H|H]; [left; congruence|now right]).
  - rewrite IH. split; [auto|intros [H|H]; [discriminate|auto]].
Qed.

(** Reached from the callers' references through objects outside [E]. *)
Inductive reach (h : mem) (E ext : list addr) : addr -> Prop :=
| reach_root a : In a ext -> reach h E ext a
| reach_kid l a : reach h E ext l -> ~ In l E -> In a (kidsof h l) -> reach h E ext a.
Definition anchored (h : mem) (E ext : list addr) : Prop := forall e, In e E -> reach h E ext e.
Lemma reach_mono h E ext ext' a : incl ext ext' -> reach h E ext a -> reach h E ext' a.
Proof. intros Hi H. induction H; [constructor; auto|eapply reach_kid; eauto]. Qed.
Lemma reach_live h E ext a : Inv h ext E -> reach h E ext a -> live h a.
Proof. intros I H. destruct H; [eapply Inv_ext_live; eauto|eapply Inv_kid_live; eauto]. Qed.
Lemma live_kids h h' a : shrinks h h' -> live h' a -> kidsof h' a = kidsof h a.
Proof. intros [_ H] (c & Hc). destruct (H _ _ Hc) as (c0 & H0 & _ & E & _). rewrite (kidsof_at _ _ _ Hc), (kidsof_at _ _ _ H0). unfold kids. now rewrite E. Qed.
Lemma reach_shrinks h h' E ext ext' a : Inv h' ext' E -> incl ext ext' -> shrinks h h' -> reach h E ext a -> reach h' E ext a.
Proof.
  intros I Hi Hs H. induction H as [a Ha|l a Hl IH HE Ha]; [now constructor|].
  eapply reach_kid; [exact IH|exact HE|]. rewrite (live_kids h h' l Hs); [exact Ha|]. eapply reach_live; [exact I|]. eapply reach_mono; eauto.
Qed.
Lemma reach_aside h E ext a x : ~ reach h E ext a -> reach h E ext x -> reach h (a :: E) ext x.
Proof.
  intros Hn H. induction H as [x Hx|l x Hl IH HE Hx]; [now constructor|]. eapply reach_kid; [exact IH| |exact Hx].
  intros [->|H]; [exact (Hn Hl)|exact (HE H)].
Qed.

(** Objects with unusable slots are reachable by the callers. *)
Definition holey (c : cell) : Prop := In Hole (map snd (slots c)).
Definition holes (h : mem) (E ext : list addr) : Prop := forall a c, nth_error h a = Some (Some c) -> holey c -> reach h E ext a.
Definition destroy_good (f : mem -> ref -> res mem) (E : list addr) (n : nat) : Prop :=
  forall h r ext, Inv h (somes [r] ++ ext) E -> anchored h E ext -> liveE h E < n -> holes h E ext ->
    exists h', f h r = Ok h' /\ Inv h' ext E /\ shrinks h h'.
Lemma each_ok f E n : destroy_good f E n -> forall l h ext, ~ In Hole l -> Inv h (refs l ++ ext) E -> anchored h E ext -> liveE h E < n -> holes h E ext ->
  exists h', each f h l = Ok h' /\ Inv h' ext E /\ shrinks h h'.
Proof.
  intros Hf. induction l as [|r l IH]; intros h ext Hh I HE Hn Ho; cbn [each].
  - exists h. split; [reflexivity|]. split; [exact I|apply shrinks_refl].
  - destruct r as [|r]; [exfalso; apply Hh; now left|].
    assert (Es : refs (Ptr r :: l) = somes [r] ++ refs l) by (destruct r; reflexivity).
    rewrite Es, <- app_assoc in I.
    assert (Hinc : incl ext (refs l ++ ext)) by (intros x Hx; apply in_or_app; now right).
    destruct (Hf h r (refs l ++ ext) I) as (h1 & -> & I1 & S1); [intros x Hx; eapply reach_mono; [exact Hinc|now apply HE]|exact Hn| |].
    { intros x c Hc Hx. eapply reach_mono; [exact Hinc|exact (Ho x c Hc Hx)]. }
    cbn [bind]. destruct (IH h1 ext) as (h2 & -> & I2 & S2).
    + intros X. apply Hh. now right.
    + exact I1.
    + intros x Hx. eapply reach_shrinks; [exact I1|exact Hinc|exact S1|now apply HE].
    + pose proof (liveE_shrinks _ _ E S1). lia.
    + intros x c Hc Hx. destruct (proj2 S1 _ _ Hc) as (c0 & H0 & _ & E0 & _). eapply reach_shrinks; [exact I1|exact Hinc|exact S1|]. apply (Ho x c0 H0). unfold holey in *. now rewrite <- E0.
    + exists h2. split; [reflexivity|]. split; [exact I2|]. eapply shrinks_trans; eauto.
Qed.

Lemma destroy_ok fuel : forall E, destroy_good (destroy fuel) E fuel.
Proof.
  induction fuel as [|fuel IH]; intros E h r ext I HE Hn Ho; [lia|].
  destruct r as [a|]; [|exists h; split; [reflexivity|]; split; [exact I|apply shrinks_refl]].
  cbn [somes app] in I. cbn [destroy].
  destruct (Inv_ext_live _ _ _ a I (or_introl eq_refl)) as (c & Hc). rewrite (peek_ok _ _ _ Hc). cbn [bind].
  pose proof (inv_refc _ _ _ I a c Hc) as Hr. cbn [count_occ] in Hr. destruct (Nat.eq_dec a a) as [_|X]; [|congruence].
  pose proof (at_lt _ _ _ Hc) as Hlt.
  destruct (refc c) as [|n] eqn:Erc.
  2:{ exists (poke h a (Some (mkC n (kind c) (slots c)))). split; [reflexivity|]. split.
      - apply (Inv_count h (a :: ext) ext E a c n I Hc).
        + cbn [count_occ]. destruct (Nat.eq_dec a a); [lia|congruence].
        + intros b Hb. cbn [count_occ]. destruct (Nat.eq_dec a b); [congruence|reflexivity].
      - split; [apply poke_length|]. intros b c' H. destruct (Nat.eq_dec a b) as [<-|Hne].
        + rewrite poke_same in H by assumption. injection H as <-. exists c. split; [exact Hc|]. cbn. split; [reflexivity|]. split; [reflexivity|lia].
        + rewrite poke_other in H by assumption. exists c'. auto. }
  assert (Hnr : ~ reach h E ext a).
  { intros X. destruct X as [a X|l a _ HlE X]; [apply (count_occ_In Nat.eq_dec) in X; lia|].
    assert (0 < heldE h E a) by (apply heldE_pos; eauto). lia. }
  assert (HaE : ~ In a E) by (intros X; exact (Hnr (HE _ X))).
  assert (Hah : ~ In Hole (map snd (slots c))).
  { intros X. exact (Hnr (Ho a c Hc X)). }
  pose proof (Inv_aside _ _ _ a I Hlt HaE) as I1.
  assert (Hitems : exists h1, each (destroy fuel) h (map snd (slots c)) = Ok h1 /\ Inv h1 (a :: ext) (a :: E) /\ shrinks h h1).
  { rewrite (kidsof_at _ _ _ Hc) in I1. unfold kids in I1.
    apply (each_ok (destroy fuel) (a :: E) fuel (IH (a :: E)) (map snd (slots c)) h (a :: ext) Hah I1).
      + intros x [<-|Hx]; [constructor; now left|]. eapply reach_mono; [|apply reach_aside; [exact Hnr|exact (HE _ Hx)]]. intros y Hy. now right.
      + rewrite (liveE_aside _ _ _ _ Hc HaE) in Hn. lia.
      + intros x cx Hx Hhx. eapply reach_mono; [|apply reach_aside; [exact Hnr|exact (Ho x cx Hx Hhx)]]. intros y Hy. now right. }
  destruct Hitems as (h1 & -> & I2 & S1). cbn [bind].
  destruct (Inv_ext_live _ _ _ a I2 (or_introl eq_refl)) as (c1 & Hc1). rewrite (peek_ok _ _ _ Hc1). cbn [bind].
  exists (poke h1 a None). split; [reflexivity|].
  pose proof (at_lt _ _ _ Hc1) as Hlt1.
  assert (Hk : kidsof (poke h1 a None) a = []) by (unfold kidsof; now rewrite poke_same by assumption).
  assert (Ha0 : heldE h1 (a :: E) a = 0).
  { pose proof (heldE_le h h1 (a :: E) a (proj1 S1) (fun x => shrinks_kids h h1 x S1)) as Hle.
    pose proof (heldE_aside h E a a Hlt HaE). lia. }
  assert (Hh : forall b, heldE (poke h1 a None) E b = heldE h1 (a :: E) b).
  { intros b. rewrite (heldE_aside (poke h1 a None) E a b) by (rewrite ?poke_length; assumption). rewrite Hk. cbn [count_occ]. rewrite Nat.add_0_r.
    unfold heldE. rewrite poke_length. apply sumn_ext. intros i _. rewrite isin_cons. destruct (Nat.eqb_spec a i) as [|Hne]; [reflexivity|]. cbn [orb].
    unfold kidsof. rewrite poke_other by exact Hne. reflexivity. }
  split.
  - constructor.
    + intros b cb Hb. destruct (Nat.eq_dec a b) as [<-|Hne]; [rewrite poke_same in Hb by assumption; discriminate|].
      rewrite poke_other in Hb by assumption. rewrite Hh. rewrite (inv_refc _ _ _ I2 b cb Hb). cbn [count_occ]. destruct (Nat.eq_dec a b); [congruence|reflexivity].
    + intros b Hb. rewrite Hh in Hb. destruct (Nat.eq_dec a b) as [<-|Hne]; [lia|].
      unfold live. rewrite poke_other by assumption. apply (inv_live _ _ _ I2). cbn [count_occ]. destruct (Nat.eq_dec a b); [congruence|lia].
  - eapply shrinks_trans; [exact S1|]. split; [apply poke_length|]. intros b cb Hb.
    destruct (Nat.eq_dec a b) as [<-|Hne]; [rewrite poke_same in Hb by assumption; discriminate|]. rewrite poke_other in Hb by assumption. exists cb. auto.
Qed.
