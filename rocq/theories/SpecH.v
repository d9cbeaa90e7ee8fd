(** Histories of reference counted objects: who owns what, which calls are allowed,
    what they do. *)
From Verif Require Import CStr CStrFacts HSListModel ObjListModel ObjListFacts RefcModel RefcFacts.

(** * Reading *)
(** What is read at an address; [None] when the object is gone. *)
Definition ld (h : heap) (a : addr) : option payload := match nth_error h a with Some (Some c) => Some (load c) | _ => None end.
Definition value (h : heap) (a : addr) (v : option str) : Prop := ld h a = Some (Leaf v).
Definition holds (h : heap) (l : addr) (items : list ref) : Prop := exists o, ld h l = Some (Lst o) /\ oitems o = items.
(** A reference to [a] is kept by a caller or by an existing list. *)
Definition referenced (h : heap) (ext : list addr) (a : addr) : Prop := In a ext \/ exists l items, holds h l items /\ In (Some a) items.
Definition usable (h : heap) (ext : list addr) (r : ref) : Prop := match r with None => True | Some a => referenced h ext a end.
Definition is_list (h : heap) (ext : list addr) (l : addr) : Prop := referenced h ext l /\ forall v, ~ value h l v.

(** Reached from the callers' references; the items [skip] of lists are not followed. *)
Inductive rooted (h : heap) (skip : addr -> nat -> Prop) (ext : list addr) : addr -> Prop :=
| R_own a : In a ext -> rooted h skip ext a
| R_item l items i a : rooted h skip ext l -> holds h l items -> nth_error items i = Some (Some a) -> ~ skip l i -> rooted h skip ext a.
Definition nothing (l : addr) (i : nat) : Prop := False.
Definition only_at (l : addr) (i : nat) (l' : addr) (i' : nat) : Prop := l' = l /\ i' = i.
(** Values as trees; [P] is where their objects are. *)
Inductive shape := ShNull | ShLeaf (v : option str) | ShList (l : list shape).
Inductive shows (P : addr -> Prop) (h : heap) : ref -> shape -> Prop :=
| Sh_null : shows P h None ShNull
| Sh_leaf a v : P a -> value h a v -> shows P h (Some a) (ShLeaf v)
| Sh_list a items l : P a -> holds h a items -> Forall2 (shows P h) items l -> shows P h (Some a) (ShList l).
Definition anywhere (a : addr) : Prop := True.
Fixpoint height (t : shape) : nat :=
  match t with ShNull => 0 | ShLeaf _ => 1 | ShList l => S ((fix hs (l : list shape) : nat := match l with [] => 0 | t :: r => Nat.max (height t) (hs r) end) l) end.

(** * Calls *)
(** Which calls the contract allows.  Calls that destroy references while they work
    on a list need a list that is kept by the callers, directly or through lists;
    [comps_objlist_set] needs a new element kept so by more than the replaced item. *)
Definition legal (h : heap) (ext : list addr) (c : rop) : Prop :=
  match c with
  | RNew _ | RNewList => True
  | RIncref a => referenced h ext a
  | RRelease a => In a ext
  | RAppend l r | RInsertAt l _ r => is_list h ext l /\ usable h ext r
  | RAppendX l r | RInsertAtX l _ r => is_list h ext l /\ match r with Some a => In a ext | None => True end
  | RInsertAfter l i r => is_list h ext l /\ usable h ext r /\ forall items, holds h l items -> i < length items
  | RGet l _ => is_list h ext l
  | RRemoveAt l _ | RRemove l _ | RClear l => rooted h nothing ext l /\ forall v, ~ value h l v
  | RSet l p r => rooted h nothing ext l /\ (forall v, ~ value h l v) /\ match r with Some a => rooted h (only_at l p) ext a | None => True end
  | RConcatIn l1 l2 => is_list h ext l1 /\ is_list h ext l2 /\ l1 <> l2
  | RConcat l1 l2 => is_list h ext l1 /\ is_list h ext l2
  | RFilter _ l => is_list h ext l
  | RSublist l s e => is_list h ext l /\ s <= e
  | RCopy depth a => referenced h ext a /\ exists t, shows anywhere h (Some a) t /\ height t <= depth
  end.
(** Who owns what after the call. *)
Fixpoint take (a : addr) (l : list addr) : list addr := match l with [] => [] | b :: r => if b =? a then r else b :: take a r end.
Definition take_ref (r : ref) (ext : list addr) : list addr := match r with Some a => take a ext | None => ext end.
Definition owns (c : rop) (out : rout) (ext : list addr) : list addr :=
  match c with
  | RNew _ | RNewList | RIncref _ | RGet _ _ | RConcat _ _ | RFilter _ _ | RSublist _ _ _ | RCopy _ _ => somes [snd out] ++ ext
  | RRelease a => take a ext
  | RAppendX _ r => take_ref r ext
  | RInsertAtX _ _ r => if (fst out =? 1)%Z then take_ref r ext else ext
  | _ => ext
  end.
(** A program: calls the contract allows, from nothing. *)
Inductive rhist : heap -> list addr -> Prop :=
| RH_nil : rhist [] []
| RH_step h ext c h' out : rhist h ext -> legal h ext c -> rstep h c = Ok (h', out) -> rhist h' (owns c out ext).

(** * What a call does *)
(** Objects outside [T] that survive are unchanged. *)
Definition keeps (T : list addr) (h h' : heap) : Prop :=
  length h <= length h' /\ forall a p, a < length h -> ~ In a T -> ld h' a = Some p -> ld h a = Some p.
Definition changes (h h' : heap) (l : addr) (c : lop ref) (out : lout ref) : Prop :=
  keeps [l] h h' /\ exists items items', holds h l items /\ holds h' l items' /\ lspec ref_eqb items c items' out.
(** A new list with these items. *)
Definition builds (h h' : heap) (out : rout) (items : list ref) : Prop :=
  keeps [] h h' /\ exists n, out = (0%Z, Some n) /\ length h <= n /\ holds h' n items.
Definition effect (h : heap) (c : rop) (h' : heap) (out : rout) : Prop :=
  match c with
  | RNew v => keeps [] h h' /\ exists n, out = (0%Z, Some n) /\ length h <= n /\ value h' n v
  | RNewList => builds h h' out []
  | RIncref a => keeps [] h h' /\ out = (0%Z, Some a)
  | RRelease _ => keeps [] h h' /\ out = (0%Z, None)
  | RAppend l r | RAppendX l r => changes h h' l (LAppend r) (LCode (fst out)) /\ snd out = None
  | RInsertAt l p r | RInsertAtX l p r => changes h h' l (LInsertAt p r) (LCode (fst out)) /\ snd out = None
  | RInsertAfter l i r => changes h h' l (LInsertAfter i r) (LCode (fst out)) /\ snd out = None
  | RGet l p => keeps [] h h' /\ exists items, holds h l items /\ out = (0%Z, match nth_error items p with Some r => r | None => None end)
  | RRemoveAt l p => changes h h' l (LRemoveAt p) (LCode (fst out)) /\ snd out = None
  | RRemove l r => changes h h' l (LRemove r) (LCode (fst out)) /\ snd out = None
  | RSet l p r => changes h h' l (LSet p r) (LCode (fst out)) /\ snd out = None
  | RClear l => changes h h' l LClear LNone /\ out = (0%Z, None)
  | RConcatIn l1 l2 => exists items, holds h l2 items /\ changes h h' l1 (LConcatIn items) LNone /\ out = (0%Z, None)
  | RConcat l1 l2 => exists i1 i2, holds h l1 i1 /\ holds h l2 i2 /\ builds h h' out (i1 ++ i2)
  | RFilter f l => exists items, holds h l items /\ builds h h' out (filter f items)
  | RSublist l s e => exists items, holds h l items /\ builds h h' out (firstn (e - s) (skipn s (removelast items)))
  | RCopy _ a => keeps [] h h' /\ fst out = 0%Z /\ forall t, shows anywhere h (Some a) t -> shows (le (length h)) h' (snd out) t
  end.

(** * Facts *)
Lemma ld_at h a p : ld h a = Some p <-> exists c, nth_error h a = Some (Some c) /\ load c = p.
Proof.
  unfold ld. split.
  - destruct (nth_error h a) as [[c|]|]; intros H; try discriminate. injection H as <-. eauto.
  - intros (c & -> & <-). reflexivity.
Qed.
Lemma ld_live h a : live h a <-> exists p, ld h a = Some p.
Proof.
  split; [intros (c & H); exists (load c); apply ld_at; eauto|intros (p & H); apply ld_at in H; destruct H as (c & H & _); now exists c].
Qed.
Lemma ld_lt h a p : ld h a = Some p -> a < length h.
Proof. intros H. apply ld_at in H. destruct H as (c & H & _). eapply at_lt; eauto. Qed.
Lemma kidsof_ld h a : kidsof h a = match ld h a with Some p => kids p | None => [] end.
Proof. unfold kidsof, ld. destruct (nth_error h a) as [[c|]|]; reflexivity. Qed.
Lemma Inv_referenced h ext a : Inv h ext [] -> (live h a <-> referenced h ext a).
Proof.
  intros I. split.
  - intros (c & Hc). pose proof (inv_refc _ _ _ I a c Hc) as Hr.
    destruct (in_dec Nat.eq_dec a ext) as [Ha|Ha]; [now left|]. right. apply (count_occ_not_In Nat.eq_dec) in Ha.
    assert (Hp : 0 < heldE h [] a) by lia. apply heldE_pos in Hp. destruct Hp as (l & _ & Hl). rewrite kidsof_ld in Hl.
    destruct (ld h l) as [[v|o]|] eqn:E; [destruct Hl| |destruct Hl]. cbn [kids] in Hl. exists l, (oitems o). split; [now exists o|]. now apply somes_in.
  - intros [Ha|(l & items & (o & Hl & <-) & Ha)]; [eapply Inv_ext_live; eauto|].
    apply (Inv_kid_live _ _ _ l _ I); [tauto|]. rewrite kidsof_ld, Hl. cbn [kids]. now apply somes_in.
Qed.
Lemma cnt_take a ext b : In a ext -> cnt b (a :: take a ext) = cnt b ext.
Proof.
  induction ext as [|x ext IH]; intros H; [destruct H|]. cbn [take]. destruct (Nat.eqb_spec x a) as [->|Hne]; [reflexivity|].
  destruct H as [H|H]; [congruence|]. specialize (IH H). cbn [count_occ] in *.
  destruct (Nat.eq_dec a b), (Nat.eq_dec x b); lia.
Qed.
Lemma Inv_take h ext E r : Inv h ext E -> match r with Some a => In a ext | None => True end -> Inv h (somes [r] ++ take_ref r ext) E.
Proof.
  intros I Hr. destruct r as [a|]; cbn [somes app take_ref]; [|exact I]. eapply Inv_perm; [|exact I]. intros b. now apply cnt_take.
Qed.

(** ** Pieces of calls *)
Lemma create_ok h ext p : Inv h ext [] -> kids p = [] -> pgood p ->
  Inv (fst (create h p)) (somes [Some (snd (create h p))] ++ ext) [] /\ snd (create h p) = length h /\ ld (fst (create h p)) (length h) = Some p /\
  length (fst (create h p)) = S (length h) /\ forall a, a < length h -> ld (fst (create h p)) a = ld h a.
Proof.
  intros I Hk Hp. cbn [create fst snd somes app]. split; [now apply Inv_create|]. split; [reflexivity|].
  unfold ld. rewrite app_length, nth_error_app2, Nat.sub_diag by lia. split; [reflexivity|]. split; [cbn; lia|].
  intros a Ha. now rewrite nth_error_app1.
Qed.
Lemma incref_ok h ext E r : Inv h ext E -> match r with Some a => live h a | None => True end ->
  exists h', incref h r = Ok h' /\ Inv h' (somes [r] ++ ext) E /\ length h' = length h /\ forall a, ld h' a = ld h a.
Proof.
  intros I Hr. destruct r as [a|]; cbn [incref somes app]; [|exists h; auto].
  destruct Hr as (c & Hc). rewrite (peek_ok _ _ _ Hc). cbn [bind]. eexists; split; [reflexivity|]. split.
  - apply (Inv_count h ext (a :: ext) E a c (S (refc c)) I Hc); cbn [count_occ].
    + destruct (Nat.eq_dec a a); [lia|congruence].
    + intros b Hb. destruct (Nat.eq_dec a b); [congruence|reflexivity].
  - split; [apply poke_length|]. intros b. unfold ld. destruct (Nat.eq_dec a b) as [<-|Hne].
    + rewrite poke_same by (eapply at_lt; eauto). now rewrite Hc.
    + now rewrite poke_other by assumption.
Qed.
Lemma put_ok h ext ext' l o o' : Inv h ext [] -> ld h l = Some (Lst o) -> ogood o' ->
  (forall a, cnt a ext' + cnt a (somes (oitems o')) = cnt a ext + cnt a (somes (oitems o))) ->
  exists h', put_list h l o' = Ok h' /\ Inv h' ext' [] /\ length h' = length h /\ ld h' l = Some (Lst o') /\ forall a, a <> l -> ld h' a = ld h a.
Proof.
  intros I Hl Hg Hs. apply ld_at in Hl. destruct Hl as (c & Hc & El). unfold put_list. rewrite (peek_ok _ _ _ Hc). cbn [bind].
  eexists; split; [reflexivity|]. split; [|split; [apply poke_length|split]].
  - apply (Inv_put h ext ext' [] l c (Lst o') I); auto. rewrite El. exact Hs.
  - unfold ld. now rewrite poke_same by (eapply at_lt; eauto).
  - intros a Ha. unfold ld. now rewrite poke_other by congruence.
Qed.
Lemma peek_list_ok h l o : ld h l = Some (Lst o) -> exists c, peek_list h l = Ok (c, o).
Proof. intros H. apply ld_at in H. destruct H as (c & Hc & El). unfold peek_list. rewrite (peek_ok _ _ _ Hc). cbn [bind]. rewrite El. eauto. Qed.
Lemma Inv_ogood h ext E l o : Inv h ext E -> ld h l = Some (Lst o) -> ogood o.
Proof. intros I H. apply ld_at in H. destruct H as (c & Hc & El). pose proof (inv_good _ _ _ I _ _ Hc) as G. now rewrite El in G. Qed.
Lemma release_ok h r ext E : Inv h (somes [r] ++ ext) E -> anchored h E ext ->
  exists h', destroy_ref h r = Ok h' /\ Inv h' ext E /\ shrinks h h' /\ forall a p, ld h' a = Some p -> ld h a = Some p.
Proof.
  intros I HE. destruct (destroy_ok (S (length h)) E h r ext I HE) as (h' & Hd & I' & L & S); [pose proof (liveE_length h E); lia|].
  exists h'. split; [exact Hd|]. split; [exact I'|]. split; [now split|].
  intros a p H. apply ld_at in H. destruct H as (c' & Hc & <-). destruct (S _ _ Hc) as (c & Hc0 & El & _). apply ld_at. exists c. split; [exact Hc0|congruence].
Qed.
Lemma release_each_ok E l : forall h ext, Inv h (somes l ++ ext) E -> anchored h E ext ->
  exists h', each destroy_ref h l = Ok h' /\ Inv h' ext E /\ shrinks h h' /\ forall a p, ld h' a = Some p -> ld h a = Some p.
Proof.
  induction l as [|r l IH]; intros h ext I HE; cbn [each]; [exists h; split; [reflexivity|]; split; [exact I|]; split; [apply shrinks_refl|auto]|].
  rewrite somes_cons, <- app_assoc in I. assert (Hinc : incl ext (somes l ++ ext)) by (intros x Hx; apply in_or_app; now right).
  destruct (release_ok _ _ _ _ I) as (h1 & -> & I1 & L1 & S1); [intros x Hx; eapply reach_mono; [exact Hinc|now apply HE]|]. cbn [bind].
  destruct (IH h1 ext I1) as (h2 & -> & I2 & L2 & S2); [intros x Hx; eapply reach_shrinks; [exact I1|exact Hinc|exact L1|now apply HE]|].
  exists h2. split; [reflexivity|]. split; [exact I2|]. split; [eapply shrinks_trans; eauto|]. auto.
Qed.
(** Storing items back into a list set aside. *)
Lemma put_back_ok h ext ext' l o o' : Inv h ext [l] -> ld h l = Some (Lst o) -> ogood o' ->
  (forall a, cnt a ext = cnt a (somes (oitems o')) + cnt a ext') ->
  exists h', put_list h l o' = Ok h' /\ Inv h' ext' [] /\ length h' = length h /\ ld h' l = Some (Lst o') /\ forall a, a <> l -> ld h' a = ld h a.
Proof.
  intros I Hl Hg Hs. apply ld_at in Hl. destruct Hl as (c & Hc & El). pose proof (at_lt _ _ _ Hc) as Hlt. unfold put_list. rewrite (peek_ok _ _ _ Hc). cbn [bind].
  eexists; split; [reflexivity|]. set (h' := poke h l _).
  assert (Hk : kidsof h' l = somes (oitems o')) by (unfold h', kidsof; now rewrite poke_same by assumption).
  assert (Hh : forall a, cnt a ext' + heldE h' [] a = cnt a ext + heldE h [l] a).
  { intros a. rewrite (heldE_aside h' [] l a) by (unfold h'; rewrite ?poke_length; auto). rewrite Hk, Hs.
    assert (heldE h' [l] a = heldE h [l] a); [|lia]. unfold heldE, h'. rewrite poke_length. apply sumn_ext. intros i _.
    rewrite isin_cons. destruct (Nat.eqb_spec l i) as [|Hne]; [reflexivity|]. cbn [orb]. unfold kidsof. now rewrite poke_other by assumption. }
  split; [|split; [apply poke_length|split]].
  - constructor.
    + intros a c' H. rewrite Hh. unfold h' in H. destruct (Nat.eq_dec l a) as [<-|Hne].
      * rewrite poke_same in H by assumption. injection H as <-. cbn. now apply (inv_refc _ _ _ I).
      * rewrite poke_other in H by assumption. now apply (inv_refc _ _ _ I).
    + intros a H. rewrite Hh in H. destruct (inv_live _ _ _ I a H) as (c' & Hc'). unfold h', live. destruct (Nat.eq_dec l a) as [<-|Hne].
      * rewrite poke_same by assumption. eauto.
      * rewrite poke_other by assumption. eauto.
    + intros a c' H. unfold h' in H. destruct (Nat.eq_dec l a) as [<-|Hne].
      * rewrite poke_same in H by assumption. injection H as <-. exact Hg.
      * rewrite poke_other in H by assumption. eapply (inv_good _ _ _ I); eauto.
  - unfold ld, h'. now rewrite poke_same by assumption.
  - intros a Ha. unfold ld, h'. now rewrite poke_other by congruence.
Qed.

(** ** Appending *)
Lemma append_x_ok h ext l o r : Inv h (somes [r] ++ ext) [] -> ld h l = Some (Lst o) ->
  exists h' o', append_x h l r = Ok h' /\ Inv h' ext [] /\ length h' = length h /\ ld h' l = Some (Lst o') /\ oitems o' = oitems o ++ [r] /\
    forall a, a <> l -> ld h' a = ld h a.
Proof.
  intros I Hl. unfold append_x. destruct (peek_list_ok _ _ _ Hl) as (c & ->). cbn [bind snd].
  destruct (ogood_append o r (Inv_ogood _ _ _ _ _ I Hl)) as (o' & -> & Hi & Hg). cbn [bind].
  destruct (put_ok h (somes [r] ++ ext) ext l o o' I Hl Hg) as (h' & -> & I' & L & Hl' & Ho).
  { intros a. rewrite Hi, somes_app, !count_occ_app. lia. }
  exists h', o'. auto 10.
Qed.
Lemma append_ok h ext l o r : Inv h ext [] -> ld h l = Some (Lst o) -> match r with Some a => live h a | None => True end ->
  exists h' o', append h l r = Ok h' /\ Inv h' ext [] /\ length h' = length h /\ ld h' l = Some (Lst o') /\ oitems o' = oitems o ++ [r] /\
    forall a, a <> l -> ld h' a = ld h a.
Proof.
  intros I Hl Hr. unfold append. destruct (incref_ok _ _ _ r I Hr) as (h1 & -> & I1 & L1 & S1). cbn [bind].
  destruct (append_x_ok h1 ext l o r I1) as (h2 & o2 & E2 & I2 & L2 & Hl2 & Hi2 & S2); [now rewrite S1|]. unfold append_x in E2. rewrite E2.
  exists h2, o2. split; [reflexivity|]. split; [exact I2|]. split; [congruence|]. split; [exact Hl2|]. split; [exact Hi2|].
  intros a Ha. now rewrite S2, S1.
Qed.
Definition some_live (h : heap) (r : ref) : Prop := match r with Some a => live h a | None => True end.
Lemma live_ld h h' a : (forall b, b <> a -> ld h' b = ld h b) -> (exists p, ld h' a = Some p) -> forall b, live h b -> live h' b.
Proof.
  intros H Ha b Hb. apply ld_live. apply ld_live in Hb. destruct (Nat.eq_dec b a) as [->|Hne]; [exact Ha|]. now rewrite H.
Qed.
Lemma append_each_ok rs : forall h ext l o, Inv h ext [] -> ld h l = Some (Lst o) -> Forall (some_live h) rs ->
  exists h' o', append_each h l rs = Ok h' /\ Inv h' ext [] /\ length h' = length h /\ ld h' l = Some (Lst o') /\ oitems o' = oitems o ++ rs /\
    forall a, a <> l -> ld h' a = ld h a.
Proof.
  induction rs as [|r rs IH]; intros h ext l o I Hl Hrs; cbn [append_each].
  - exists h, o. rewrite app_nil_r. auto 10.
  - inversion Hrs as [|? ? H1 H2]; subst. destruct (append_ok _ _ _ _ r I Hl H1) as (h1 & o1 & -> & I1 & L1 & Hl1 & Hi1 & S1). cbn [bind].
    destruct (IH h1 ext l o1 I1 Hl1) as (h2 & o2 & -> & I2 & L2 & Hl2 & Hi2 & S2).
    { eapply Forall_impl; [|exact H2]. intros [a|] Ha; [|exact Ha]. cbn in *. eapply live_ld; eauto. }
    exists h2, o2. split; [reflexivity|]. split; [exact I2|]. split; [congruence|]. split; [exact Hl2|]. split; [now rewrite Hi2, Hi1, <- app_assoc|].
    intros a Ha. now rewrite S2, S1.
Qed.
Lemma items_live h ext l o : Inv h ext [] -> ld h l = Some (Lst o) -> Forall (some_live h) (oitems o).
Proof.
  intros I Hl. apply Forall_forall. intros [a|] Ha; [|exact Logic.I]. cbn. apply (Inv_kid_live _ _ _ l _ I); [tauto|].
  rewrite kidsof_ld, Hl. cbn [kids]. now apply somes_in.
Qed.

(** ** Copying *)
Lemma Forall2_weaken {A B} (P Q : A -> B -> Prop) l1 l2 : (forall x y, P x y -> Q x y) -> Forall2 P l1 l2 -> Forall2 Q l1 l2.
Proof. intros K H. induction H; constructor; auto. Qed.
Lemma height_list l d : height (ShList l) <= S d -> Forall (fun t => height t <= d) l.
Proof.
  intros H. cbn [height] in H. apply le_S_n in H. induction l as [|t l IH]; [constructor|]. constructor; [lia|]. apply IH. lia.
Qed.
Lemma shows_mono (P Q : addr -> Prop) h h' : (forall a p, P a -> ld h a = Some p -> Q a /\ ld h' a = Some p) ->
  forall d r t, height t <= d -> shows P h r t -> shows Q h' r t.
Proof.
  intros K. induction d as [|d IH]; intros r t Hd H.
  - inversion H; subst; [constructor|cbn in Hd; lia|cbn in Hd; lia].
  - inversion H as [|a v Pa Hv|a items l Pa Hh Hf]; subst.
    + constructor.
    + destruct (K _ _ Pa Hv). now constructor.
    + destruct Hh as (o & Ho & <-). destruct (K _ _ Pa Ho) as [Qa Ho']. apply Sh_list with (items := oitems o); [exact Qa|now exists o|].
      apply height_list in Hd. clear -IH Hd Hf. induction Hf as [|r t rs ts Hr _ IHf]; [constructor|].
      inversion Hd; subst. constructor; auto.
Qed.
Definition copies (cp : heap -> ref -> res (heap * ref)) (d : nat) : Prop :=
  forall h ext r t, Inv h ext [] -> shows anywhere h r t -> height t <= d ->
    exists h' r', cp h r = Ok (h', r') /\ Inv h' (somes [r'] ++ ext) [] /\ length h <= length h' /\
      (forall a, a < length h -> ld h' a = ld h a) /\ shows (le (length h)) h' r' t.
Lemma copy_each_ok cp d : copies cp d -> forall items ts h ext n o done, Inv h ext [] -> ld h n = Some (Lst o) ->
  Forall2 (shows (gt n) h) items ts -> Forall (fun t => height t <= d) ts -> Forall2 (shows (lt n) h) (oitems o) done ->
  exists h' o', copy_each cp h n items = Ok h' /\ Inv h' ext [] /\ length h <= length h' /\ (forall a, a < n -> ld h' a = ld h a) /\
    ld h' n = Some (Lst o') /\ Forall2 (shows (lt n) h') (oitems o') (done ++ ts).
Proof.
  intros Hcp. induction items as [|r items IH]; intros ts h ext n o done I Hn Hs Hh Hd; inversion Hs as [|? t ? ts' Hr Hrs]; subst; cbn [copy_each].
  - exists h, o. rewrite app_nil_r. auto 10.
  - inversion Hh as [|? ? Hht Hhts]; subst. pose proof (ld_lt _ _ _ Hn) as Hlt.
    destruct (Hcp h ext r t I) as (h1 & r1 & -> & I1 & L1 & S1 & Sh1); [apply (shows_mono _ _ h h (fun a p _ H => conj Logic.I H) _ _ _ (le_n _) Hr)|exact Hht|].
    cbn [bind fst snd].
    destruct (append_x_ok h1 ext n o r1 I1) as (h2 & o2 & -> & I2 & L2 & Hn2 & Hi2 & S2); [now rewrite S1|]. cbn [bind].
    assert (Ho : forall a, a <> n -> a < length h -> ld h2 a = ld h a) by (intros a Ha Hl; now rewrite S2, S1).
    destruct (IH ts' h2 ext n o2 (done ++ [t]) I2 Hn2) as (h3 & o3 & -> & I3 & L3 & S3 & Hn3 & Hd3).
    + eapply Forall2_weaken; [|exact Hrs]. cbn beta. intros r0 t0 H. eapply (shows_mono (gt n) (gt n) h h2); [|apply le_n|exact H].
      intros a p Ha Hl. split; [exact Ha|]. rewrite Ho; [exact Hl|unfold gt in Ha; lia|unfold gt in Ha; lia].
    + exact Hhts.
    + rewrite Hi2. apply Forall2_app.
      * eapply Forall2_weaken; [|exact Hd]. cbn beta. intros r0 t0 H. eapply (shows_mono (lt n) (lt n) h h2); [|apply le_n|exact H].
        intros a p Ha Hl. split; [exact Ha|]. rewrite Ho; [exact Hl|lia|eapply ld_lt; eauto].
      * constructor; [|constructor]. eapply (shows_mono (le (length h)) (lt n) h1 h2); [|apply le_n|exact Sh1].
        intros a p Ha Hl. split; [lia|]. rewrite S2; [exact Hl|lia].
    + exists h3, o3. split; [reflexivity|]. split; [exact I3|]. split; [lia|]. split; [intros a Ha; rewrite S3 by exact Ha; apply Ho; lia|].
      split; [exact Hn3|]. now rewrite <- app_assoc in Hd3.
Qed.
Lemma copy_ok d : copies (copy d) d.
Proof.
  induction d as [|d IH]; intros h ext r t I Hs Hd.
  - inversion Hs; subst; [|cbn in Hd; lia|cbn in Hd; lia]. exists h, None. split; [reflexivity|]. split; [exact I|]. split; [lia|]. split; [auto|constructor].
  - inversion Hs as [|a v _ Hv|a items l _ (o & Ho & Hi) Hf]; subst.
    + exists h, None. split; [reflexivity|]. split; [exact I|]. split; [lia|]. split; [auto|constructor].
    + cbn [copy]. pose proof Hv as Hv'. apply ld_at in Hv'. destruct Hv' as (c & Hc & El). rewrite (peek_ok _ _ _ Hc). cbn [bind]. rewrite El.
      destruct (create_ok h ext (Leaf v) I eq_refl Logic.I) as (I1 & E1 & Hl1 & L1 & S1). destruct (create h (Leaf v)) as [h1 n]. cbn [fst snd] in *.
      exists h1, (Some n). split; [reflexivity|]. split; [exact I1|]. split; [lia|]. split; [exact S1|]. subst n. constructor; [lia|exact Hl1].
    + cbn [copy]. pose proof Ho as Ho'. apply ld_at in Ho'. destruct Ho' as (c & Hc & El). rewrite (peek_ok _ _ _ Hc). cbn [bind]. rewrite El.
      destruct (create_ok h ext (Lst ol_create) I eq_refl ogood_create) as (I1 & E1 & Hl1 & L1 & S1). destruct (create h (Lst ol_create)) as [h1 n]. cbn [fst snd] in *. subst n.
      destruct (copy_each_ok (copy d) d IH (oitems o) l h1 (somes [Some (length h)] ++ ext) (length h) ol_create []) as (h2 & o2 & -> & I2 & L2 & S2 & Hn2 & Hd2); auto.
      { eapply Forall2_weaken; [|exact Hf]. cbn beta. intros r0 t0 H. eapply (shows_mono anywhere (gt (length h)) h h1); [|apply le_n|exact H].
        intros x p _ Hx. pose proof (ld_lt _ _ _ Hx). split; [lia|]. now rewrite S1. }
      { now apply height_list. }
      { constructor. }
      cbn [bind]. exists h2, (Some (length h)). split; [reflexivity|]. split; [exact I2|]. split; [lia|]. split; [intros x Hx; rewrite S2, S1 by exact Hx; reflexivity|].
      apply Sh_list with (items := oitems o2); [lia|now exists o2|]. eapply Forall2_weaken; [|exact Hd2]. cbn beta. intros r0 t0 H.
      eapply (shows_mono (lt (length h)) (le (length h)) h2 h2); [|apply le_n|exact H]. intros x p Hx Hl. split; [lia|exact Hl].
Qed.
