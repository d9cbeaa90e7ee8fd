(** Facts about the memory of the document objects: the id of a union of two objects. *)
From Verif Require Import CStr CStrFacts ObjMemModel ObjMemFacts1 ObjMemFacts2 ObjMemFacts3 ObjMemFacts4 ObjMemFacts5 ObjMemFacts6 ObjMemFacts7 ObjMemFacts8 ObjMemFacts9 ObjMemFactsA.

(** * Whatever a program does, some cells stay *)
Section Frame.
(** An object, its properties, and the value of one of them. *)
Variable r p : addr.
Variable vs : list addr.
Variable val : tag.
Variable sp : list (str * slot).
Variable N : nat.
Hypothesis HN : forall a, In a (r :: p :: vs) -> a < N.
Definition prot (a : addr) : Prop := In a (r :: p :: vs).
Definition names (s : list (str * slot)) : Prop := find_slot f_props s = Some (Ptr (Some p)) /\ forall f b, f <> f_props -> find_slot f s = Some (Ptr (Some b)) -> ~ prot b.
Definition good (a : addr) (c : cell) : Prop := (a = r -> names (slots c)) /\ (a = p -> slots c = sp) /\ (In a vs -> kind c = val).
Definition stays (h : mem) : Prop := N <= length h /\ forall a c, cell_at h a c -> good a c.
Definition tr {A} (m : M A) (Q : A -> Prop) : Prop := forall h h' v, stays h -> m h = Ok (h', v) -> stays h' /\ Q v.
Definition any {A} (_ : A) : Prop := True.
Lemma tr_ret {A} (a : A) (Q : A -> Prop) : Q a -> tr (ret a) Q.
Proof. intros H h h' v I E. injection E as <- <-. auto. Qed.
Lemma tr_bind {A B} (m : M A) (f : A -> M B) P Q : tr m P -> (forall a, P a -> tr (f a) Q) -> tr (mbind m f) Q.
Proof.
  intros Hm Hf h h' v I E. unfold mbind in E. destruct (m h) as [[h1 v1]| |] eqn:E1; try discriminate. cbn in E. destruct (Hm _ _ _ I E1) as (I1 & P1). exact (Hf v1 P1 _ _ _ I1 E).
Qed.
Lemma tr_mono {A} (m : M A) (P Q : A -> Prop) : tr m P -> (forall a, P a -> Q a) -> tr m Q.
Proof. intros H HQ h h' v I E. destruct (H _ _ _ I E). auto. Qed.
Lemma tr_ub {A} (Q : A -> Prop) : tr ub Q.
Proof. intros h h' v _ E. discriminate. Qed.
Lemma tr_fold {S A} (f : S -> A -> M S) l : (forall s x, tr (f s x) any) -> forall s, tr (foldM f s l) any.
Proof. intros Hf. induction l as [|x l IH]; intros s; cbn [foldM]; [now apply tr_ret|]. eapply tr_bind; [apply Hf|]. intros s' _. apply IH. Qed.
Lemma stays_poke h a c c' : stays h -> cell_at h a c -> good a c' -> stays (poke h a (Some c')).
Proof.
  intros (L & H) Hc Hg. split; [now rewrite poke_length|]. intros b cb Hb. destruct (Nat.eq_dec b a) as [->|Hn].
  - rewrite poke_same in Hb by (eapply at_lt; eauto). injection Hb as <-. exact Hg.
  - rewrite poke_other in Hb by congruence. eauto.
Qed.
Lemma stays_free h a : stays h -> stays (poke h a None).
Proof.
  intros (L & H). split; [now rewrite poke_length|]. intros b cb Hb. destruct (Nat.eq_dec b a) as [->|Hn].
  - destruct (Nat.lt_ge_cases a (length h)) as [Hl|Hl]; [rewrite poke_same in Hb by exact Hl; discriminate|].
    apply at_lt in Hb. rewrite poke_length in Hb. lia.
  - rewrite poke_other in Hb by congruence. eauto.
Qed.
Lemma peek_at h a c : peek h a = Ok c -> cell_at h a c.
Proof. unfold peek. destruct (nth_error h a) as [[x|]|]; intros E; try discriminate. now injection E as ->. Qed.
Lemma tr_look a : tr (look a) (good a).
Proof. intros h h' v I E. unfold look in E. destruct (peek h a) as [c| |] eqn:Ep; try discriminate. cbn in E. injection E as <- <-. split; [exact I|]. apply (proj2 I). now apply peek_at. Qed.
Lemma good_not a c : ~ prot a -> good a c.
Proof. intros H. unfold prot in H. cbn in H. split; [|split]; intros D; exfalso; auto. Qed.
Lemma good_r c : ~ In r (p :: vs) -> names (slots c) -> good r c.
Proof. intros H D. cbn in H. split; [auto|]. split; intros D'; exfalso; auto. Qed.
Lemma tr_rewrite a s : ~ prot a -> tr (rewrite_slots a s) any.
Proof.
  intros H h h' v I E. unfold rewrite_slots in E. destruct (peek h a) as [c| |] eqn:Ep; try discriminate. cbn in E. injection E as <- <-. split; [|exact Logic.I]. eapply stays_poke; [exact I|apply peek_at; exact Ep|now apply good_not].
Qed.
Hypothesis Hr : ~ In r (p :: vs).
Lemma tr_rewrite_r s : names s -> tr (rewrite_slots r s) any.
Proof.
  intros H h h' v I E. unfold rewrite_slots in E. destruct (peek h r) as [c| |] eqn:Ep; try discriminate. cbn in E. injection E as <- <-. split; [|exact Logic.I]. eapply stays_poke; [exact I|apply peek_at; exact Ep|]. now apply good_r.
Qed.
Lemma tr_new k s : tr (new k s) (fun a => ~ prot a).
Proof.
  intros h h' v (L & H) E. unfold new in E. injection E as <- <-. assert (Hn : ~ prot (length h)) by (intros D; apply HN in D; lia). split; [|exact Hn].
  split; [rewrite app_length; lia|]. intros a c Hc. destruct (Nat.lt_ge_cases a (length h)) as [Hl|Hl].
  - rewrite nth_error_app1 in Hc by exact Hl. eauto.
  - apply good_not. intros D. apply HN in D. lia.
Qed.
Lemma tr_incref x : tr (incref x) any.
Proof.
  intros h h' v I E. unfold incref in E. split; [|exact Logic.I]. destruct x as [a|]; [|now injection E as <- <-]. destruct (peek h a) as [c| |] eqn:Ep; try discriminate. cbn in E. injection E as <- <-.
  apply peek_at in Ep. eapply stays_poke; [exact I|exact Ep|]. exact (proj2 I a c Ep).
Qed.
Lemma stays_each f l : (forall h x h', stays h -> f h x = Ok h' -> stays h') -> forall h h', stays h -> each f h l = Ok h' -> stays h'.
Proof.
  intros Hf. induction l as [|[|x] l IH]; cbn [each]; intros h h' I E; [now injection E as <-|discriminate|]. destruct (f h x) as [h1| |] eqn:E1; try discriminate. cbn in E. apply (IH h1); eauto.
Qed.
Lemma stays_destroy fuel : forall h x h', stays h -> destroy fuel h x = Ok h' -> stays h'.
Proof.
  induction fuel as [|fuel IH]; intros h [a|] h' I E; cbn [destroy] in E; try (now injection E as <-); try discriminate.
  destruct (peek h a) as [c| |] eqn:Ep; try discriminate. cbn [bind] in E. apply peek_at in Ep. destruct (refc c) as [|n].
  - destruct (each (destroy fuel) h (map snd (slots c))) as [h1| |] eqn:E1; try discriminate. cbn [bind] in E. destruct (peek h1 a) as [c1| |]; try discriminate. cbn [bind] in E. injection E as <-.
    apply stays_free. eapply stays_each; [|exact I|exact E1]. intros h2 x h3 I2 E2. eapply IH; eauto.
  - injection E as <-. eapply stays_poke; [exact I|exact Ep|]. exact (proj2 I a c Ep).
Qed.
Lemma tr_release x : tr (release x) any.
Proof. intros h h' v I E. unfold release in E. destruct (destroy (S (length h)) h x) as [h1| |] eqn:E1; try discriminate. cbn in E. injection E as <- <-. split; [|exact Logic.I]. eapply stays_destroy; eauto. Qed.
Lemma tr_follow x (Q : addr -> Prop) : (forall a, x = Some a -> Q a) -> tr (follow x) Q.
Proof. intros H. destruct x as [a|]; [apply tr_ret; auto|apply tr_ub]. Qed.
Lemma tr_any_member a f : tr (member a f) any.
Proof. unfold member. eapply tr_bind; [apply tr_look|]. intros c _. destruct (find_slot f (slots c)) as [[|x]|]; try apply tr_ub. now apply tr_ret. Qed.
Lemma tr_member f : f <> f_props -> tr (member r f) (fun x => forall b, x = Some b -> ~ prot b).
Proof.
  intros Hf. unfold member. eapply tr_bind; [apply tr_look|]. intros c (G1 & _). destruct (G1 eq_refl) as (_ & Hb). destruct (find_slot f (slots c)) as [[|x]|] eqn:E; try apply tr_ub.
  apply tr_ret. intros b ->. eauto.
Qed.
Lemma names_put f v s : f <> f_props -> (forall b, v = Ptr (Some b) -> ~ prot b) -> names s -> names (put_slot f v s).
Proof.
  intros Hf Hv (A & B).
  assert (F : forall g, g <> f -> find_slot g (put_slot f v s) = find_slot g s).
  { intros g Hg. clear A B. induction s as [|(k, w) s IH]; cbn [put_slot find_slot].
    - destruct (seqb f g) eqn:E; [apply seqb_true in E; congruence|reflexivity].
    - destruct (seqb k f) eqn:E; cbn [find_slot]; destruct (seqb k g) eqn:E2; auto. apply seqb_true in E, E2. congruence. }
  split; [rewrite F by congruence; exact A|]. intros g b Hg H. destruct (list_eq_dec ascii_dec g f) as [->|Hn]; [|rewrite F in H by exact Hn; eauto].
  assert (Fp : find_slot f (put_slot f v s) = Some v).
  { clear. induction s as [|(k, w) s IH]; cbn [put_slot find_slot]; [now rewrite seqb_refl|]. destruct (seqb k f) eqn:E; cbn [find_slot]; rewrite E; auto. }
  rewrite Fp in H. injection H as ->. now apply Hv.
Qed.
Lemma tr_set f v : f <> f_props -> (forall b, v = Ptr (Some b) -> ~ prot b) -> tr (set_member r f v) any.
Proof.
  intros Hf Hv. unfold set_member. eapply tr_bind; [apply tr_look|]. intros c (G1 & _). destruct (find_slot f (slots c)); [|apply tr_ub]. apply tr_rewrite_r. now apply names_put; auto.
Qed.
Lemma tr_set_not a f v : ~ prot a -> tr (set_member a f v) any.
Proof. intros Ha. unfold set_member. eapply tr_bind; [apply tr_look|]. intros c _. destruct (find_slot f (slots c)); [|apply tr_ub]. now apply tr_rewrite. Qed.
Lemma tr_drop f : f <> f_props -> tr (drop_member r f) any.
Proof. intros Hf. unfold drop_member. eapply tr_bind; [apply tr_any_member|]. intros x _. eapply tr_bind; [apply tr_set; [exact Hf|discriminate]|]. intros _ _. apply tr_release. Qed.
Lemma tr_copy_slots cp n skip : (forall x, tr (cp x) any) -> ~ prot n -> forall todo done, tr (copy_slots cp n skip done todo) any.
Proof.
  intros Hc Hn. induction todo as [|(k, v) todo IH]; intros done; cbn [copy_slots]; [now apply tr_ret|]. destruct (skip k); [apply IH|]. destruct v as [|x]; [apply tr_ub|].
  eapply tr_bind; [apply Hc|]. intros x' _. eapply tr_bind; [now apply tr_rewrite|]. intros _ _. apply IH.
Qed.
Lemma tr_copy d : forall x, tr (copy d x) any.
Proof.
  induction d as [|d IH]; intros [a|]; cbn [copy]; try (now apply tr_ret).
  - intros h h' v _ E. discriminate.
  - eapply tr_bind; [apply tr_look|]. intros c _.
    assert (Q : forall k, tr (do n <- new k (empty_slots (slots c)); copy_slots (copy d) n (fun f => andb (doc_kind k) (seqb f (S_ "log"))) [] (slots c) ;;; ret (Some n)) any).
    { intros k. eapply tr_bind; [apply tr_new|]. intros n Hn. eapply tr_bind; [apply tr_copy_slots; auto|]. intros _ _. now apply tr_ret. }
    destruct (kind c); first [apply Q|apply tr_ub].
Qed.
Lemma tr_copy_obj a : tr (copy_obj a) any.
Proof. unfold copy_obj. eapply tr_bind; [apply tr_copy|]. intros x _. now apply tr_follow. Qed.
Lemma tr_items l : tr (items l) any.
Proof. unfold items. eapply tr_bind; [apply tr_look|]. intros c _. destruct (reads (map snd (slots c))); [now apply tr_ret|apply tr_ub]. Qed.
Lemma tr_items_if x : tr (items_if x) any.
Proof. destruct x; [apply tr_items|now apply tr_ret]. Qed.
Lemma tr_append_x l x : ~ prot l -> tr (append_x l x) any.
Proof. intros H. unfold append_x. eapply tr_bind; [apply tr_look|]. intros c _. now apply tr_rewrite. Qed.
Lemma tr_remove_at l i : ~ prot l -> tr (remove_at l i) any.
Proof.
  intros H. unfold remove_at. eapply tr_bind; [apply tr_items|]. intros rs _. destruct i as [i|]; [|now apply tr_ret]. destruct (nth_error rs i); [|now apply tr_ret].
  eapply tr_bind; [now apply tr_rewrite|]. intros _ _. apply tr_release.
Qed.
Lemma tr_insert l i x : ~ prot l -> tr (insert_at_x l i x) any.
Proof. intros H. unfold insert_at_x. eapply tr_bind; [apply tr_items|]. intros rs _. destruct i as [i|]; [|now apply tr_ret]. destruct (_ <? _); [now apply tr_ret|now apply tr_rewrite]. Qed.
Lemma tr_dset d k x : ~ prot d -> tr (dset d k x) any.
Proof.
  intros H. unfold dset, dset_x. eapply tr_bind; [apply tr_incref|]. intros _ _. eapply tr_bind; [apply tr_look|]. intros c _. destruct (find_slot k (slots c)) as [[|o]|]; [apply tr_ub| |now apply tr_rewrite].
  eapply tr_bind; [now apply tr_rewrite|]. intros _ _. eapply tr_bind; [apply tr_release|]. intros _ _. now apply tr_set_not.
Qed.
Lemma tr_add_item f e x : f <> f_props -> tr (add_item r f e x) any.
Proof.
  intros Hf. unfold add_item. eapply tr_bind; [now apply tr_member|]. intros [l|] Hl; [apply tr_append_x; auto|]. eapply tr_bind; [apply tr_new|]. intros n Hn.
  eapply tr_bind; [apply tr_set; [exact Hf|intros b E; injection E as <-; exact Hn]|]. intros _ _. now apply tr_append_x.
Qed.
(** A copy made now is not one of the cells. *)
Lemma tr_copy_new a : tr (copy_obj a) (fun n => ~ prot n).
Proof.
  unfold copy_obj. generalize room. intros d. destruct d as [|d]; cbn [copy]; [intros h h' v _ E; discriminate|].
  eapply tr_bind with (P := fun x => forall n, x = Some n -> ~ prot n); [|intros x Hx; now apply tr_follow].
  eapply tr_bind; [apply tr_look|]. intros c _.
  assert (Q : forall k, tr (do n <- new k (empty_slots (slots c)); copy_slots (copy d) n (fun f => andb (doc_kind k) (seqb f (S_ "log"))) [] (slots c) ;;; ret (Some n)) (fun x => forall n, x = Some n -> ~ prot n)).
  { intros k. eapply tr_bind; [apply tr_new|]. intros n Hn. eapply tr_bind; [apply tr_copy_slots; [apply tr_copy|exact Hn]|]. intros _ _. apply tr_ret. intros n' E. now injection E as <-. }
  destruct (kind c); first [apply Q|apply tr_ub].
Qed.
Lemma tr_dict_union d1 d2 : tr (dict_union d1 d2) (fun n => ~ prot n).
Proof.
  unfold dict_union. eapply tr_bind; [apply tr_copy_new|]. intros n Hn. eapply tr_bind with (P := any).
  - unfold pairs. eapply tr_bind; [apply tr_look|]. intros c _. destruct (pairs_of (slots c)); [now apply tr_ret|apply tr_ub].
  - intros ps _. eapply tr_bind; [unfold forM; apply tr_fold; intros _ x; now apply tr_dset|]. intros _ _. now apply tr_ret.
Qed.
Lemma tr_union_props a b f : f <> f_props -> tr (union_props r a b f) any.
Proof.
  intros Hf. unfold union_props. eapply tr_bind; [apply tr_any_member|]. intros x _. eapply tr_bind; [now apply tr_follow with (Q := any)|]. intros d1 _.
  eapply tr_bind; [apply tr_any_member|]. intros y _. eapply tr_bind; [now apply tr_follow with (Q := any)|]. intros d2 _. unfold init. eapply tr_bind; [apply tr_dict_union|]. intros n Hn. apply tr_set; [exact Hf|]. intros b0 E. now injection E as <-.
Qed.
Lemma tr_union_langs a b : tr (union_langs r a b) any.
Proof.
  unfold union_langs. assert (f_names <> f_props) by discriminate. assert (f_descs <> f_props) by discriminate.
  eapply tr_bind; [now apply tr_drop|]. intros _ _. eapply tr_bind; [now apply tr_drop|]. intros _ _. eapply tr_bind; [now apply tr_union_props|]. intros _ _. now apply tr_union_props.
Qed.
Section Compared.
Variable oracle : mem -> addr -> addr -> bool.
Lemma tr_ocmp a b : tr (ocmp oracle a b) any.
Proof.
  unfold ocmp. destruct a as [a|], b as [b|]; try (now apply tr_ret). eapply tr_bind; [apply tr_look|]. intros c1 _. eapply tr_bind; [apply tr_look|]. intros c2 _.
  assert (Q : tr (fun h : mem => Ok (h, oracle h a b)) any) by (intros h h' v I E; injection E as <- <-; split; [exact I|exact Logic.I]).
  destruct (kind c1); try exact Q. destruct (kind c2); try exact Q. now apply tr_ret.
Qed.
Lemma tr_namecmp a b : tr (namecmp oracle a b) any.
Proof. unfold namecmp. eapply tr_bind; [apply tr_any_member|]. intros x _. eapply tr_bind; [apply tr_any_member|]. intros y _. apply tr_ocmp. Qed.
Lemma tr_find s x : tr (set_find (namecmp oracle) s x) any.
Proof. induction s as [|y s IH]; cbn [set_find]; [now apply tr_ret|]. eapply tr_bind; [apply tr_namecmp|]. intros [|] _; [now apply tr_ret|exact IH]. Qed.
Lemma tr_add s x : tr (set_add (namecmp oracle) s x) any.
Proof. unfold set_add. eapply tr_bind; [apply tr_find|]. intros [y|] _; now apply tr_ret. Qed.
Lemma tr_each {S} (f : S -> addr -> M S) s l : (forall s x, tr (f s x) any) -> tr (each_item f s l) any.
Proof. intros H. unfold each_item. apply tr_fold. intros s' x. eapply tr_bind; [now apply tr_follow with (Q := any)|]. intros a _. apply H. Qed.
Lemma tr_second f e s l : f <> f_props -> tr (union_second oracle r f e s l) any.
Proof.
  intros Hf. apply tr_each. intros _ x. eapply tr_bind; [apply tr_find|]. intros [d|] _.
  - eapply tr_bind; [now apply tr_member|]. intros m Hm. eapply tr_bind; [apply tr_follow; exact Hm|]. intros l' Hl'. unfold index. eapply tr_bind with (P := any).
    + eapply tr_bind; [apply tr_items|]. intros rs _. now apply tr_ret.
    + intros i _. eapply tr_bind; [now apply tr_remove_at|]. intros _ _. eapply tr_bind; [apply tr_copy_obj|]. intros o _. now apply tr_insert.
  - eapply tr_bind; [apply tr_copy_obj|]. intros o _. now apply tr_add_item.
Qed.
Lemma tr_destroy s : tr (set_destroy s) any.
Proof. unfold set_destroy, forM. apply tr_fold. intros _ x. apply tr_release. Qed.
Lemma tr_two a b f e first : f <> f_props -> (forall l, tr (first l) any) ->
  tr (do l1 <- member a f; do i1 <- items_if l1; do s <- first i1; do l2 <- member b f; do i2 <- items_if l2; union_second oracle r f e s i2 ;;; set_destroy s) any.
Proof.
  intros Hf H1. eapply tr_bind; [apply tr_any_member|]. intros l1 _. eapply tr_bind; [apply tr_items_if|]. intros i1 _. eapply tr_bind; [apply H1|]. intros s _.
  eapply tr_bind; [apply tr_any_member|]. intros l2 _. eapply tr_bind; [apply tr_items_if|]. intros i2 _. eapply tr_bind; [now apply tr_second|]. intros _ _. apply tr_destroy.
Qed.
Lemma tr_union_lists a b f e : f <> f_props -> tr (union_lists oracle r a b f e) any.
Proof.
  intros Hf. apply (tr_two a b f e (union_first oracle r f e) Hf). intros l. apply tr_each. intros s x. eapply tr_bind; [apply tr_copy_obj|]. intros o _. eapply tr_bind; [apply tr_incref|]. intros _ _.
  eapply tr_bind; [apply tr_add|]. intros sb _. eapply tr_bind; [now apply tr_add_item|]. intros _ _. now apply tr_ret.
Qed.
Lemma tr_union_options a b : tr (do l1 <- member a f_options; do i1 <- items_if l1; do s <- union_options oracle r i1; do l2 <- member b f_options; do i2 <- items_if l2; union_second oracle r f_options LGid s i2 ;;; set_destroy s) any.
Proof.
  assert (Hf : f_options <> f_props) by discriminate. apply (tr_two a b f_options LGid (union_options oracle r) Hf). intros l. apply tr_each. intros s x. eapply tr_bind; [apply tr_copy_obj|]. intros o _.
  eapply tr_bind; [apply tr_add|]. intros sb _. eapply tr_bind with (P := any); [destruct (snd sb); [apply tr_incref|now apply tr_ret]|]. intros _ _. eapply tr_bind; [now apply tr_add_item|]. intros _ _. now apply tr_ret.
Qed.
End Compared.
End Frame.

(** * The id among the properties *)
Definition tdid (t : tree) : option (str + Z) := let 'T _ pl := t in match assoc f_id pl with Some o => tval o | None => None end.
Definition idv (h : mem) (d : addr) (o : option (str + Z)) : Prop :=
  exists sp, isres h d (KDict DProp) sp /\ (find_slot f_id sp = None /\ o = None \/ exists x, find_slot f_id sp = Some (Ptr x) /\ valof h x o).
Lemma isres_uniq X h e d D ss : G X h e -> isres h d (KDict D) ss -> NoDup (map fst ss).
Proof. intros I R. destruct (isres_shape _ _ _ _ _ _ I R) as [_ [_ N]]. now apply N. Qed.
Lemma find_uniq ss k v : NoDup (map fst ss) -> In (k, v) ss -> find_slot k ss = Some v.
Proof.
  induction ss as [|(k', w) ss IH]; cbn; intros N H; [destruct H|]. inversion N as [|? ? N1 N2]; subst. destruct H as [E|H]; [injection E as -> ->; now rewrite seqb_refl|].
  destruct (seqb k' k) eqn:E; [|auto]. apply seqb_true in E. subst k'. exfalso. apply N1. apply in_map_iff. exists (k, v). auto.
Qed.
Lemma valof_fun h x o o' : valof h x o -> valof h x o' -> o = o'.
Proof. destruct x as [a|], o as [v|], o' as [v'|]; cbn; try tauto. intros K K'. pose proof (has_kind_fun _ _ _ _ K K') as E. congruence. Qed.
Lemma idv_fun h d o o' : idv h d o -> idv h d o' -> o = o'.
Proof.
  intros (s & R & H) (s' & R' & H'). destruct (isres_fun _ _ _ _ _ _ R R') as (_ & <-). destruct H as [(F & ->)|(x & F & V)], H' as [(F' & ->)|(x' & F' & V')]; try congruence.
  assert (x' = x) by congruence. subst x'. eapply valof_fun; eauto.
Qed.
Lemma idv_of X h e n d t : G X h e -> rb n h d = Some t -> root t = KDict DProp -> idv h d (tdid t).
Proof.
  intros I H Ht. destruct (rb_at _ _ _ _ H) as (c & d' & ts & _ & Hc & _ & Hr & ->). cbn [root] in Ht. assert (R : isres h d (KDict DProp) (slots c)) by (exists c; auto).
  exists (slots c). split; [exact R|]. cbn [tdid]. pose proof (rbs_find _ _ _ f_id Hr) as P. destruct (find_slot f_id (slots c)) as [[|[b|]]|] eqn:F; [destruct P| | |].
  - right. destruct P as (tb & Eb & Ea). exists (Some b). split; [reflexivity|]. cbn [valof]. rewrite Ea. destruct (tval_of _ _ _ _ Eb) as (v & Kv & Ev); [|rewrite Ev; exact Kv].
    destruct (isres_fits _ _ _ _ _ _ _ _ I R (find_in _ _ _ F)) as (kb & Kb & Ft). exists kb. split; [exact Kb|exact Ft].
  - right. exists None. split; [reflexivity|]. cbn. now rewrite P.
  - left. split; [reflexivity|]. now rewrite P.
Qed.
Lemma find_put_other k k' v ss : k <> k' -> find_slot k' (put_slot k v ss) = find_slot k' ss.
Proof.
  intros N. induction ss as [|(f, w) ss IH]; cbn [put_slot find_slot].
  - destruct (seqb k k') eqn:E; [apply seqb_true in E; congruence|reflexivity].
  - destruct (seqb f k) eqn:E; cbn [find_slot]; destruct (seqb f k') eqn:E2; auto. apply seqb_true in E, E2. congruence.
Qed.
Lemma find_put_same k v ss : find_slot k (put_slot k v ss) = Some v.
Proof. induction ss as [|(f, w) ss IH]; cbn [put_slot find_slot]; [now rewrite seqb_refl|]. destruct (seqb f k) eqn:E; cbn [find_slot]; rewrite E; auto. Qed.
Lemma valof_same n h h' x o : valof h x o -> same n h h' -> (forall b, x = Some b -> live h' b) -> valof h' x o.
Proof. destruct x as [b|], o as [v|]; cbn; try tauto. intros K S L. eapply has_kind_same; eauto. Qed.
Section Base.
Variable h0 : mem.
Variable e0 : list addr.
Lemma dict_union_id X h e d1 d2 o : ok X h0 e0 h e -> incl X e -> own h0 e0 d1 (KDict DProp) -> own h0 e0 d2 (KDict DProp) -> idv h0 d1 o -> idv h0 d2 o ->
  wp (dict_union d1 d2) h (fun h' r => length h <= r /\ G X h' (r :: e) /\ same (length h) h h' /\ has_kind h' r (KDict DProp) /\ idv h' r o).
Proof.
  intros O HX O1 O2 V1 V2.
  destruct (rb_room h0 e0 d1 _ (ok_g0 _ _ _ _ _ O) (proj2 O1) eq_refl) as (t & Et & Er). pose proof (ok_g _ _ _ _ _ O) as I.
  assert (Eo : tdid t = o) by (eapply idv_fun; [eapply idv_of; [apply (ok_g0 _ _ _ _ _ O)|exact Et|exact Er]|exact V1]).
  assert (Et' : rb room h d1 = Some t) by (eapply ok_rb; [exact O|apply incl_refl|apply O1|exact Et]).
  assert (V : via h e d1) by (eapply via_mono; [apply (ok_inc _ _ _ _ _ O)|]; eapply ok_via; [exact O|apply incl_refl|apply O1]).
  unfold dict_union. eapply wp_seq; [eapply (wp_copy_obj X h e d1 t I V Et')|]. cbv beta. intros h1 r (Lr & I1 & S1 & Tr & K1). rewrite Er in K1.
  pose proof (idv_of _ _ _ _ _ _ I1 Tr Er) as Vr. rewrite Eo in Vr.
  assert (Oh1 : ok X h0 e0 h1 (r :: e)) by (eapply ok_step; [exact O|exact S1|apply (ok_len _ _ _ _ _ O)|exact I1|intros x Hx; right; now apply (ok_inc _ _ _ _ _ O)]).
  destruct (pairs_list [] h0 e0 d2 DProp (ok_g0 _ _ _ _ _ O) (proj2 O2) (fun x => x)) as (sd & ps & R2 & Ep & Hin).
  assert (Hps : Forall (fun q => exists t, own h0 e0 (snd q) t /\ fits (KDict DProp) (fst q) t /\ (fst q = f_id -> valof h0 (Some (snd q)) o)) ps).
  { apply Forall_forall. intros (f, b) Hb. cbn [fst snd]. apply Hin in Hb. destruct (isres_fits _ _ _ _ _ _ _ _ (ok_g0 _ _ _ _ _ O) R2 Hb) as (tb & Kt & Ft). exists tb. split; [split; [eapply isres_via; [exact R2|apply O2|exact Hb]|exact Kt]|]. split; [exact Ft|].
    intros ->. pose proof (find_uniq _ _ _ (isres_uniq _ _ _ _ _ _ (ok_g0 _ _ _ _ _ O) R2) Hb) as F. destruct V2 as (sp2 & R2' & H2). destruct (isres_fun _ _ _ _ _ _ R2 R2') as (_ & <-).
    destruct H2 as [(F' & _)|(x & F' & Vx)]; [congruence|]. assert (x = Some b) by congruence. now subst x. }
  apply wp_bind. eapply wp_pairs; [eapply base_isres; [exact Oh1|exact O2|discriminate|exact R2]|exact Ep|].
  assert (Hr : ~ In r X) by (intros D'; apply HX in D'; apply (in_live _ _ _ _ I) in D'; apply live_lt in D'; lia).
  eapply wp_seq; [eapply (wp_forM _ (fun hh => G X hh (r :: e) /\ same (length h) h hh /\ idv hh r o) (fun q => exists t, own h0 e0 (snd q) t /\ fits (KDict DProp) (fst q) t /\ (fst q = f_id -> valof h0 (Some (snd q)) o)))|].
  - intros hh (f, b) (Ih & Sh & sr & Rr & Hid) (tb & Ob & Fb & Vb). cbn [fst snd] in *.
    assert (Ohh : ok X h0 e0 hh (r :: e)) by (eapply ok_step; [exact O|exact Sh|apply (ok_len _ _ _ _ _ O)|exact Ih|intros x Hx; right; now apply (ok_inc _ _ _ _ _ O)]).
    eapply wp_mono; [eapply (wp_dset X hh (r :: e) r (KDict DProp) sr f (Some b) Ih Rr eq_refl (via_in hh (r :: e) r (in_eq r e)) Hr)|].
    + intros x Hx. right. auto.
    + exists tb. split; [|exact Fb]. apply (ok_own _ _ _ _ _ _ _ _ Ohh (incl_refl _) Ob).
    + cbv beta. intros h3 _ (I3 & R3 & _ & S3). split; [exact I3|]. split; [eapply same_trans; [exact Sh|]; apply S3; exact Lr|].
      exists (put_slot f (Ptr (Some b)) sr). split; [exact R3|]. destruct (list_eq_dec ascii_dec f f_id) as [->|Hn].
      * right. exists (Some b). split; [apply find_put_same|].
        eapply valof_same; [apply (Vb eq_refl)|eapply same_trans; [apply (same_weak _ 0 _ _ ltac:(lia) (ok_same _ _ _ _ _ Ohh))|apply (S3 0); lia]|].
        intros b' E. injection E as <-. eapply isres_kid; [exact I3|exact R3|]. apply find_in. apply find_put_same.
      * rewrite (find_put_other f f_id _ _ Hn). destruct Hid as [Hid|(x & F & Vx)]; [now left|]. right. exists x. split; [exact F|].
        eapply valof_same; [exact Vx|apply (S3 0); lia|]. intros b' ->. eapply isres_kid; [exact I3|exact R3|]. apply find_in. rewrite (find_put_other f f_id _ _ Hn). exact F.
  - auto.
  - exact Hps.
  - cbv beta. intros h2 _ (I2 & S2 & V2'). apply wp_ret. split; [exact Lr|]. split; [exact I2|]. split; [exact S2|]. split; [|exact V2']. destruct V2' as (sr & Rr & _). eapply isres_kind; eauto.
Qed.
(** The object gets its properties. *)
Lemma union_props_id h e r k ss g1 g2 o : ok [] h0 e0 h e -> In r e -> built h0 h r k ss -> obj_tag k -> own h0 e0 g1 k -> own h0 e0 g2 k -> key tid h0 g1 = o -> key tid h0 g2 = o ->
  wp (drop_member r f_props ;;; union_props r g1 g2 f_props) h (fun h' _ => exists n ss', ok [] h0 e0 h' e /\ built h0 h' r k ss' /\ find_slot f_props ss' = Some (Ptr (Some n)) /\ idv h' n o /\
    forall f b, f <> f_props -> find_slot f ss' = Some (Ptr (Some b)) -> b <> n).
Proof.
  intros O Hr B Ht O1 O2 K1 K2. pose proof (isres_solid _ _ _ _ _ _ (ok_g _ _ _ _ _ O) (b_res _ _ _ _ _ B) (fun x => x)) as Hs.
  assert (Hl : In f_props (layout k)) by (rewrite obj_layout by exact Ht; now left). destruct (hold_open h0 e0 [] h e r k ss f_props O B (fun x => x) Ht Hl) as (r0 & F).
  eapply wp_seq; [eapply (drop_built h0 e0 h e r k ss f_props r0); [eapply ok_more; [|exact O]; intros x []|exact Hr|exact B|exact F]|]. cbv beta. intros h1 _ (Oh & B1).
  pose proof (ok_g0 _ _ _ _ _ Oh) as I0.
  destruct (id_at _ _ _ _ I0 (proj2 O1) Ht) as (s1 & d1 & sp1 & R1 & F1 & Rp1 & V1), (id_at _ _ _ _ I0 (proj2 O2) Ht) as (s2 & d2 & sp2 & R2 & F2 & Rp2 & V2). rewrite K1 in V1. rewrite K2 in V2.
  assert (Od1 : own h0 e0 d1 (KDict DProp)) by (split; [eapply isres_via; [exact R1|apply O1|apply find_in; exact F1]|eapply isres_kind; eauto]).
  assert (Od2 : own h0 e0 d2 (KDict DProp)) by (split; [eapply isres_via; [exact R2|apply O2|apply find_in; exact F2]|eapply isres_kind; eauto]).
  pose proof (obj_not_objs k Ht) as Nk. unfold union_props.
  apply wp_bind. eapply wp_member; [eapply base_isres; [exact Oh|exact O1|exact Nk|exact R1]|exact F1|]. cbn [follow]. apply wp_bind, wp_ret.
  apply wp_bind. eapply wp_member; [eapply base_isres; [exact Oh|exact O2|exact Nk|exact R2]|exact F2|]. cbn [follow]. apply wp_bind, wp_ret.
  unfold init. eapply wp_seq; [eapply (dict_union_id [r] h1 e d1 d2 o Oh)|]; [intros x [<-|[]]; exact Hr|exact Od1|exact Od2|exists sp1; auto|exists sp2; auto|]. cbv beta. intros h2 n (Ln & I2 & S2 & Kn & Vn).
  pose proof (isres_lt _ _ _ _ (b_res _ _ _ _ _ B1)) as Lr. pose proof (ok_len _ _ _ _ _ Oh) as L0.
  assert (B2 : built h0 h2 r k (put_slot f_props Hole ss)) by (eapply built_same; [exact B1|exact Nk|exact S2|exact Lr|eapply in_live; [exact I2|now right]]).
  assert (F2' : find_slot f_props (put_slot f_props Hole ss) = Some Hole) by apply find_put_same.
  eapply wp_mono; [eapply (wp_set_member [r] h2 (n :: e) e r k _ f_props (Ptr (Some n)) Hole I2 (b_res _ _ _ _ _ B2) F2')|].
  - intros x. cbn [sref count_occ]. destruct (Nat.eq_dec n x); lia.
  - apply fit_slot. exists (KDict DProp). split; [exact Kn|]. now apply (fits_dict k Ht).
  - cbn [opened]. intros h3 _ (I3 & U3 & R3). exists n, (put_slot f_props (Ptr (Some n)) ss). rewrite put_put in R3.
    assert (B3 : built h0 h3 r k (put_slot f_props (Ptr (Some n)) ss)).
    { destruct B as [Bb1 Bb2 Bb3]. eapply built_put with (h := h); [constructor; [exact Bb1|exact Bb2|exact Bb3]|exact R3|lia]. }
    split; [|split; [exact B3|split; [apply find_put_same|split]]].
    + eapply ok_unhole; [|exact B3|intros D; apply Hs; eapply put_hole; eauto].
      eapply ok_step; [exact Oh| |apply Nat.le_refl|exact I3|apply (ok_inc _ _ _ _ _ Oh)]. eapply same_trans; [eapply same_weak; [exact L0|exact S2]|]. eapply upd_same; [apply (b_new _ _ _ _ _ B)|exact U3].
    + assert (Hnr : n <> r) by lia. destruct Vn as (sn & Rn & Hid). exists sn. split; [eapply isres_upd; [exact Rn|exact U3|exact Hnr]|]. destruct Hid as [Hid|(x & Fx & Vx)]; [now left|]. right. exists x. split; [exact Fx|].
      eapply (valof_same 0); [exact Vx|eapply upd_same; [|exact U3]; lia|]. intros b ->. eapply isres_kid; [exact I3|eapply isres_upd; [exact Rn|exact U3|exact Hnr]|]. apply find_in. exact Fx.
    + intros f b Hf Hb. rewrite (find_put_other f_props f _ _ (fun D => Hf (eq_sym D))) in Hb.
      assert (Hlb : b < length h1).
      { apply live_lt. eapply isres_kid; [apply (ok_g _ _ _ _ _ Oh)|apply (b_res _ _ _ _ _ B1)|]. apply find_in. rewrite (find_put_other f_props f _ _ (fun D => Hf (eq_sym D))). exact Hb. }
      lia.
Qed.
End Base.

(** * The id of a union *)
Lemma wp_tr {A} r p vs val sp N (m : M A) P h Q : tr r p vs val sp N m P -> stays r p vs val sp N h -> wp m h Q -> wp m h (fun h' v => stays r p vs val sp N h' /\ Q h' v).
Proof. intros T S (h' & v & E & H). exists h', v. split; [exact E|]. split; [|exact H]. apply (T _ _ _ S E). Qed.
(** What [stays] says of an object with known properties, at the start and at the end. *)
Lemma id_stays h e r k ss n o : G [] h e -> obj_tag k -> isres h r k ss -> find_slot f_props ss = Some (Ptr (Some n)) -> idv h n o ->
  (forall f b, f <> f_props -> find_slot f ss = Some (Ptr (Some b)) -> b <> n) ->
  exists vs val sp, (forall a, In a (r :: n :: vs) -> a < length h) /\ ~ In r (n :: vs) /\ stays r n vs val sp (length h) h /\
    (forall h' e', stays r n vs val sp (length h) h' -> G [] h' e' -> has_kind h' r k -> key tid h' r = o).
Proof.
  intros I Ht R F (sp & Rn & Hid) Hn.
  assert (Kr : has_kind h r k) by (eapply isres_kind; eauto). assert (Kn : has_kind h n (KDict DProp)) by (eapply isres_kind; eauto).
  assert (Hv : exists vs v, (forall x, In x vs -> has_kind h x (KVal v)) /\ (find_slot f_id sp = None /\ o = None \/ find_slot f_id sp = Some (Ptr None) /\ o = None \/ exists x, find_slot f_id sp = Some (Ptr (Some x)) /\ vs = [x] /\ o = Some v)).
  { destruct Hid as [(Fi & ->)|([x|] & Fi & Vx)].
    - exists [], (inr 0%Z). split; [intros x []|now left].
    - destruct o as [v|]; [|destruct Vx]. exists [x], v. split; [intros y [<-|[]]; exact Vx|]. right; right. exists x. auto.
    - destruct o as [v|]; [destruct Vx|]. exists [], (inr 0%Z). split; [intros x []|]. right; left. auto. }
  destruct Hv as (vs & v & Hvs & Hcase). exists vs, (KVal v), sp.
  assert (Hnr : r <> n) by (intros ->; pose proof (has_kind_fun _ _ _ _ Kr Kn) as E; subst k; destruct Ht as [Hk|[Hk|Hk]]; discriminate Hk).
  assert (Hvr : ~ In r vs) by (intros D; pose proof (has_kind_fun _ _ _ _ Kr (Hvs _ D)) as E; subst k; destruct Ht as [Hk|[Hk|Hk]]; discriminate Hk).
  assert (Hvn : ~ In n vs) by (intros D; pose proof (has_kind_fun _ _ _ _ Kn (Hvs _ D)) as E; discriminate E).
  assert (HNm : names r n vs ss).
  { split; [exact F|]. intros f b Hf Hb D. destruct (isres_fits _ _ _ _ _ _ _ _ I R (find_in _ _ _ Hb)) as (kb & Kb & Ft).
    assert (Hkb : (exists d, kb = KDict d) \/ exists l, kb = KList l).
    { assert (Ef : seqb f f_props = false) by (destruct (seqb f f_props) eqn:E; [apply seqb_true in E; congruence|reflexivity]).
      assert (Ft' : if orb (seqb f f_names) (seqb f f_descs) then kb = KDict DLang else kb = KList (list_of f)) by (destruct Ht as [->|[->| ->]]; cbn [fits] in Ft; rewrite Ef in Ft; exact Ft).
      destruct (orb (seqb f f_names) (seqb f f_descs)); eauto. }
    destruct D as [<-|[<-|D]].
    - pose proof (has_kind_fun _ _ _ _ Kr Kb) as E. subst kb. destruct Ht as [->|[->| ->]]; destruct Hkb as [(? & E)|(? & E)]; discriminate E.
    - now apply (Hn f n Hf Hb).
    - pose proof (has_kind_fun _ _ _ _ (Hvs _ D) Kb) as E. subst kb. destruct Hkb as [(? & E)|(? & E)]; discriminate E. }
  split; [|split; [|split]].
  - intros a [<-|[<-|D]]; [eapply isres_lt; eauto|eapply isres_lt; eauto|]. destruct (Hvs _ D) as (c & Hc & _). eapply at_lt; eauto.
  - intros [D|D]; [now apply Hnr|now apply Hvr].
  - split; [apply Nat.le_refl|]. intros a c Hc. split; [|split].
    + intros ->. destruct R as (c' & Hc' & _ & <-). assert (c = c') by congruence. subst c'. exact HNm.
    + intros ->. destruct Rn as (c' & Hc' & _ & <-). congruence.
    + intros D. destruct (Hvs _ D) as (c' & Hc' & E). congruence.
  - intros h' e' (_ & St) I' Kr'. destruct (id_at _ _ _ _ I' Kr' Ht) as (ss' & p' & sp' & R' & F' & Rp' & V').
    assert (Ep : p' = n). { destruct R' as (c & Hc & _ & <-). destruct (St r c Hc) as (S1 & _). destruct (S1 eq_refl) as (S1' & _). congruence. }
    subst p'. assert (Es : sp' = sp). { destruct Rp' as (c & Hc & _ & <-). destruct (St n c Hc) as (_ & S2 & _). now apply S2. }
    subst sp'. destruct Hcase as [(Fi & ->)|[(Fi & ->)|(x & Fi & Ev & ->)]].
    + destruct V' as [(_ & E)|(x & Fx & _)]; congruence.
    + destruct V' as [(Fx & _)|(x & Fx & Vx)]; [congruence|]. assert (x = None) by congruence. subst x. destruct (key tid h' r); [destruct Vx|reflexivity].
    + destruct V' as [(Fx & _)|(y & Fx & Vx)]; [congruence|]. assert (y = Some x) by congruence. subst y. destruct (key tid h' r) as [v'|]; [|destruct Vx]. cbn [valof] in Vx. destruct Vx as (c & Hc & Ek).
      destruct (St x c Hc) as (_ & _ & S3). rewrite S3 in Ek by (rewrite Ev; now left). injection Ek as ->. reflexivity.
Qed.
(** As [spec_un], and objects with the same id give an object with this id. *)
Definition spec_id (k : tag) (un : addr -> addr -> M addr) : Prop := forall h e a b, G [] h e -> own h e a k -> own h e b k ->
  wp (un a b) h (fun h' r => exists lost, length h <= r /\ G [] h' (r :: lost ++ e) /\ same (length h) h h' /\ has_kind h' r k /\ (distinct_items h a k -> distinct_items h b k -> lost = []) /\
    (key tid h a = key tid h b -> key tid h' r = key tid h b)).
Lemma wp_and {A} (m : M A) h P Q : wp m h P -> wp m h Q -> wp m h (fun h' v => P h' v /\ Q h' v).
Proof. intros (h1 & v1 & E1 & H1) (h2 & v2 & E2 & H2). exists h1, v1. split; [exact E1|]. split; [exact H1|]. rewrite E1 in E2. injection E2 as <- <-. exact H2. Qed.
Lemma wp_when {A} (m : M A) h (P : Prop) (Q R : mem -> A -> Prop) : wp m h Q -> (P -> wp m h R) -> wp m h (fun h' v => Q h' v /\ (P -> R h' v)).
Proof. intros (h1 & v1 & E1 & H1) H. exists h1, v1. split; [exact E1|]. split; [exact H1|]. intros p. destruct (H p) as (h2 & v2 & E2 & H2). rewrite E1 in E2. injection E2 as <- <-. exact H2. Qed.
Section Compared.
Variable oracle : mem -> addr -> addr -> bool.
(** The rest of a union keeps the id. *)
Lemma rest_keeps k m (tl : addr -> addr -> addr -> M addr) : obj_tag k -> fresh_obj k m ->
  (forall r p vs val sp N, (forall a, In a (r :: p :: vs) -> a < N) -> ~ In r (p :: vs) -> forall a b, tr r p vs val sp N (tl r a b) (fun v => v = r)) ->
  spec_un k (fun g1 g2 => do res <- m; drop_member res f_props ;;; union_props res g1 g2 f_props ;;; tl res g1 g2) ->
  spec_id k (fun g1 g2 => do res <- m; drop_member res f_props ;;; union_props res g1 g2 f_props ;;; tl res g1 g2).
Proof.
  intros Ht F Htl Sp h e a b I Oa Ob. pose proof (Sp h e a b I Oa Ob) as W.
  eapply wp_mono; [eapply (wp_when _ h (key tid h a = key tid h b) _ (fun h' r => forall e', G [] h' e' -> has_kind h' r k -> key tid h' r = key tid h b) W)|].
  2:{ cbv beta. intros h' r ((lost & H1 & H2 & H3 & H4 & H5) & H6). exists lost. repeat (split; [assumption|]). intros E. eapply H6; eauto. }
  intros E. destruct W as (hz & rz & Ez & _).
  assert (St : wp m h (fun h' r => exists ss, ok [] h e h' (r :: e) /\ built h h' r k ss)) by (apply start; auto).
  destruct St as (h1 & r & E1 & ss & O1 & B1).
  pose proof (union_props_id h e h1 (r :: e) r k ss a b (key tid h b) O1 (in_eq _ _) B1 Ht Oa Ob E eq_refl) as (h2 & [] & E2 & n & ss2 & O2 & B2 & F2 & V2 & N2).
  destruct (id_stays h2 (r :: e) r k ss2 n _ (ok_g _ _ _ _ _ O2) Ht (b_res _ _ _ _ _ B2) F2 V2 N2) as (vs & val & sp & HN & Hr & S2 & Hend).
  exists hz, rz. split; [exact Ez|]. intros e' I' K'. unfold mbind in Ez, E2. rewrite E1 in Ez. cbn [bind snd fst] in Ez.
  destruct (drop_member r f_props h1) as [[h1' u]| |]; try discriminate. cbn [bind snd fst] in Ez, E2. rewrite E2 in Ez. cbn [bind snd fst] in Ez.
  destruct (Htl r n vs val sp (length h2) HN Hr a b _ _ _ S2 Ez) as (S3 & ->). exact (Hend _ _ S3 I' K').
Qed.
Ltac tail := eapply tr_bind; [first [apply tr_union_lists|apply tr_union_langs|apply tr_union_options]; auto; discriminate|intros _ _].
Lemma group_union_id : spec_id KGroup (group_union oracle).
Proof.
  apply (rest_keeps KGroup new_group (fun res g1 g2 => union_lists oracle res g1 g2 f_pkgs LPkg ;;; union_langs res g1 g2 ;;; ret res) (or_introl eq_refl) new_group_ok); [|apply group_union_ok].
  intros r p vs val sp N HN Hr a b. do 2 tail. now apply tr_ret.
Qed.
Lemma cat_union_id : spec_id KCat (cat_union oracle).
Proof.
  apply (rest_keeps KCat new_cat (fun res g1 g2 => union_lists oracle res g1 g2 f_gids LGid ;;; union_langs res g1 g2 ;;; ret res) (or_intror (or_introl eq_refl)) new_cat_ok); [|apply cat_union_ok].
  intros r p vs val sp N HN Hr a b. do 2 tail. now apply tr_ret.
Qed.
Lemma env_union_id : spec_id KEnv (env_union oracle).
Proof.
  apply (rest_keeps KEnv new_env (fun res g1 g2 => union_lists oracle res g1 g2 f_groups LGid ;;;
    (do l1 <- member g1 f_options; do i1 <- items_if l1; do s <- union_options oracle res i1; do l2 <- member g2 f_options; do i2 <- items_if l2; union_second oracle res f_options LGid s i2 ;;; set_destroy s) ;;;
    union_langs res g1 g2 ;;; ret res) (or_intror (or_intror eq_refl)) new_env_ok); [|apply env_union_ok].
  intros r p vs val sp N HN Hr a b. do 3 tail. now apply tr_ret.
Qed.
End Compared.
