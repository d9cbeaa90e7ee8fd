(** Facts about the memory of the document objects: which object may be where, the
    account that every step keeps, and what a step leaves as it was. *)
From Verif Require Import CStr CStrFacts ObjMemModel ObjMemFacts1.
Notation cell_at h a c := (nth_error h a = Some (Some c)).

(** * What may be where *)
Definition is_val (t : tag) : Prop := match t with KVal _ => True | _ => False end.
Definition elem (e : ety) (t : tag) : Prop :=
  match e with LPkg => t = KPkg | LGid => t = KGid | LGroup => t = KGroup | LCat => t = KCat | LEnv => t = KEnv | LStr => is_val t end.
Definition list_of (f : str) : ety := if seqb f f_pkgs then LPkg else LGid.
Definition fits (k : tag) (f : str) (t : tag) : Prop :=
  match k with
  | KVal _ | KLog => False
  | KList e => elem e t
  | KDict DProp | KPkg | KGid => if seqb f f_arches then t = KList LStr else is_val t
  | KDict DLang => is_val t
  | KDict DObjs => t = obj_kind f
  | KMDict => t = KList LStr
  | KGroup | KCat | KEnv => if seqb f f_props then t = KDict DProp else if orb (seqb f f_names) (seqb f f_descs) then t = KDict DLang else t = KList (list_of f)
  | KDoc => if seqb f f_log then t = KLog else if seqb f f_objects then t = KDict DObjs else is_val t
  end.
(** Where NULL may be. *)
Definition nullable (k : tag) (f : str) : Prop :=
  match k with
  | KDict DProp | KDict DLang | KPkg | KGid | KList LStr => True
  | KDoc => seqb f f_log = false /\ seqb f f_objects = false
  | _ => False
  end.
Definition slot_ok (h : mem) (k : tag) (fv : str * slot) : Prop :=
  match snd fv with
  | Hole => True
  | Ptr None => nullable k (fst fv)
  | Ptr (Some b) => forall cb, cell_at h b cb -> fits k (fst fv) (kind cb)
  end.
Definition dict_kind (k : tag) : bool := match k with KDict _ => true | _ => false end.
Definition shape (h : mem) (k : tag) (s : list (str * slot)) : Prop :=
  (layout k <> [] -> map fst s = layout k) /\ Forall (slot_ok h k) s /\ (dict_kind k = true -> NoDup (map fst s)).
Definition Shaped (h : mem) : Prop := forall a c, cell_at h a c -> shape h (kind c) (slots c).

(** The account: every counter is right, only [X] have unusable members, every object
    is where it may be. *)
Record G (X : list addr) (h : mem) (ext : list addr) : Prop := mkG {
  g_inv : Inv h ext [];
  g_holes : forall a c, cell_at h a c -> holey c -> In a X;
  g_shape : Shaped h }.
Notation via h ext a := (reach h [] ext a).

(** * What stays *)
Definition kept (n : nat) (c c' : cell) : Prop :=
  slots c' = slots c \/ kind c = KDict DObjs /\ exists more, slots c' = slots c ++ more /\ Forall (fun fv => forall b, snd fv = Ptr (Some b) -> n <= b) more.
(** Below [n] nothing changed but counters and what was freed; documents may have got
    new empty lists. *)
Definition same (n : nat) (h h' : mem) : Prop :=
  length h <= length h' /\
  forall a, a < length h -> nth_error h' a = Some None \/ exists c c', cell_at h a c /\ cell_at h' a c' /\ kind c' = kind c /\ (a < n -> kept n c c').
Lemma same_trans n h1 h2 h3 : same n h1 h2 -> same n h2 h3 -> same n h1 h3.
Proof.
  intros [L1 S1] [L2 S2]. split; [lia|]. intros a Ha. destruct (S2 a ltac:(lia)) as [E|(c2 & c3 & H2 & H3 & K3 & P3)]; [now left|].
  destruct (S1 a Ha) as [E|(c1 & c2' & H1 & H2' & K2 & P2)]; [congruence|]. assert (c2' = c2) by congruence. subst c2'.
  right. exists c1, c3. split; [exact H1|]. split; [exact H3|]. split; [congruence|]. intros Hn. specialize (P2 Hn). specialize (P3 Hn).
  destruct P2 as [E2|(D2 & m2 & E2 & F2)], P3 as [E3|(D3 & m3 & E3 & F3)].
  - left. congruence.
  - right. split; [congruence|]. exists m3. split; [congruence|exact F3].
  - right. split; [congruence|]. exists m2. split; [congruence|exact F2].
  - right. split; [exact D2|]. exists (m2 ++ m3). split; [rewrite E3, E2; now rewrite app_assoc|]. apply Forall_app. now split.
Qed.
Lemma same_weak n m h h' : m <= n -> same n h h' -> same m h h'.
Proof.
  intros Hm [L S]. split; [exact L|]. intros a Ha. destruct (S a Ha) as [E|(c & c' & H & H' & K & P)]; [now left|]. right. exists c, c'.
  split; [exact H|]. split; [exact H'|]. split; [exact K|]. intros Hn. specialize (P ltac:(lia)).
  destruct P as [E|(D & more & E & F)]; [now left|]. right. split; [exact D|]. exists more. split; [exact E|].
  eapply Forall_impl; [|exact F]. intros x Hx b Hb. specialize (Hx b Hb). lia.
Qed.
Lemma same_id n h : same n h h.
Proof. split; [lia|]. intros a Ha. destruct (nth_error h a) as [[c|]|] eqn:E; [|now left|apply nth_error_None in E; lia]. right. exists c, c. unfold kept. auto. Qed.
Lemma shrinks_same n h h' : shrinks h h' -> same n h h'.
Proof.
  intros [L S]. split; [lia|]. intros a Ha. destruct (nth_error h' a) as [[c'|]|] eqn:E; [|now left|apply nth_error_None in E; lia].
  right. destruct (S _ _ E) as (c & H & K & Es & _). exists c, c'. unfold kept. auto.
Qed.
(** Only [a] was rewritten. *)
Definition upd (a : addr) (h h' : mem) : Prop :=
  length h' = length h /\ (forall b, b <> a -> nth_error h' b = nth_error h b) /\
  exists c c', cell_at h a c /\ cell_at h' a c' /\ kind c' = kind c.
Lemma upd_same n a h h' : n <= a -> upd a h h' -> same n h h'.
Proof.
  intros Hn (L & O & c & c' & H & H' & K). split; [lia|]. intros b Hb. destruct (Nat.eq_dec b a) as [->|Hne].
  - right. exists c, c'. repeat split; auto. lia.
  - destruct (nth_error h b) as [[x|]|] eqn:E; [|left; rewrite O by assumption; exact E|apply nth_error_None in E; lia].
    right. exists x, x. rewrite O by assumption. unfold kept. auto.
Qed.

(** * Reaching *)
Lemma via_live X h ext a : G X h ext -> via h ext a -> live h a.
Proof. intros I V. eapply reach_live; [apply (g_inv _ _ _ I)|exact V]. Qed.
Lemma via_in h ext a : In a ext -> via h ext a.
Proof. now constructor. Qed.
Lemma via_kid h ext a c b : via h ext a -> cell_at h a c -> In b (kids c) -> via h ext b.
Proof. intros V H K. eapply reach_kid; [exact V|intros []|]. now rewrite (kidsof_at _ _ _ H). Qed.
Lemma via_mono h ext ext' a : incl ext ext' -> via h ext a -> via h ext' a.
Proof. apply reach_mono. Qed.
Lemma via_lt X h ext a : G X h ext -> via h ext a -> a < length h.
Proof. intros I V. apply live_lt. eapply via_live; eauto. Qed.
Lemma kids_in c f b : In (f, Ptr (Some b)) (slots c) -> In b (kids c).
Proof. intros H. unfold kids, refs. apply in_flat_map. exists (Ptr (Some b)). split; [apply in_map_iff; eexists; split; [|exact H]; reflexivity|now left]. Qed.
Lemma in_kids c b : In b (kids c) -> exists f, In (f, Ptr (Some b)) (slots c).
Proof.
  unfold kids, refs. intros H. apply in_flat_map in H. destruct H as (s & H1 & H2). apply in_map_iff in H1. destruct H1 as ((f & v) & <- & H1). cbn in *.
  destruct v as [|[x|]]; cbn in H2; try tauto. destruct H2 as [<-|[]]. eauto.
Qed.
Lemma kept_kids n c c' b : kept n c c' -> In b (kids c) -> In b (kids c').
Proof.
  intros [E|(_ & more & E & _)] H; unfold kids in *; rewrite E; [exact H|]. rewrite map_app. unfold refs. rewrite flat_map_app. apply in_or_app. now left.
Qed.
(** What a caller reaches stays while the caller keeps the references. *)
Lemma via_same h h' e0 e1 ext X X' a : G X h e0 -> incl ext e0 -> same (length h) h h' -> G X' h' e1 -> incl ext e1 -> via h ext a ->
  via h' ext a /\ exists c c', cell_at h a c /\ cell_at h' a c' /\ kind c' = kind c /\ kept (length h) c c'.
Proof.
  intros I Hi0 [L S] I' Hi V.
  assert (Step : forall x, via h ext x -> via h' ext x -> exists c c', cell_at h x c /\ cell_at h' x c' /\ kind c' = kind c /\ kept (length h) c c').
  { intros x V1 V2. pose proof (via_lt _ _ _ _ I (via_mono _ _ _ _ Hi0 V1)) as Hl. destruct (via_live _ _ _ _ I' (via_mono _ _ _ _ Hi V2)) as (c' & Hc').
    destruct (S x Hl) as [E|(c & c2 & H & H2 & K & P)]; [congruence|]. assert (c2 = c') by congruence. subst c2. exists c, c'. auto. }
  assert (V' : via h' ext a).
  { induction V as [a Ha|l a V IH _ Ha]; [now constructor|].
    destruct (Step l V IH) as (c & c' & H & H' & K & P). rewrite (kidsof_at _ _ _ H) in Ha.
    eapply via_kid; [exact IH|exact H'|]. eapply kept_kids; eauto. }
  split; [exact V'|]. now apply Step.
Qed.
(** Writing an object does not cut it off. *)
Lemma via_upd h h' ext a b : (forall x, x <> a -> nth_error h' x = nth_error h x) -> via h ext b -> via h' ext b \/ via h' ext a.
Proof.
  intros O V. induction V as [b Hb|l b V IH _ Hb]; [left; now constructor|].
  destruct IH as [IH|IH]; [|now right]. destruct (Nat.eq_dec l a) as [->|Hne]; [now right|]. left. eapply reach_kid; [exact IH|intros []|].
  unfold kidsof in *. now rewrite O.
Qed.
Lemma via_self h h' ext a : (forall x, x <> a -> nth_error h' x = nth_error h x) -> via h ext a -> via h' ext a.
Proof. intros O V. destruct (via_upd _ _ _ _ _ O V); auto. Qed.

(** * Programs *)
Definition wp {A} (m : M A) (h : mem) (Q : mem -> A -> Prop) : Prop := exists h' v, m h = Ok (h', v) /\ Q h' v.
Lemma wp_ret {A} (a : A) h (Q : mem -> A -> Prop) : Q h a -> wp (ret a) h Q.
Proof. intros H. exists h, a. now split. Qed.
Lemma wp_bind {A B} (m : M A) (f : A -> M B) h Q : wp m h (fun h' v => wp (f v) h' Q) -> wp (mbind m f) h Q.
Proof. intros (h' & v & E & h2 & v2 & E2 & H). exists h2, v2. split; [|exact H]. unfold mbind. rewrite E. cbn. exact E2. Qed.
Lemma wp_mono {A} (m : M A) h (P Q : mem -> A -> Prop) : wp m h P -> (forall h' v, P h' v -> Q h' v) -> wp m h Q.
Proof. intros (h' & v & E & H) HQ. exists h', v. auto. Qed.
Lemma wp_seq {A B} (m : M A) (f : A -> M B) h P Q : wp m h P -> (forall h' v, P h' v -> wp (f v) h' Q) -> wp (mbind m f) h Q.
Proof. intros W H. apply wp_bind. eapply wp_mono; eauto. Qed.
Lemma wp_look a h c (Q : mem -> cell -> Prop) : cell_at h a c -> Q h c -> wp (look a) h Q.
Proof. intros H HQ. exists h, c. split; [|exact HQ]. unfold look. now rewrite (peek_ok _ _ _ H). Qed.
Lemma wp_forM {A} (f : A -> M unit) (I : mem -> Prop) (P : A -> Prop) l : (forall h x, I h -> P x -> wp (f x) h (fun h' _ => I h')) ->
  forall h, I h -> Forall P l -> wp (forM f l) h (fun h' _ => I h').
Proof.
  intros Hf. unfold forM. induction l as [|x l IH]; intros h HI HP; cbn [foldM]; [now apply wp_ret|].
  inversion HP; subst. eapply wp_seq; [now apply Hf|]. cbn. intros h' [] HI'. now apply IH.
Qed.
Lemma wp_each {S} (f : S -> addr -> M S) (I : S -> mem -> Prop) (P : addr -> Prop) l : (forall s h x, I s h -> P x -> wp (f s x) h (fun h' s' => I s' h')) ->
  forall s h, I s h -> Forall (fun r => exists x, r = Some x /\ P x) l -> wp (each_item f s l) h (fun h' s' => I s' h').
Proof.
  intros Hf. unfold each_item. induction l as [|r l IH]; intros s h HI HP; cbn [foldM]; [now apply wp_ret|].
  inversion HP as [|? ? (x & -> & Hx) HP']; subst. apply wp_bind. unfold follow. apply wp_bind. apply wp_ret.
  eapply wp_mono; [now apply Hf|]. cbn. intros h' s' HI'. now apply IH.
Qed.

(** * Steps *)
Lemma G_perm X h ext ext' : (forall a, cnt a ext' = cnt a ext) -> G X h ext -> G X h ext'.
Proof. intros P [I Ho S]. constructor; auto. eapply Inv_perm; eauto. Qed.
Lemma G_more X X' h ext : incl X X' -> G X h ext -> G X' h ext.
Proof. intros Hi [I Ho S]. constructor; auto. intros a c Hc Hh. apply Hi. eauto. Qed.
Ltac inc := let x := fresh "x" in let H := fresh "H" in intros x H; repeat match goal with Hi : incl _ _ |- _ => specialize (Hi x) end;
  cbn in *; repeat (rewrite ?in_app_iff in *; cbn in * ); tauto.
Ltac cnts := let a := fresh "a" in intros a; repeat (cbn [app somes] || rewrite !count_occ_app || cbn [count_occ]);
  repeat match goal with |- context [Nat.eq_dec ?x ?y] => destruct (Nat.eq_dec x y) end; try lia.

Lemma slot_ok_new h k fv x : Forall (fun b => b < length h) (sref (snd fv)) -> slot_ok h k fv -> slot_ok (h ++ [x]) k fv.
Proof.
  unfold slot_ok. destruct (snd fv) as [|[b|]]; auto. cbn. intros Hb H cb Hcb. inversion Hb; subst. rewrite nth_error_app1 in Hcb by assumption. auto.
Qed.
Lemma kids_lt h ext a c : Inv h ext [] -> cell_at h a c -> Forall (fun fv => Forall (fun b => b < length h) (sref (snd fv))) (slots c).
Proof.
  intros I Hc. apply Forall_forall. intros (f, v) Hf. cbn. destruct v as [|[b|]]; cbn; constructor; [|constructor].
  apply live_lt. eapply (Inv_kid_live _ _ _ a); [exact I|intros []|]. rewrite (kidsof_at _ _ _ Hc). eapply kids_in; eauto.
Qed.
Lemma shape_new h ext a c x : Inv h ext [] -> cell_at h a c -> shape h (kind c) (slots c) -> shape (h ++ [x]) (kind c) (slots c).
Proof.
  intros I Hc [S1 [S2 S3]]. split; [exact S1|]. split; [|exact S3]. pose proof (kids_lt _ _ _ _ I Hc) as L. rewrite Forall_forall in *. intros fv Hf. apply slot_ok_new; auto.
Qed.
Definition all_holes (s : list (str * slot)) : Prop := Forall (fun fv => snd fv = Hole) s.
Lemma all_holes_kids n k s : all_holes s -> kids (mkC n k s) = [].
Proof. unfold kids, refs. cbn. induction 1 as [|(f & v) s Hv _ IH]; cbn in *; [reflexivity|]. subst v. exact IH. Qed.
Lemma wp_new X h ext k s : G X h ext -> all_holes s -> (layout k <> [] -> map fst s = layout k) -> (dict_kind k = true -> NoDup (map fst s)) ->
  wp (new k s) h (fun h' n => n = length h /\ G (n :: X) h' (n :: ext) /\ (s = [] -> G X h' (n :: ext)) /\ same (length h) h h' /\ cell_at h' n (mkC 0 k s)).
Proof.
  intros [I Ho S] Hs Hl Hd. exists (h ++ [Some (mkC 0 k s)]), (length h). split; [reflexivity|]. split; [reflexivity|].
  assert (HN : forall a c, cell_at (h ++ [Some (mkC 0 k s)]) a c -> cell_at h a c \/ a = length h /\ c = mkC 0 k s).
  { intros a c H. destruct (Nat.lt_ge_cases a (length h)) as [Ha|Ha]; [left; now rewrite nth_error_app1 in H by assumption|].
    right. assert (a < length (h ++ [Some (mkC 0 k s)])) by (apply nth_error_Some; congruence). rewrite app_length in *. cbn in *. assert (a = length h) by lia. subst a.
    rewrite nth_error_app2, Nat.sub_diag in H by lia. cbn in H. split; [reflexivity|congruence]. }
  assert (HI : Inv (h ++ [Some (mkC 0 k s)]) (length h :: ext) []) by (apply Inv_create; [exact I|now apply all_holes_kids|reflexivity]).
  assert (HS : Shaped (h ++ [Some (mkC 0 k s)])).
  { intros a c H. destruct (HN a c H) as [H'|(-> & ->)]; [eapply shape_new; eauto|]. cbn [kind slots]. split; [exact Hl|]. split; [|exact Hd]. eapply Forall_impl; [|exact Hs].
    intros fv E. unfold slot_ok. now rewrite E. }
  split; [|split; [|split]].
  - constructor; auto. intros a c H Hh. destruct (HN a c H) as [H'|(-> & ->)]; [right; eauto|now left].
  - intros ->. constructor; auto. intros a c H Hh. destruct (HN a c H) as [H'|(-> & ->)]; [eauto|destruct Hh].
  - split; [rewrite app_length; cbn; lia|]. intros a Ha. destruct (nth_error h a) as [[c|]|] eqn:E; [|left; now rewrite nth_error_app1|apply nth_error_None in E; lia].
    right. exists c, c. rewrite nth_error_app1 by assumption. unfold kept. auto.
  - now rewrite nth_error_app2, Nat.sub_diag by lia.
Qed.
Lemma poke_upd h a c c' : cell_at h a c -> kind c' = kind c -> upd a h (poke h a (Some c')).
Proof.
  intros H K. pose proof (at_lt _ _ _ H). split; [apply poke_length|]. split; [intros b Hb; rewrite poke_other by congruence; reflexivity|].
  exists c, c'. rewrite poke_same by assumption. auto.
Qed.
Lemma Shaped_upd h h' a : Shaped h -> upd a h h' -> (forall c', cell_at h' a c' -> shape h (kind c') (slots c')) -> Shaped h'.
Proof.
  intros S (L & O & c & c' & H & H' & K) Ha.
  assert (Kinds : forall b cb, cell_at h' b cb -> exists cb0, cell_at h b cb0 /\ kind cb0 = kind cb).
  { intros b cb Hb. destruct (Nat.eq_dec b a) as [->|Hne]; [exists c; split; [exact H|congruence]|]. rewrite O in Hb by assumption. eauto. }
  intros b cb Hb. assert (Sb : shape h (kind cb) (slots cb)).
  { destruct (Nat.eq_dec b a) as [->|Hne]; [now apply Ha|]. rewrite O in Hb by assumption. exact (S _ _ Hb). }
  destruct Sb as [S1 [S2 S3]]. split; [exact S1|]. split; [|exact S3]. eapply Forall_impl; [|exact S2]. intros (f, v). unfold slot_ok. cbn. destruct v as [|[x|]]; auto.
  intros Hx cx Hcx. destruct (Kinds x cx Hcx) as (c0 & H0 & E0). rewrite <- E0. auto.
Qed.
Lemma wp_rewrite X X' h ext ext' a c s : G X h ext -> cell_at h a c ->
  (forall x, cnt x ext' + cnt x (refs (map snd s)) = cnt x ext + cnt x (kids c)) ->
  shape h (kind c) s -> (In Hole (map snd s) -> In a X') -> (forall x, In x X -> x = a \/ In x X') ->
  wp (rewrite_slots a s) h (fun h' _ => G X' h' ext' /\ upd a h h' /\ cell_at h' a (mkC (refc c) (kind c) s)).
Proof.
  intros [I Ho S] Hc Hn Hs Hh HX. exists (poke h a (Some (mkC (refc c) (kind c) s))), tt.
  split; [unfold rewrite_slots; now rewrite (peek_ok _ _ _ Hc)|].
  assert (U : upd a h (poke h a (Some (mkC (refc c) (kind c) s)))) by (now apply (poke_upd h a c)).
  assert (N : cell_at (poke h a (Some (mkC (refc c) (kind c) s))) a (mkC (refc c) (kind c) s)) by (apply poke_same; eapply at_lt; eauto).
  split; [|split; auto]. constructor.
  - apply (Inv_put h ext ext' [] a c); auto.
  - intros b cb Hb Hhb. destruct (Nat.eq_dec b a) as [->|Hne].
    + rewrite N in Hb. injection Hb as <-. auto.
    + destruct U as (_ & O & _). rewrite O in Hb by assumption. destruct (HX b (Ho _ _ Hb Hhb)); [contradiction|assumption].
  - eapply Shaped_upd; [exact S|exact U|]. intros c' Hc'. rewrite N in Hc'. injection Hc' as <-. exact Hs.
Qed.
Lemma wp_incref X h ext r : G X h ext -> (forall a, r = Some a -> live h a) ->
  wp (incref r) h (fun h' _ => G X h' (somes [r] ++ ext) /\ same (length h) h h').
Proof.
  intros [I Ho S] Hl. destruct r as [a|]; [|exists h, tt; split; [reflexivity|]; split; [now constructor|apply same_id]].
  destruct (Hl a eq_refl) as (c & Hc). exists (poke h a (Some (mkC (Datatypes.S (refc c)) (kind c) (slots c)))), tt.
  split; [unfold incref; now rewrite (peek_ok _ _ _ Hc)|].
  pose proof (poke_upd h a c (mkC (Datatypes.S (refc c)) (kind c) (slots c)) Hc eq_refl) as U.
  assert (N : cell_at (poke h a (Some (mkC (Datatypes.S (refc c)) (kind c) (slots c)))) a (mkC (Datatypes.S (refc c)) (kind c) (slots c))) by (apply poke_same; eapply at_lt; eauto).
  split; [constructor|].
  - apply (Inv_count h ext (a :: ext) [] a c); auto.
    + cbn [count_occ]. destruct (Nat.eq_dec a a); [lia|congruence].
    + intros b Hb. cbn [count_occ]. destruct (Nat.eq_dec a b); [congruence|reflexivity].
  - intros b cb Hb Hhb. destruct (Nat.eq_dec b a) as [->|Hne].
    + rewrite N in Hb. injection Hb as <-. eauto.
    + destruct U as (_ & O & _). rewrite O in Hb by assumption. eauto.
  - eapply Shaped_upd; [exact S|exact U|]. intros c' Hc'. rewrite N in Hc'. injection Hc' as <-. cbn. now apply S in Hc.
  - split; [rewrite poke_length; lia|]. intros b Hb. destruct U as (_ & O & _). destruct (Nat.eq_dec b a) as [->|Hne].
    + right. exists c. eexists. split; [exact Hc|]. split; [exact N|]. split; [reflexivity|]. intros _. now left.
    + rewrite O by assumption. destruct (nth_error h b) as [[x|]|] eqn:E; [|now left|apply nth_error_None in E; lia]. right. exists x, x. unfold kept. auto.
Qed.
Lemma wp_release X h ext r : G X h (somes [r] ++ ext) -> (forall x, In x X -> live h x -> via h ext x) ->
  wp (release r) h (fun h' _ => G X h' ext /\ shrinks h h').
Proof.
  intros [I Ho S] HX.
  destruct (destroy_ok (Datatypes.S (length h)) [] h r ext) as (h' & E & I' & Sh).
  - exact I.
  - intros e [].
  - pose proof (liveE_length h []). lia.
  - intros a c Hc Hh. apply HX; [eauto|]. now exists c.
  - exists h', tt. split; [unfold release; now rewrite E|]. split; [|exact Sh]. constructor; auto.
    + intros a c Hc Hh. destruct (proj2 Sh _ _ Hc) as (c0 & H0 & _ & Es & _). apply (Ho a c0 H0). unfold holey in *. now rewrite <- Es.
    + intros a c Hc. destruct (proj2 Sh _ _ Hc) as (c0 & H0 & Ek & Es & _). rewrite Ek, Es. destruct (S _ _ H0) as [S1 [S2 S3]]. split; [exact S1|]. split; [|exact S3].
      eapply Forall_impl; [|exact S2]. intros (f, v). unfold slot_ok. cbn. destruct v as [|[x|]]; auto.
      intros Hx cx Hcx. destruct (proj2 Sh _ _ Hcx) as (cx0 & Hx0 & Ekx & _). rewrite Ekx. auto.
Qed.
