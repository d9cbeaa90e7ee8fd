(** The object dictionary of comps_objradix.c as a table of paths, for every
    history: every node of the tree, with or without a value, and whether the
    tail pointer of its list of subnodes is NULL. *)
From Coq Require Import Permutation.
From Verif Require Import CStr CStrFacts HSListModel HSListFacts RTreeModel RTreeFacts RTreeFacts2 RTreeFacts3 RTreeFacts4 MDictFacts MDictSpec.

Section Tab.
Context {V : Type}.
Notation node := (node V).
Notation cell := (option V * bool)%type.
Notation pmap := (str -> option cell).
Implicit Types (n m : node) (l : list node) (h : hsl node) (k p q r s : str) (d : option V) (T : pmap) (w b : bool).

(** ** All nodes of a tree *)
Definition weakh {A} (h : hsl A) : bool := match htail h with TNull => true | _ => false end.
Fixpoint shade n : RTreeModel.node cell :=
  match n with
  | Node k d (mkH l t) => Node k (Some (d, weakh (mkH l t))) (mkH (map shade l) t)
  end.
Definition shadow h : hsl (RTreeModel.node cell) := mkH (map shade (hitems h)) (htail h).
Lemma shade_eq n : shade n = Node (nkey n) (Some (ndata n, weakh (nsubs n))) (shadow (nsubs n)).
Proof. now destruct n as [k d [l t]]. Qed.
Lemma shade_key n : nkey (shade n) = nkey n.
Proof. now rewrite shade_eq. Qed.
Lemma shade_head n : head0 (shade n) = head0 n.
Proof. unfold head0. now rewrite shade_key. Qed.
Lemma shadow_wff h : wff h -> wff (shadow h).
Proof.
  induction 1 as [h Hs Hnd Hk Hw IH]. constructor; cbn [shadow hitems htail].
  - unfold semi in *. cbn [shadow hitems htail]. destruct (htail h); auto. now rewrite map_length.
  - rewrite map_map. erewrite map_ext; [exact Hnd|]. intros n. apply shade_head.
  - intros m Hm. apply in_map_iff in Hm. destruct Hm as (n & <- & Hn). rewrite shade_key. auto.
  - intros m Hm. apply in_map_iff in Hm. destruct Hm as (n & <- & Hn). rewrite shade_eq. cbn [nsubs]. auto.
Qed.
(** What is at a path; the empty path is the list itself. *)
Definition cells d h : pmap := fun q => match q with [] => Some (d, weakh h) | _ => look (shadow h) q end.
Definition ncells n : pmap := fun q => match strip (nkey n) q with Some r => cells (ndata n) (nsubs n) r | None => None end.
Lemma cells_nil d h : cells d h [] = Some (d, weakh h).
Proof. reflexivity. Qed.
Lemma cells_ne d h q : q <> [] -> cells d h q = look (shadow h) q.
Proof. now destruct q. Qed.
Lemma ncells_look n q : nlook (shade n) q = ncells n q.
Proof.
  unfold nlook, ncells. rewrite shade_eq. cbn [nkey ndata nsubs]. destruct (strip (nkey n) q) as [[|c r]|]; reflexivity.
Qed.
Lemma ncells_app n r : ncells n (nkey n ++ r) = cells (ndata n) (nsubs n) r.
Proof. unfold ncells. now rewrite strip_app. Qed.
Lemma ncells_off n q : ~ prefix (nkey n) q -> ncells n q = None.
Proof. intros H. unfold ncells. now rewrite (proj2 (strip_none _ _) H). Qed.
Lemma cells_in d h n q : wff h -> In n (hitems h) -> q <> [] -> char0 q = head0 n -> cells d h q = ncells n q.
Proof.
  intros Hw Hin Hq Hc. rewrite cells_ne by exact Hq. rewrite <- ncells_look. apply look_in; [now apply shadow_wff|now apply in_map|exact Hq|now rewrite shade_head].
Qed.
Lemma cells_app d h n r : wff h -> In n (hitems h) -> cells d h (nkey n ++ r) = cells (ndata n) (nsubs n) r.
Proof.
  intros Hw Hin. pose proof (wff_key _ _ Hw Hin) as Hk. rewrite (cells_in d h n); auto; [apply ncells_app|destruct (nkey n); [congruence|discriminate]|unfold head0; destruct (nkey n); [congruence|reflexivity]].
Qed.
Lemma cells_notin d h q : wff h -> q <> [] -> Forall (fun m => head0 m <> char0 q) (hitems h) -> cells d h q = None.
Proof.
  intros Hw Hq Hf. rewrite cells_ne by exact Hq. apply look_notin; [now apply shadow_wff|]. cbn [shadow hitems]. apply Forall_map. eapply Forall_impl; [|exact Hf]. intros m. now rewrite shade_head.
Qed.
Lemma cells_some d h q : wff h -> q <> [] -> cells d h q <> None -> exists n, In n (hitems h) /\ head0 n = char0 q /\ prefix (nkey n) q.
Proof.
  intros Hw Hq H. destruct (pick (char0 q) (hitems h)) as [n|] eqn:E.
  - apply pick_some in E. destruct E as [Hin Hh]. exists n. split; [exact Hin|]. split; [exact Hh|]. rewrite (cells_in d h n) in H by auto.
    unfold ncells in H. destruct (strip (nkey n) q) as [r|] eqn:Es; [|congruence]. apply strip_some in Es. now exists r.
  - apply pick_none_inv in E. elim H. now apply cells_notin.
Qed.

(** Another list with the same nodes, but for one first character. *)
Definition patch d h h' nn : Prop :=
  wff h' /\ forall q, q <> [] -> cells d h' q = if Ascii.eqb (char0 q) (head0 nn) then ncells nn q else cells d h q.
Lemma patch_update d h l1 n nn l2 :
  wff h -> hitems h = l1 ++ n :: l2 -> head0 nn = head0 n -> wfn nn -> patch d h (hs_update h (length l1) nn) nn.
Proof.
  intros Hw El Hh Hn. pose proof (wff_update h l1 n nn l2 Hw El Hh Hn) as Hw'. split; [exact Hw'|]. intros q Hq.
  destruct (Ascii.eqb_spec (char0 q) (head0 nn)) as [E|E].
  - apply cells_in; auto. unfold hs_update. cbn [hitems]. rewrite El, list_upd_app. apply in_or_app. right. now left.
  - rewrite !cells_ne by exact Hq. destruct q as [|c q]; [congruence|]. rewrite !look_cons by now apply shadow_wff. cbn [char0] in E.
    unfold shadow, hs_update. cbn [hitems]. rewrite El, list_upd_app, !map_app. cbn [map].
    rewrite (pick_replace c _ (shade nn) (shade n)); [reflexivity|now rewrite !shade_head|rewrite shade_head; congruence].
Qed.
Lemma patch_splice d h h' l1 nn l2 :
  wff h -> semi h' -> hitems h = l1 ++ l2 -> hitems h' = l1 ++ nn :: l2 -> Forall (fun m => head0 m <> head0 nn) (l1 ++ l2) -> wfn nn -> patch d h h' nn.
Proof.
  intros Hw Hs El El' Hf Hn. pose proof (wff_splice h h' l1 nn l2 Hw Hs El El' Hf Hn) as Hw'. split; [exact Hw'|]. intros q Hq.
  rewrite !cells_ne by exact Hq. rewrite <- ncells_look, <- (shade_head nn).
  apply (look_splice (shadow h) (shadow h') (map shade l1) (shade nn) (map shade l2)); auto using shadow_wff; unfold shadow; cbn [hitems]; [rewrite El|rewrite El']; now rewrite map_app.
Qed.
Lemma patch_remove d h l1 n l2 q : wff h -> hitems h = l1 ++ n :: l2 -> q <> [] ->
  cells d (hs_remove h (length l1)) q = if Ascii.eqb (char0 q) (head0 n) then None else cells d h q.
Proof.
  intros Hw El Hq. pose proof (wff_remove h l1 n l2 Hw El) as Hw'. pose proof (hs_remove_items h l1 n l2 El) as Er. rewrite !cells_ne by exact Hq.
  assert (El' : hitems (shadow h) = map shade l1 ++ shade n :: map shade l2) by (cbn [shadow hitems]; rewrite El; now rewrite map_app).
  assert (Er' : hitems (shadow (hs_remove h (length l1))) = map shade l1 ++ map shade l2) by (cbn [shadow hitems]; rewrite Er; now rewrite map_app).
  pose proof (look_splice _ (shadow h) _ _ _ q (shadow_wff _ Hw') (shadow_wff _ Hw) Er' El' Hq) as H. rewrite shade_head in H.
  destruct (Ascii.eqb_spec (char0 q) (head0 n)) as [E|E]; [|now rewrite H].
  rewrite <- cells_ne with (d := d) by exact Hq. apply cells_notin; auto. rewrite Er, E. apply Forall_forall. intros m Hm Eh.
  pose proof (wff_nodup _ Hw) as Hn. rewrite El, map_app in Hn. cbn in Hn. apply NoDup_remove_2 in Hn. apply Hn. rewrite <- map_app, <- Eh. now apply in_map.
Qed.

(** ** Setting, as seen on the paths *)
(** The longest path that is properly before [k]. *)
Definition base T k p : Prop := T p <> None /\ proper_prefix p k /\ forall q, T q <> None -> proper_prefix q k -> length q <= length p.
Definition inside p k q : bool := starts p q && negb (streq p q) && negb (starts k q).
Definition sets T T' k d b : Prop :=
  (exists d0 w, T k = Some (d0, w) /\ b = false /\ forall q, T' q = if streq q k then Some (d, w) else T q) \/
  (T k = None /\ b = true /\ exists s, stems T k s /\
    ((T s <> None /\ forall q, T' q = if streq q k then Some (d, true) else T q) \/
     (s = k /\ exists p dp wp, base T k p /\ T p = Some (dp, wp) /\
        forall q, T' q = if streq q k then Some (d, false) else if streq q p then Some (dp, false) else if wp && inside p k q then None else T q) \/
     (s <> k /\ T s = None /\ forall q, T' q = if streq q k then Some (d, true) else if streq q s then Some (None, false) else T q))).

Lemma streq_app x a c : streq (x ++ a) (x ++ c) = streq a c.
Proof.
  destruct (streq_spec a c) as [->|H]; [apply streq_refl|]. apply streq_neq. intros E. apply H. now apply app_inv_head in E.
Qed.
Lemma starts_app x a c : starts (x ++ a) (x ++ c) = starts a c.
Proof. induction x as [|y x IH]; cbn; [reflexivity|]. now rewrite Ascii.eqb_refl. Qed.
Lemma inside_app x p k q : inside (x ++ p) (x ++ k) (x ++ q) = inside p k q.
Proof. unfold inside. now rewrite !starts_app, streq_app. Qed.
Lemma starts_off x a q : ~ prefix x q -> starts (x ++ a) q = false.
Proof.
  intros H. destruct (starts (x ++ a) q) eqn:E; [|reflexivity]. apply starts_spec in E. elim H. destruct E as (r & ->). rewrite <- app_assoc. now eexists.
Qed.
Lemma streq_off x a q : ~ prefix x q -> streq q (x ++ a) = false.
Proof. intros H. apply streq_neq. intros ->. apply H. now eexists. Qed.
Lemma prefix_dec x q : {r | q = x ++ r} + {~ prefix x q}.
Proof.
  destruct (strip x q) as [r|] eqn:E; [left; exists r; now apply strip_some|right; now apply strip_none].
Qed.
Lemma pp_app x a c : proper_prefix (x ++ a) (x ++ c) <-> proper_prefix a c.
Proof.
  split.
  - intros (y & r & E). rewrite <- app_assoc in E. apply app_inv_head in E. now exists y, r.
  - intros (y & r & ->). exists y, r. now rewrite app_assoc.
Qed.
Lemma stems_lift T T1 x k s : (forall r, T (x ++ r) = T1 r) -> T1 [] <> None -> stems T1 k s -> stems T (x ++ k) (x ++ s).
Proof.
  intros Hx H0 (S1 & S2 & S3). split; [|split].
  - destruct S1 as (r & ->). exists r. now rewrite app_assoc.
  - right. destruct S2 as [->|(q & Hq & r & ->)].
    + exists x. split; [|exists []; now rewrite !app_nil_r]. rewrite <- (app_nil_r x), Hx. exact H0.
    + exists (x ++ s ++ r). rewrite Hx. split; [exact Hq|]. exists r. now rewrite app_assoc.
  - intros q r Hq Hrq Hrk. destruct (Nat.le_gt_cases (length r) (length x)) as [L|L].
    + assert (P : prefix r x) by (apply (prefix_both x r (x ++ k)); auto; now eexists). destruct P as (u & ->). exists (u ++ s). now rewrite app_assoc.
    + assert (P : prefix x r) by (apply (prefix_both r x (x ++ k)); auto; [now eexists|lia]). destruct P as (u & ->).
      destruct Hrq as (z & ->). rewrite <- app_assoc, Hx in Hq. destruct Hrk as (y & E). rewrite <- app_assoc in E. apply app_inv_head in E.
      destruct (S3 (u ++ z) u) as (t & ->); [exact Hq|now eexists|now exists y|]. exists t. now rewrite app_assoc.
Qed.
Lemma base_lift T T1 x k p : (forall r, T (x ++ r) = T1 r) -> base T1 k p -> base T (x ++ k) (x ++ p).
Proof.
  intros Hx (B1 & B2 & B3). split; [now rewrite Hx|]. split; [now apply pp_app|]. intros q Hq Hp. destruct (Nat.le_gt_cases (length q) (length x)) as [L|L]; [rewrite app_length; lia|].
  assert (P : prefix x q) by (apply (prefix_both q x (x ++ k)); [now apply proper_prefix_prefix|now eexists|lia]). destruct P as (u & ->).
  rewrite Hx in Hq. specialize (B3 u Hq (proj1 (pp_app x u k) Hp)). rewrite !app_length. lia.
Qed.
Lemma sets_lift T T' T1 T1' x k d b :
  (forall r, T (x ++ r) = T1 r) -> (forall r, T' (x ++ r) = T1' r) -> (forall q, ~ prefix x q -> T' q = T q) -> T1 [] <> None ->
  sets T1 T1' k d b -> sets T T' (x ++ k) d b.
Proof.
  intros Hx Hx' Ho H0 [(d0 & w & E & Eb & Hq)|(E & Eb & s & Hs & H)].
  - left. exists d0, w. rewrite Hx. split; [exact E|]. split; [exact Eb|]. intros q. destruct (prefix_dec x q) as [(r & ->)|Hn].
    + now rewrite Hx', Hx, streq_app.
    + rewrite Ho, streq_off by exact Hn. reflexivity.
  - right. rewrite Hx. split; [exact E|]. split; [exact Eb|]. exists (x ++ s). split; [now apply (stems_lift T T1)|].
    destruct H as [(E1 & Hq)|[(-> & p & dp & wp & Hb & Ep & Hq)|(E1 & E2 & Hq)]].
    + left. rewrite Hx. split; [exact E1|]. intros q. destruct (prefix_dec x q) as [(r & ->)|Hn]; [now rewrite Hx', Hx, streq_app|]. rewrite Ho, streq_off by exact Hn. reflexivity.
    + right. left. split; [reflexivity|]. exists (x ++ p), dp, wp. split; [now apply (base_lift T T1)|]. rewrite Hx. split; [exact Ep|].
      intros q. destruct (prefix_dec x q) as [(r & ->)|Hn]; [now rewrite Hx', Hx, !streq_app, inside_app|].
      rewrite Ho by exact Hn. rewrite !streq_off by exact Hn. unfold inside. rewrite starts_off by exact Hn. cbn. now rewrite Bool.andb_false_r.
    + right. right. rewrite Hx. split; [intros E'; now apply app_inv_head in E'|]. split; [exact E2|].
      intros q. destruct (prefix_dec x q) as [(r & ->)|Hn]; [now rewrite Hx', Hx, !streq_app|]. rewrite Ho by exact Hn. now rewrite !streq_off by exact Hn.
Qed.

Lemma inside_nil k q : q <> [] -> inside [] k q = negb (starts k q).
Proof. intros H. unfold inside. cbn [starts]. rewrite streq_neq by congruence. reflexivity. Qed.
Lemma prefix_head x q : x <> [] -> prefix x q -> char0 q = char0 x.
Proof. intros Hx (r & ->). destruct x; [congruence|reflexivity]. Qed.

Lemma set_cells fuel : forall h k d d0, wff h -> length k <= fuel -> k <> [] ->
  exists h' b, set_sub fuel h k d = Ok (h', b) /\ wff h' /\ sets (cells d0 h) (cells d0 h') k d b.
Proof.
  induction fuel as [|fuel IH]; intros h k d d0 Hw Hlen Hk; [destruct k; [congruence|cbn in Hlen; lia]|].
  destruct k as [|c k]; [congruence|]. cbn [set_sub]. pose proof (find_child_spec c (hitems h) 0 None) as Hf.
  destruct (find_child c (hitems h) 0 None) as [i n|lz].
  2:{ destruct Hf as [Hf Hlz]. set (K := c :: k) in *. set (nn := Node K d hs_empty).
    set (h' := match lz with None => hs_prepend h nn | Some i => hs_insert_after h i nn end).
    exists h', true. split; [reflexivity|].
    assert (Hsplit : exists l1 l2, hitems h = l1 ++ l2 /\ hitems h' = l1 ++ nn :: l2 /\ semi h' /\ weakh h' = weakh h).
    { destruct Hlz as [->|(j & -> & Hj)]; unfold h'.
      - exists [], (hitems h). split; [reflexivity|]. split; [reflexivity|]. split; [apply semi_prepend, (wff_semi _ Hw)|]. unfold weakh, hs_prepend. cbn [htail]. now destruct (htail h).
      - destruct (list_ins_split (hitems h) (S j) nn) as (l1 & l2 & E1 & E2); [lia|].
        exists l1, l2. unfold hs_insert_after; cbn [hitems]. split; [exact E1|]. split; [exact E2|]. split; [apply (semi_insert_after h j nn); [lia|now apply wff_semi]|].
        unfold weakh. cbn [htail]. destruct (htail h) as [|x|]; auto. destruct (x =? j); [reflexivity|]. now destruct (x <? j). }
    destruct Hsplit as (l1 & l2 & El & El' & Hs' & Hwk).
    destruct (patch_splice d0 h h' l1 nn l2 Hw Hs' El El') as (Hw' & Hp); [now rewrite <- El|now apply wfn_leaf|]. split; [exact Hw'|].
    assert (Hno : forall q, q <> [] -> char0 q = c -> cells d0 h q = None) by (intros q Hq Hc; apply cells_notin; auto; now rewrite Hc).
    right. split; [apply Hno; [discriminate|reflexivity]|]. split; [reflexivity|]. exists []. split.
    - split; [now exists K|]. split; [now left|]. intros q r Hq Hrq Hrk. destruct r as [|y r]; [apply prefix_refl|]. exfalso. apply Hq.
      destruct Hrk as (u & E). injection E as Ec _. destruct Hrq as (u' & ->). apply Hno; [discriminate|]. cbn. congruence.
    - left. split; [discriminate|]. intros q. destruct q as [|y q]; [now rewrite !cells_nil, Hwk|]. rewrite Hp by discriminate.
      change (head0 nn) with c. destruct (Ascii.eqb_spec (char0 (y :: q)) c) as [Ec|Ec].
      + unfold ncells. cbn [nn nkey ndata nsubs]. destruct (strip K (y :: q)) as [r|] eqn:Es.
        * apply strip_some in Es. rewrite Es. destruct r as [|z r]; [rewrite app_nil_r, streq_refl; reflexivity|].
          rewrite streq_neq by (intros E; apply (f_equal (@length _)) in E; rewrite app_length in E; cbn in E; lia).
          rewrite Hno by (rewrite <- ?Es; auto; discriminate). reflexivity.
        * rewrite streq_neq by (intros E; rewrite E in Es; apply strip_none in Es; apply Es, prefix_refl). now rewrite Hno by (auto; discriminate).
      + rewrite streq_neq; [reflexivity|]. intros E. apply Ec. now rewrite E. }
  destruct Hf as (l1 & l2 & El & Hi & Hh & Hf). cbn in Hi. subst i.
  assert (Hin : In n (hitems h)) by (rewrite El; apply in_or_app; right; now left).
  pose proof (wff_key _ _ Hw Hin) as Hnk. pose proof (wff_sub _ _ Hw Hin) as Hns.
  assert (Hoth : forall q, q <> [] -> char0 q = head0 n -> cells d0 h q = ncells n q) by (intros; now apply cells_in).
  pose proof (scan_keycmp c k (nkey n) Hnk Hh) as Hkc. set (K := c :: k) in *.
  assert (HcK : char0 K = head0 n) by now rewrite Hh. assert (HK : K <> []) by discriminate.
  assert (Hsk : forall q, prefix K q -> q <> [] /\ char0 q = head0 n).
  { intros q Hp. split; [intros ->; destruct Hp; discriminate|]. rewrite (prefix_head K q) by auto. exact HcK. }
  clearbody K.
  inversion Hkc as [E He|a r E He|a r E He|p a ra b rb Hp0 E E' Hab He]; clear Hkc He; cbv beta iota zeta.
  - (* the same key *)
    set (nn := Node (nkey n) d (nsubs n)). destruct (patch_update d0 h l1 n nn l2 Hw El eq_refl) as (Hw' & Hp); [now split|].
    exists (hs_update h (length l1) nn), false. split; [reflexivity|]. split; [exact Hw'|]. left. exists (ndata n), (weakh (nsubs n)).
    split; [rewrite E, <- (app_nil_r (nkey n)), cells_app by auto; reflexivity|]. split; [reflexivity|].
    intros q. destruct q as [|y q]; [rewrite streq_neq by congruence; reflexivity|]. rewrite Hp by discriminate. change (head0 nn) with (head0 n).
    destruct (Ascii.eqb_spec (char0 (y :: q)) (head0 n)) as [Ec|Ec].
    + rewrite (Hoth (y :: q)) by (auto; discriminate). unfold ncells. cbn [nn nkey ndata nsubs]. destruct (strip (nkey n) (y :: q)) as [[|z r]|] eqn:Es.
      * apply strip_some in Es. rewrite Es, app_nil_r, E, streq_refl. reflexivity.
      * apply strip_some in Es. rewrite Es, E. rewrite streq_neq by (intros E2; apply (f_equal (@length _)) in E2; rewrite app_length in E2; cbn in E2; lia). reflexivity.
      * rewrite streq_neq; [reflexivity|]. intros E2. rewrite E2, E in Es. apply strip_none in Es. apply Es, prefix_refl.
    + rewrite streq_neq; [reflexivity|]. intros E2. apply Ec. now rewrite E2.
  - (* inside the key of a node *)
    set (old := Node (skipn (length K) (nkey n)) (ndata n) (nsubs n)). set (nn := Node K d (mkH [old] (TAt 0))).
    assert (Hold : nkey old = a :: r) by (cbn [old nkey]; rewrite E; apply skipn_app_exact).
    assert (Hwold : wff (mkH [old] (TAt 0))).
    { constructor; cbn [hitems htail]; [reflexivity|cbn; constructor; [easy|constructor]|intros m [<-|[]]; rewrite Hold; discriminate|intros m [<-|[]]; exact Hns]. }
    assert (Hwn : wfn nn) by (split; [exact HK|exact Hwold]).
    assert (Hhn : head0 nn = head0 n) by exact HcK.
    assert (Hnn : forall q, char0 q = head0 n -> q <> [] -> ncells nn q = if streq q K then Some (d, false) else if starts K q then ncells n q else None).
    { intros q Hc Hq. destruct (prefix_dec K q) as [(u & ->)|Hn].
      - change (ncells nn (K ++ u)) with (ncells nn (nkey nn ++ u)). rewrite ncells_app. cbn [nn ndata nsubs]. rewrite (proj2 (starts_spec K (K ++ u))) by now eexists. destruct u as [|y u]; [rewrite app_nil_r, streq_refl; reflexivity|].
        rewrite streq_neq by (intros E2; apply (f_equal (@length _)) in E2; rewrite app_length in E2; cbn in E2; lia).
        destruct (Ascii.eqb_spec y a) as [->|Hne].
        + rewrite (cells_in d _ old); [|exact Hwold|now left|discriminate|unfold head0; now rewrite Hold]. unfold ncells. rewrite Hold, E, strip_app2. reflexivity.
        + rewrite cells_notin; [|exact Hwold|discriminate|constructor; [unfold head0; rewrite Hold; cbn; congruence|constructor]].
          symmetry. apply ncells_off. rewrite E. intros (z & Ez). rewrite <- app_assoc in Ez. apply app_inv_head in Ez. cbn in Ez. congruence.
      - rewrite ncells_off by exact Hn. rewrite streq_neq by (intros ->; apply Hn, prefix_refl). destruct (starts K q) eqn:Es; [apply starts_spec in Es; contradiction|reflexivity]. }
    assert (Hlate : forall q, char0 q = head0 n -> q <> [] -> starts K q = false -> ncells n q = None).
    { intros q Hc Hq Hs. apply ncells_off. rewrite E. intros (z & ->). rewrite <- app_assoc in Hs. rewrite (proj2 (starts_spec _ _)) in Hs by (now eexists). discriminate. }
    pose proof (hs_remove_items h l1 n l2 El) as Erem. pose proof (semi_remove h (length l1) (wff_semi _ Hw)) as Hsrem.
    assert (HT : cells d0 h K = None). { rewrite Hoth by auto. apply ncells_off. rewrite E. intros (z & Ez). apply (f_equal (@length _)) in Ez. rewrite !app_length in Ez. cbn in Ez. lia. }
    assert (Hst : stems (cells d0 h) K K).
    { split; [apply prefix_refl|]. split; [right; exists (nkey n); split; [rewrite <- (app_nil_r (nkey n)), cells_app by auto; discriminate|rewrite E; now eexists]|auto]. }
    assert (Hb : base (cells d0 h) K []).
    { split; [discriminate|]. split; [destruct K as [|y K]; [congruence|now exists y, K]|]. intros q Hq Hp. destruct q as [|y q]; [auto|]. exfalso. apply Hq.
      pose proof (proper_prefix_prefix _ _ Hp) as Hp'. rewrite Hoth; [|discriminate|rewrite <- HcK; symmetry; apply prefix_head; [discriminate|exact Hp']].
      apply ncells_off. rewrite E. intros Hx. apply prefix_length in Hx. apply proper_prefix_length in Hp. rewrite app_length in Hx. lia. }
    assert (Hfin : forall h', wff h' -> weakh h' = false -> (forall q, q <> [] -> cells d0 h' q = if Ascii.eqb (char0 q) (head0 n) then ncells nn q else if weakh h then None else cells d0 h q) ->
                     sets (cells d0 h) (cells d0 h') K d true).
    { intros h' Hw' Hwk Hc'. right. split; [exact HT|]. split; [reflexivity|]. exists K. split; [exact Hst|]. right. left. split; [reflexivity|].
      exists [], d0, (weakh h). split; [exact Hb|]. split; [reflexivity|]. intros q. destruct q as [|y q]; [rewrite (streq_neq [] K) by congruence; cbn; now rewrite Hwk|].
      rewrite (streq_neq (y :: q) []) by discriminate. rewrite inside_nil, Hc' by discriminate. destruct (Ascii.eqb_spec (char0 (y :: q)) (head0 n)) as [Ec|Ec].
      - rewrite Hnn by (auto; discriminate). destruct (streq (y :: q) K); [reflexivity|]. rewrite (Hoth (y :: q)) by (auto; discriminate).
        destruct (starts K (y :: q)) eqn:Es; cbn [negb]; [now rewrite Bool.andb_false_r|]. rewrite (Hlate (y :: q)) by (auto; discriminate). now destruct (weakh h && true).
      - rewrite streq_neq by (intros E2; apply Ec; now rewrite E2). destruct (starts K (y :: q)) eqn:Es; [apply starts_spec in Es; apply Hsk in Es; tauto|]. cbn [negb]. rewrite Bool.andb_true_r. reflexivity. }
    unfold hs_append. destruct (htail (hs_remove h (length l1))) as [|j|] eqn:Et.
    + (* the tail is NULL *)
      assert (Hw' : wff (mkH [nn] (TAt 0))).
      { constructor; cbn [hitems htail]; [reflexivity|cbn; constructor; [easy|constructor]|intros m [<-|[]]; apply Hwn|intros m [<-|[]]; apply Hwn]. }
      exists (mkH [nn] (TAt 0)), true. split; [reflexivity|]. split; [exact Hw'|]. apply Hfin; [exact Hw'|reflexivity|]. intros q Hq.
      destruct (Ascii.eqb_spec (char0 q) (head0 n)) as [Ec|Ec]; [apply cells_in; auto; [now left|congruence]|].
      rewrite cells_notin; [|exact Hw'|exact Hq|constructor; [rewrite Hhn; congruence|constructor]].
      destruct (weakh h) eqn:Ew; [reflexivity|]. symmetry. assert (Hnil : l1 ++ l2 = []).
      { rewrite <- Erem. unfold weakh in Ew. destruct (htail h) as [|j|] eqn:Eth; [discriminate| |pose proof (wff_semi _ Hw) as Hsm; unfold semi in Hsm; now rewrite Eth in Hsm].
        now apply (hs_remove_nonnull h (length l1) j (wff_semi _ Hw)). }
      apply cells_notin; auto. rewrite El. apply app_eq_nil in Hnil. destruct Hnil as [-> ->]. cbn. constructor; [congruence|constructor].
    + assert (Ew : weakh h = false).
      { unfold weakh. destruct (htail h) eqn:Eth; auto. rewrite (hs_remove_null h (length l1) (wff_semi _ Hw) Eth) in Et. discriminate. }
      unfold semi in Hsrem. rewrite Et, Erem in Hsrem. cbn [bind]. rewrite Erem, firstn_all2 by lia.
      set (h' := mkH ((l1 ++ l2) ++ [nn]) (TAt (S j))).
      assert (Hpa : patch d0 (hs_remove h (length l1)) h' nn).
      { apply (patch_splice d0 _ h' (l1 ++ l2) nn []); rewrite ?app_nil_r; auto.
        - now apply (wff_remove h l1 n l2).
        - unfold semi, h'. cbn [htail hitems]. rewrite app_length. cbn. lia.
        - apply Forall_forall. intros m Hm Eh. pose proof (wff_nodup _ Hw) as Hn. rewrite El, map_app in Hn. cbn in Hn. apply NoDup_remove_2 in Hn.
          apply Hn. rewrite <- map_app, <- Hhn, <- Eh. now apply in_map. }
      destruct Hpa as (Hw' & Hp). exists h', true. split; [reflexivity|]. split; [exact Hw'|]. apply Hfin; [exact Hw'|reflexivity|]. intros q Hq. rewrite Hp, Hhn, Ew by exact Hq.
      destruct (Ascii.eqb_spec (char0 q) (head0 n)) as [Ec|Ec]; [reflexivity|]. rewrite (patch_remove d0 h l1 n l2) by auto.
      destruct (Ascii.eqb_spec (char0 q) (head0 n)); [contradiction|reflexivity].
    + unfold semi in Hsrem. now rewrite Et in Hsrem.
  - (* below *)
    rewrite E. rewrite skipn_app_exact. assert (Hlr : length (a :: r) <= fuel).
    { rewrite E, app_length in Hlen. destruct (nkey n); [congruence|]. cbn in *. lia. }
    destruct (IH (nsubs n) (a :: r) d (ndata n) Hns Hlr ltac:(discriminate)) as (hs & b & -> & Hws & Hset). cbn [bind fst snd].
    set (nn := Node (nkey n) (ndata n) hs). destruct (patch_update d0 h l1 n nn l2 Hw El eq_refl) as (Hw' & Hp); [now split|].
    exists (hs_update h (length l1) nn), b. split; [reflexivity|]. split; [exact Hw'|].
    apply (sets_lift _ _ (cells (ndata n) (nsubs n)) (cells (ndata n) hs)); [intros; now apply cells_app| | |discriminate|exact Hset].
    + intros u. apply (cells_app d0 _ nn u Hw'). unfold hs_update. cbn [hitems]. rewrite El, list_upd_app. apply in_or_app. right. now left.
    + intros q Hq. destruct q as [|y q]; [reflexivity|]. rewrite Hp by discriminate. change (head0 nn) with (head0 n).
      destruct (Ascii.eqb_spec (char0 (y :: q)) (head0 n)) as [Ec|]; [|reflexivity]. rewrite (Hoth (y :: q)) by (auto; discriminate). now rewrite !ncells_off.
  - (* a fork *)
    assert (Hsk1 : skipn (length p) K = b :: rb) by (rewrite E'; apply skipn_app_exact).
    assert (Hsn : skipn (length p) (nkey n) = a :: ra) by (rewrite E; apply skipn_app_exact).
    assert (Hfn : firstn (length p) (nkey n) = p) by (rewrite E; apply firstn_app_exact).
    rewrite Hsk1, Hsn, Hfn. set (old := Node (a :: ra) (ndata n) (nsubs n)). set (new := Node (b :: rb) d hs_empty).
    destruct (good_append_all (match strcmp (b :: rb) (a :: ra) with Gt => [old; new] | _ => [new; old] end) hs_empty good_empty) as (ch & Ech & Hch & Hg).
    rewrite Ech. cbn [bind]. cbn [hs_empty hitems app] in Hch.
    assert (Hchin : forall m, In m (hitems ch) <-> m = old \/ m = new) by (intros m; rewrite Hch; destruct (strcmp _ _); cbn; intuition congruence).
    assert (Hwch : wff ch).
    { constructor.
      - now apply good_semi.
      - rewrite Hch. destruct (strcmp _ _); cbn; repeat constructor; cbn; intuition congruence.
      - intros m Hm. apply Hchin in Hm. destruct Hm as [->| ->]; discriminate.
      - intros m Hm. apply Hchin in Hm. destruct Hm as [->| ->]; [exact Hns|apply wff_empty]. }
    assert (Hwk : weakh ch = false) by (unfold weakh, good in *; destruct (htail ch); auto; rewrite Hg in Hch; destruct (strcmp _ _); discriminate).
    set (nn := Node p None ch). assert (Hhead : head0 nn = head0 n) by (symmetry; now apply (head0_app n p (a :: ra))).
    destruct (patch_update d0 h l1 n nn l2 Hw El Hhead) as (Hw' & Hp); [now split|].
    exists (hs_update h (length l1) nn), true. split; [reflexivity|]. split; [exact Hw'|]. right.
    assert (HcP : char0 p = head0 n) by (rewrite <- Hhead; reflexivity).
    assert (HT : forall u, ~ prefix (nkey n) (p ++ u) -> cells d0 h (p ++ u) = None).
    { intros u Hu. rewrite Hoth; [now apply ncells_off|destruct p; [congruence|discriminate]|destruct p; [congruence|exact HcP]]. }
    assert (HTK : cells d0 h K = None).
    { rewrite E'. apply HT. rewrite E. intros (z & Ez). rewrite <- app_assoc in Ez. apply app_inv_head in Ez. cbn in Ez. congruence. }
    assert (HTp : cells d0 h p = None).
    { rewrite <- (app_nil_r p). apply HT. rewrite app_nil_r, E. intros Hx. apply prefix_length in Hx. rewrite app_length in Hx. cbn in Hx. lia. }
    split; [exact HTK|]. split; [reflexivity|]. exists p. split.
    { split; [rewrite E'; now eexists|]. split; [right; exists (nkey n); split; [rewrite <- (app_nil_r (nkey n)), cells_app by auto; discriminate|rewrite E; now eexists]|].
      intros q u Hq Huq Huk. destruct u as [|y u]; [now exists p|]. destruct (Nat.le_gt_cases (length (y :: u)) (length p)) as [L|L].
      - apply (prefix_both p (y :: u) K); auto. rewrite E'. now eexists.
      - exfalso. assert (P : prefix (p ++ [b]) (y :: u)). { apply (prefix_both _ (p ++ [b]) K); [exact Huk|rewrite E'; exists rb; now rewrite <- app_assoc|rewrite app_length; cbn in *; lia]. }
        destruct P as (u1 & Eu). destruct Huq as (u2 & ->). rewrite Eu in Hq. rewrite <- !app_assoc in Hq. apply Hq, HT. cbn [app]. rewrite E. intros (z & Ez).
        rewrite <- app_assoc in Ez. apply app_inv_head in Ez. cbn in Ez. congruence. }
    right. right. split; [intros E2; rewrite E' in E2; apply (f_equal (@length _)) in E2; rewrite app_length in E2; cbn in E2; lia|]. split; [exact HTp|].
    intros q. destruct q as [|y q]; [rewrite !streq_neq by congruence; reflexivity|]. rewrite Hp, Hhead by discriminate.
    destruct (Ascii.eqb_spec (char0 (y :: q)) (head0 n)) as [Ec|Ec].
    + destruct (prefix_dec p (y :: q)) as [(u & Eu)|Hn].
      * rewrite Eu. change (ncells nn (p ++ u)) with (ncells nn (nkey nn ++ u)). rewrite ncells_app. cbn [nn ndata nsubs]. rewrite E', streq_app. destruct u as [|z u].
        -- rewrite streq_neq by discriminate. rewrite app_nil_r, streq_refl. cbn. now rewrite Hwk.
        -- rewrite (streq_neq (p ++ z :: u) p) by (intros E2; apply (f_equal (@length _)) in E2; rewrite app_length in E2; cbn in E2; lia).
           destruct (Ascii.eqb_spec z b) as [->|Hzb].
           ++ rewrite (cells_in None ch new); [|exact Hwch|apply Hchin; now right|discriminate|reflexivity]. unfold ncells. cbn [new nkey ndata nsubs].
              destruct (strip (b :: rb) (b :: u)) as [[|x w]|] eqn:Es.
              ** apply strip_some in Es. rewrite app_nil_r in Es. now rewrite Es, streq_refl.
              ** apply strip_some in Es. rewrite streq_neq by (rewrite Es; intros E2; apply (f_equal (@length _)) in E2; rewrite app_length in E2; cbn in E2; lia).
                 rewrite HT; [reflexivity|]. rewrite E. intros (z & Ez). rewrite <- app_assoc in Ez. apply app_inv_head in Ez. cbn in Ez. congruence.
              ** rewrite streq_neq by (intros E2; rewrite E2 in Es; apply strip_none in Es; apply Es, prefix_refl).
                 rewrite HT; [reflexivity|]. rewrite E. intros (z & Ez). rewrite <- app_assoc in Ez. apply app_inv_head in Ez. cbn in Ez. congruence.
           ++ rewrite streq_neq by congruence. destruct (Ascii.eqb_spec z a) as [->|Hza].
              ** rewrite (cells_in None ch old); [|exact Hwch|apply Hchin; now left|discriminate|reflexivity].
                 rewrite Hoth by (rewrite <- Eu; auto; discriminate). unfold ncells. cbn [old nkey ndata nsubs]. now rewrite E, strip_app2.
              ** rewrite cells_notin; [|exact Hwch|discriminate|apply Forall_forall; intros m Hm; apply Hchin in Hm; destruct Hm as [->| ->]; cbn; congruence].
                 rewrite HT; [reflexivity|]. rewrite E. intros (w & Ez). rewrite <- app_assoc in Ez. apply app_inv_head in Ez. cbn in Ez. congruence.
      * rewrite ncells_off by exact Hn. rewrite streq_neq by (intros E2; apply Hn; rewrite E2, E'; now eexists). rewrite streq_neq by (intros E2; apply Hn; rewrite E2; apply prefix_refl).
        rewrite Hoth by (auto; discriminate). symmetry. apply ncells_off. intros (w & Ew). apply Hn. rewrite Ew, E, <- app_assoc. now eexists.
    + rewrite streq_neq by (intros E2; apply Ec; now rewrite E2, HcK). rewrite streq_neq by (intros E2; apply Ec; now rewrite E2). reflexivity.
Qed.
End Tab.
