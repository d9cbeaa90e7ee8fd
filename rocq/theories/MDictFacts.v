(** Radix trees in which every node has data, as maps from paths: what the two
    multi-dictionaries do on set and unset, whatever the data. *)
From Verif Require Import CStr CStrFacts HSListModel HSListFacts RTreeModel RTreeFacts RTreeFacts2 RTreeFacts4.

Section Generic.
Context {D : Type}.
Notation node := (node D).
Implicit Types (n m : node) (h : hsl node) (k q s p r : str).

Inductive gfull : hsl node -> Prop :=
| gfull_intro h : (forall n, In n (hitems h) -> ndata n <> None) -> (forall n, In n (hitems h) -> gfull (nsubs n)) -> gfull h.
Lemma gfull_data h n : gfull h -> In n (hitems h) -> ndata n <> None.
Proof. destruct 1; auto. Qed.
Lemma gfull_sub h n : gfull h -> In n (hitems h) -> gfull (nsubs n).
Proof. destruct 1; auto. Qed.
Definition inv h : Prop := wff h /\ tight h /\ gfull h.
Definition ninv n : Prop := nkey n <> [] /\ ndata n <> None /\ inv (nsubs n).
Lemma inv_empty : inv (hs_empty : hsl node).
Proof. split; [apply wff_empty|]. split; [constructor; [apply good_empty|intros ? []]|constructor; intros ? []]. Qed.
Lemma inv_child h n : inv h -> In n (hitems h) -> ninv n.
Proof.
  intros (Hw & Ht & Hf) Hin. split; [now apply (wff_key _ _ Hw)|]. split; [now apply (gfull_data _ _ Hf)|].
  split; [now apply (wff_sub _ _ Hw)|]. split; [now apply (tight_sub _ _ Ht)|now apply (gfull_sub _ _ Hf)].
Qed.
Lemma ninv_leaf k d : k <> [] -> ninv (Node k (Some d) hs_empty).
Proof. intros H. split; [exact H|]. split; [discriminate|apply inv_empty]. Qed.

Lemma tail_null_ h : good h -> (htail h = TNull <-> hitems h = []).
Proof.
  unfold good. intros Hg. destruct (htail h) as [|i|]; split; auto; try discriminate; try contradiction. intros E. rewrite E in Hg. discriminate.
Qed.
Lemma node_eta n : Node (nkey n) (ndata n) (nsubs n) = n.
Proof. now destruct n. Qed.
Lemma hs_update_same h l1 n l2 : hitems h = l1 ++ n :: l2 -> hs_update h (length l1) n = h.
Proof. intros E. unfold hs_update. rewrite E, list_upd_app, <- E. now destruct h. Qed.

(** The child that starts with a character is replaced, or one is added. *)
Definition swaps h h' (nn : node) : Prop :=
  inv h' /\ forall k, k <> [] -> look h' k = if Ascii.eqb (char0 k) (head0 nn) then nlook nn k else look h k.
Lemma swaps_update h l1 n nn l2 :
  inv h -> hitems h = l1 ++ n :: l2 -> head0 nn = head0 n -> ninv nn -> swaps h (hs_update h (length l1) nn) nn.
Proof.
  intros (Hw & Ht & Hf) El Hh (Hk & Hd & Hws & Hts & Hfs).
  assert (Hw' : wff (hs_update h (length l1) nn)) by (apply (wff_update h l1 n nn l2); auto; now split).
  assert (Hit : hitems (hs_update h (length l1) nn) = l1 ++ nn :: l2) by (unfold hs_update; cbn [hitems]; now rewrite El, list_upd_app).
  assert (Hin : forall m, In m (l1 ++ nn :: l2) -> m = nn \/ In m (hitems h)).
  { intros m Hm. rewrite El. apply in_app_or in Hm. destruct Hm as [Hm|[<-|Hm]]; auto; right; apply in_or_app; [now left|right; now right]. }
  split.
  - split; [exact Hw'|]. split.
    + constructor.
      * pose proof (tight_good _ Ht) as Hg. unfold good, hs_update in *. cbn [htail hitems]. rewrite El in *. rewrite list_upd_app, !app_length in *. cbn in *.
        destruct (htail h); auto. destruct l1; discriminate.
      * intros m. rewrite Hit. intros Hm. apply Hin in Hm. destruct Hm as [->|Hm]; [exact Hts|now apply (tight_sub _ _ Ht)].
    + constructor; intros m; rewrite Hit; intros Hm; apply Hin in Hm; destruct Hm as [->|Hm]; auto; [now apply (gfull_data _ _ Hf)|now apply (gfull_sub _ _ Hf)].
  - intros k Hk'. rewrite (look_update h l1 n nn l2) by auto. now rewrite Hh.
Qed.
Lemma swaps_append h nn :
  inv h -> Forall (fun m => head0 m <> head0 nn) (hitems h) -> ninv nn -> exists h', hs_append h nn = Ok h' /\ swaps h h' nn /\ hitems h' = hitems h ++ [nn].
Proof.
  intros (Hw & Ht & Hf) Hn (Hk & Hd & Hws & Hts & Hfs). destruct (good_append h nn (tight_good _ Ht)) as (h' & E & Hi & Hg).
  exists h'. split; [exact E|]. split; [|exact Hi].
  assert (Hw' : wff h'). { apply (wff_splice h h' (hitems h) nn []); rewrite ?app_nil_r; auto; [now apply good_semi|now split]. }
  split.
  - split; [exact Hw'|]. split.
    + constructor; [exact Hg|]. intros m. rewrite Hi. intros Hm. apply in_app_or in Hm. destruct Hm as [Hm|[<-|[]]]; [now apply (tight_sub _ _ Ht)|exact Hts].
    + constructor; intros m; rewrite Hi; intros Hm; apply in_app_or in Hm; (destruct Hm as [Hm|[<-|[]]]; auto); [now apply (gfull_data _ _ Hf)|now apply (gfull_sub _ _ Hf)].
  - intros k Hk'. apply (look_splice h h' (hitems h) nn []); rewrite ?app_nil_r; auto.
Qed.
Lemma in_remove h i m : In m (hitems (hs_remove h i)) -> In m (hitems h).
Proof.
  unfold hs_remove. destruct (i <? length (hitems h)); [|auto]. cbn [hitems]. unfold list_del. intros Hm. apply in_app_or in Hm.
  destruct Hm as [Hm|Hm]; [rewrite <- (firstn_skipn i (hitems h))|rewrite <- (firstn_skipn (S i) (hitems h))]; apply in_or_app; auto.
Qed.
Lemma inv_remove h l1 n l2 : inv h -> hitems h = l1 ++ n :: l2 -> inv (hs_remove h (length l1)).
Proof.
  intros (Hw & Ht & Hf) El. split; [now apply (wff_remove h l1 n l2)|]. split.
  - constructor; [apply good_remove, (tight_good _ Ht)|]. intros m Hm. apply in_remove in Hm. now apply (tight_sub _ _ Ht).
  - constructor; intros m Hm; apply in_remove in Hm; [now apply (gfull_data _ _ Hf)|now apply (gfull_sub _ _ Hf)].
Qed.
Lemma swaps_replace h l1 n nn l2 :
  inv h -> hitems h = l1 ++ n :: l2 -> head0 nn = head0 n -> ninv nn -> exists h', hs_append (hs_remove h (length l1)) nn = Ok h' /\ swaps h h' nn.
Proof.
  intros Hv El Hh Hn. pose proof (inv_remove h l1 n l2 Hv El) as Hr. pose proof (hs_remove_items h l1 n l2 El) as Er. pose proof Hv as (Hw & _).
  destruct (swaps_append (hs_remove h (length l1)) nn Hr) as (h' & E & (Hi & Hl) & _); auto.
  - rewrite Er. apply Forall_forall. intros m Hm Eh. pose proof (wff_nodup _ Hw) as H. rewrite El, map_app in H. cbn in H. apply NoDup_remove_2 in H.
    apply H. rewrite <- map_app, <- Hh, <- Eh. now apply in_map.
  - exists h'. split; [exact E|]. split; [exact Hi|]. intros k Hk. rewrite Hl by exact Hk. destruct (Ascii.eqb_spec (char0 k) (head0 nn)) as [|Hc]; [reflexivity|].
    rewrite (look_remove h l1 n l2) by auto. rewrite <- Hh. destruct (Ascii.eqb_spec (char0 k) (head0 nn)); [contradiction|reflexivity].
Qed.

(** ** Setting a key *)
Section Set_.
Variables (hit nest : option D -> D) (fresh fork : D).
Fixpoint gset (fuel : nat) h k : res (hsl node) :=
  match k with
  | [] => Ok h
  | c :: k' =>
    match fuel with
    | O => NoFuel
    | S fuel' =>
      match find_child c (hitems h) 0 None with
      | NotFound _ => hs_append h (Node k (Some fresh) hs_empty)
      | Found i n =>
          match scan 1 k' (tl (nkey n)) with
          | E3 => Ok (hs_update h i (Node (nkey n) (Some (hit (ndata n))) (nsubs n)))
          | E2 => hs_append (hs_remove h i) (Node k (Some fresh) (mkH [Node (skipn (length k) (nkey n)) (ndata n) (nsubs n)] (TAt 0)))
          | E1 x => s <- gset fuel' (nsubs n) (skipn x k) ;; Ok (hs_update h i (Node (nkey n) (ndata n) s))
          | E0 x =>
              let old := Node (skipn x (nkey n)) (Some (nest (ndata n))) (nsubs n) in
              let new := Node (skipn x k) (Some fresh) hs_empty in
              ch <- hs_append_all hs_empty (match strcmp (skipn x k) (skipn x (nkey n)) with Gt => [old; new] | _ => [new; old] end) ;;
              Ok (hs_update h i (Node (firstn x (nkey n)) (Some fork) ch))
          end
      end
    end
  end.

Notation pmap := (str -> option D).
Implicit Types (T : pmap).
(** The longest prefix of [k] that is a prefix of a path. *)
Definition stems T k s : Prop :=
  prefix s k /\ (s = [] \/ exists q, T q <> None /\ prefix s q) /\ forall q r, T q <> None -> prefix r q -> prefix r k -> prefix r s.
(** The effect on the map of paths: the key is a path; or it becomes one; or it
    leaves a path [p] at a point [s] that was none, which becomes one. *)
Definition puts T T' k s : Prop :=
  (exists d, T k = Some d /\ forall q, T' q = if streq q k then Some (hit (Some d)) else T q) \/
  (T k = None /\ (s = [] \/ s = k \/ T s <> None) /\ forall q, T' q = if streq q k then Some fresh else T q) \/
  (T k = None /\ s <> [] /\ s <> k /\ T s = None /\ exists p d, T p = Some d /\ prefix s p /\ (forall q, T q <> None -> prefix s q -> prefix p q) /\
     forall q, T' q = if streq q k then Some fresh else if streq q s then Some fork else if streq q p then Some (nest (Some d)) else T q).

Lemma prefix_both s r k : prefix s k -> prefix r k -> length r <= length s -> prefix r s.
Proof.
  revert r k. induction s as [|a s IH]; intros r k (u & ->) (w & E) L.
  - destruct r; [apply prefix_refl|cbn in L; lia].
  - destruct r as [|b r]; [now exists (a :: s)|]. cbn in *. injection E as <- E. destruct (IH r (s ++ u)) as (z & ->); [now exists u|now exists w|lia|]. now exists z.
Qed.
Lemma prefix_cons_head s k c : s <> [] -> prefix s (c :: k) -> char0 s = c.
Proof. intros Hs (r & E). destruct s; [congruence|]. cbn in *. congruence. Qed.
Lemma prefix_nil_inv s : prefix s [] -> s = [].
Proof. intros (r & E). symmetry in E. now apply app_eq_nil in E. Qed.

(** From the child to the whole list. *)
Lemma puts_lift h h' n nn c k s :
  inv h -> In n (hitems h) -> head0 n = c -> head0 nn = c -> swaps h h' nn -> s <> [] ->
  stems (nlook n) (c :: k) s -> puts (nlook n) (nlook nn) (c :: k) s ->
  stems (look h) (c :: k) s /\ puts (look h) (look h') (c :: k) s.
Proof.
  intros (Hw & _) Hin Hh Hhn (_ & Hl) Hs (S1 & S2 & S3) P.
  assert (Hc : char0 s = c) by (eapply prefix_cons_head; eauto).
  assert (L : forall q, q <> [] -> char0 q = c -> look h q = nlook n q) by (intros; apply look_in; auto; congruence).
  assert (Hsh : forall q, prefix s q -> q <> [] /\ char0 q = c).
  { intros q (r & ->). destruct s; [congruence|]. split; [discriminate|exact Hc]. }
  assert (Hlk : forall q, prefix s q -> look h q = nlook n q) by (intros q Hq; destruct (Hsh q Hq); auto).
  assert (Hne : forall q, nlook n q <> None -> q <> [] /\ char0 q = c).
  { intros q Hq. unfold nlook in Hq. destruct (strip (nkey n) q) as [r|] eqn:E; [|congruence]. apply strip_some in E. subst q.
    pose proof (wff_key _ _ Hw Hin) as Hk. unfold head0 in Hh. destruct (nkey n); [congruence|]. split; [discriminate|exact Hh]. }
  assert (Eq : forall q, q <> [] -> look h' q = if Ascii.eqb (char0 q) c then nlook nn q else look h q) by (intros q Hq; rewrite Hl, Hhn by exact Hq; reflexivity).
  assert (Enil : forall q, char0 q <> c -> streq q (c :: k) = false) by (intros q Hq; apply streq_neq; intros ->; now apply Hq).
  split.
  - split; [exact S1|]. split.
    + right. destruct S2 as [S2|(q & Hq & Hp)]; [congruence|]. exists q. split; [|exact Hp]. now rewrite Hlk.
    + intros q r Hq Hrq Hrk. destruct r as [|a r]; [now exists s|]. apply (S3 q); auto. rewrite <- L; auto.
      * intros ->. destruct Hrq as (w & E). discriminate.
      * rewrite (prefix_char0 (a :: r) q ltac:(discriminate) Hrq). eapply prefix_cons_head; [|exact Hrk]. discriminate.
  - destruct P as [(d & E & P)|[(E & B & P)|(E & B1 & B2 & B3 & p & d & Ep & Hp & Hm & P)]].
    + left. exists d. rewrite L by (auto; discriminate). split; [exact E|]. intros q. destruct q as [|a q]; [reflexivity|]. rewrite Eq by discriminate.
      destruct (Ascii.eqb_spec (char0 (a :: q)) c) as [Ec|Ec]; [rewrite P, L by (auto; discriminate); reflexivity|now rewrite Enil].
    + right. left. rewrite L by (auto; discriminate). split; [exact E|]. split.
      * destruct B as [B|[B|B]]; auto. right. right. rewrite Hlk; [exact B|apply prefix_refl].
      * intros q. destruct q as [|a q]; [reflexivity|]. rewrite Eq by discriminate.
        destruct (Ascii.eqb_spec (char0 (a :: q)) c) as [Ec|Ec]; [rewrite P, L by (auto; discriminate); reflexivity|now rewrite Enil].
    + right. right. rewrite L by (auto; discriminate). split; [exact E|]. split; [exact B1|]. split; [exact B2|]. rewrite Hlk by apply prefix_refl. split; [exact B3|].
      exists p, d. rewrite Hlk by exact Hp. split; [exact Ep|]. split; [exact Hp|]. split.
      * intros q Hq Hsq. apply Hm; [|exact Hsq]. now rewrite <- Hlk.
      * intros q. destruct q as [|a q].
        { cbn [streq]. rewrite (streq_neq [] s) by congruence. destruct (Hsh p Hp) as [Hp0 _]. rewrite (streq_neq [] p) by congruence. reflexivity. }
        rewrite Eq by discriminate. destruct (Ascii.eqb_spec (char0 (a :: q)) c) as [Ec|Ec]; [rewrite P, L by (auto; discriminate); reflexivity|].
        rewrite Enil by exact Ec. rewrite (streq_neq _ s) by (intros E'; rewrite E' in Ec; congruence). destruct (Hsh p Hp) as [_ Hpc].
        rewrite (streq_neq _ p) by (intros E'; rewrite E' in Ec; congruence). reflexivity.
Qed.
(** From the subnodes to the node. *)
Lemma nlook_app_nn n d (sub : hsl node) r : nlook (Node (nkey n) d sub) (nkey n ++ r) = match r with [] => d | _ => look sub r end.
Proof. exact (nlook_app (Node (nkey n) d sub) r). Qed.
Lemma puts_below n (s' : hsl node) a r t :
  ninv n -> stems (look (nsubs n)) (a :: r) t -> puts (look (nsubs n)) (look s') (a :: r) t ->
  stems (nlook n) (nkey n ++ a :: r) (nkey n ++ t) /\ puts (nlook n) (nlook (Node (nkey n) (ndata n) s')) (nkey n ++ a :: r) (nkey n ++ t).
Proof.
  intros (Hk & Hd & (Hw & _)) (S1 & S2 & S3) P. set (u := nkey n) in *.
  assert (N : forall r, nlook n (u ++ r) = match r with [] => ndata n | _ => look (nsubs n) r end) by (intros r0; apply nlook_app).
  assert (N' : forall r, nlook (Node u (ndata n) s') (u ++ r) = match r with [] => ndata n | _ => look s' r end) by (intros r0; apply nlook_app_nn).
  assert (In_ : forall q, nlook n q <> None -> exists r, q = u ++ r) by (intros q Hq; unfold nlook in Hq; destruct (strip (nkey n) q) eqn:E; [apply strip_some in E; eauto|congruence]).
  assert (Off : forall q, (forall r, q <> u ++ r) -> nlook n q = None /\ nlook (Node u (ndata n) s') q = None).
  { intros q Hq. split; apply nlook_off; intros (w & E); now apply (Hq w). }
  assert (Dec : forall q, (exists r, q = u ++ r) \/ (forall r, q <> u ++ r)).
  { intros q. destruct (strip u q) as [w|] eqn:E; [left; apply strip_some in E; eauto|right; intros w ->; rewrite strip_app in E; discriminate]. }
  assert (S' : forall q x, streq (u ++ q) (u ++ x) = streq q x).
  { intros q x. destruct (streq_spec q x) as [->|Hn]; [apply streq_refl|]. apply streq_neq. intros E. now apply app_inv_head in E. }
  assert (Sf : forall q x, (forall r, q <> u ++ r) -> streq q (u ++ x) = false) by (intros q x Hq; apply streq_neq; apply Hq).
  split.
  - split; [now apply prefix_app|]. split.
    + right. destruct S2 as [->|(q & Hq & Hp)].
      * exists u. rewrite app_nil_r. split; [|apply prefix_refl]. rewrite <- (app_nil_r u) at 1. now rewrite N.
      * exists (u ++ q). split; [|now apply prefix_app]. rewrite N. destruct q; [now rewrite look_nil in Hq|exact Hq].
    + intros q x Hq Hxq Hxk. destruct (In_ q Hq) as (w & ->). destruct (Nat.le_gt_cases (length x) (length u)) as [Hl|Hl].
      * apply (prefix_trans _ u); [|now exists t]. apply (prefix_both u x (u ++ w)); auto. now exists w.
      * assert (Hu : prefix u x) by (apply (prefix_both x u (u ++ w)); [exact Hxq|now exists w|lia]). destruct Hu as (y & ->). apply prefix_app.
        assert (Hy : y <> []) by (intros ->; rewrite app_nil_r in Hl; lia). assert (Hyw : prefix y w) by (destruct Hxq as (z & E); rewrite <- app_assoc in E; apply app_inv_head in E; now exists z).
        apply (S3 w); [|exact Hyw|destruct Hxk as (z & E); rewrite <- app_assoc in E; apply app_inv_head in E; now exists z].
        rewrite N in Hq. destruct w; [|exact Hq]. apply prefix_nil_inv in Hyw. contradiction.
  - assert (Lk : nlook n (u ++ a :: r) = look (nsubs n) (a :: r)) by apply N.
    destruct P as [(d & E & P)|[(E & B & P)|(E & B1 & B2 & B3 & p & d & Ep & Hp & Hm & P)]].
    + left. exists d. rewrite Lk. split; [exact E|]. intros q. destruct (Dec q) as [(w & ->)|Hq]; [|destruct (Off q Hq) as [-> ->]; now rewrite Sf].
      rewrite S', N, N'. destruct w; [reflexivity|]. apply P.
    + right. left. rewrite Lk. split; [exact E|]. split.
      * destruct B as [->|[->|B]]; [right; right|right; left; reflexivity|right; right].
        -- now rewrite N.
        -- rewrite N. destruct t; [exact Hd|exact B].
      * intros q. destruct (Dec q) as [(w & ->)|Hq]; [|destruct (Off q Hq) as [-> ->]; now rewrite Sf]. rewrite S', N, N'. destruct w; [reflexivity|]. apply P.
    + right. right. rewrite Lk. split; [exact E|]. destruct t as [|b t]; [congruence|]. split; [intros E'; apply app_eq_nil in E'; destruct E'; discriminate|].
      split; [intros E'; apply app_inv_head in E'; congruence|]. rewrite N. split; [exact B3|]. assert (Hp0 : p <> []) by (intros ->; now apply prefix_nil_inv in Hp).
      exists (u ++ p), d. rewrite N. split; [destruct p; [congruence|exact Ep]|]. split; [now apply prefix_app|]. split.
      * intros q Hq Hs. destruct (In_ q Hq) as (w & ->). apply prefix_app. destruct Hs as (z & Ez). rewrite <- app_assoc in Ez. apply app_inv_head in Ez. apply Hm; [|now exists z].
        rewrite N in Hq. destruct w; [discriminate|exact Hq].
      * intros q. destruct (Dec q) as [(w & ->)|Hq]; [|destruct (Off q Hq) as [-> ->]; now rewrite !Sf]. rewrite !S', N, N'. destruct w; [|apply P].
        cbn [streq]. destruct p; [congruence|reflexivity].
Qed.

Lemma gset_spec fuel : forall h k, inv h -> length k <= fuel -> k <> [] ->
  exists h' s, gset fuel h k = Ok h' /\ inv h' /\ stems (look h) k s /\ puts (look h) (look h') k s.
Proof.
  induction fuel as [|fuel IH]; intros h k Hv Hlen Hkne; [destruct k; [congruence|cbn in Hlen; lia]|].
  destruct k as [|c k]; [congruence|]. cbn [gset]. pose proof Hv as (Hw & Ht & Hfu).
  pose proof (find_child_spec c (hitems h) 0 None) as Hf. destruct (find_child c (hitems h) 0 None) as [i n|lz].
  2:{ destruct Hf as [Hf _]. destruct (swaps_append h (Node (c :: k) (Some fresh) hs_empty) Hv Hf) as (h' & E & (Hi & Hl) & _); [apply ninv_leaf; discriminate|].
    assert (Hno : forall q, char0 q = c -> look h q = None) by (intros q Hq; apply look_notin; [exact Hw|now rewrite Hq]).
    exists h', []. split; [exact E|]. split; [exact Hi|]. split.
    - split; [now exists (c :: k)|]. split; [now left|]. intros q r Hq Hrq Hrk. destruct r as [|a r]; [apply prefix_refl|]. exfalso. apply Hq, Hno.
      rewrite (prefix_char0 (a :: r) q ltac:(discriminate) Hrq). eapply prefix_cons_head; [|exact Hrk]. discriminate.
    - right. left. split; [now apply Hno|]. split; [now left|]. intros q. destruct q as [|a q]; [reflexivity|]. rewrite Hl by discriminate. cbn [head0 nkey char0].
      rewrite nlook_leaf. destruct (Ascii.eqb_spec a c) as [->|Hn].
      + destruct (streq_spec (c :: q) (c :: k)); [reflexivity|]. now rewrite Hno.
      + rewrite streq_neq by congruence. reflexivity. }
  destruct Hf as (l1 & l2 & El & Hi & Hh & Hf). cbn in Hi. subst i. assert (Hin : In n (hitems h)) by (rewrite El; apply in_or_app; right; now left).
  pose proof (inv_child _ _ Hv Hin) as Hn. pose proof Hn as (Hnk & Hnd & Hni).
  assert (Own : forall q, nlook n q <> None -> exists r, q = nkey n ++ r) by (intros q Hq; unfold nlook in Hq; destruct (strip (nkey n) q) eqn:E; [apply strip_some in E; eauto|congruence]).
  assert (Hself : nlook n (nkey n) <> None) by now rewrite nlook_self.
  pose proof (scan_keycmp c k (nkey n) Hnk Hh) as Hk.
  inversion Hk as [E He|a r E He|a r E He|p a ra b rb Hp0 E E' Hab He]; clear Hk He; cbv beta iota zeta.
  - (* the key is there *)
    set (nn := Node (nkey n) (Some (hit (ndata n))) (nsubs n)).
    assert (Hs : swaps h (hs_update h (length l1) nn) nn) by (apply (swaps_update h l1 n nn l2); auto; split; [exact Hnk|split; [discriminate|exact Hni]]).
    exists (hs_update h (length l1) nn), (c :: k). split; [reflexivity|]. split; [apply Hs|].
    apply (puts_lift h _ n nn); [exact Hv|exact Hin|exact Hh|exact Hh|exact Hs|discriminate| |].
    + split; [apply prefix_refl|]. split; [|auto]. right. exists (nkey n). rewrite E. split; [exact Hself|apply prefix_refl].
    + left. destruct (ndata n) as [d|] eqn:Ed; [|congruence]. exists d. rewrite E. split; [now rewrite nlook_self|]. intros q. unfold nn, nlook. cbn [nkey ndata nsubs].
      destruct (streq_spec q (nkey n)) as [->|Hq]; [rewrite <- (app_nil_r (nkey n)) at 2; now rewrite strip_app|].
      destruct (strip (nkey n) q) as [[|x w]|] eqn:Es; [|reflexivity|reflexivity]. apply strip_some in Es. rewrite app_nil_r in Es. congruence.
  - (* the key ends inside the node *)
    assert (Esk : skipn (length (c :: k)) (nkey n) = a :: r) by (rewrite E; apply skipn_app_exact). rewrite Esk.
    set (old := Node (a :: r) (ndata n) (nsubs n)). set (nn := Node (c :: k) (Some fresh) (mkH [old] (TAt 0))).
    assert (Hold : swaps (hs_empty : hsl node) (mkH [old] (TAt 0)) old).
    { destruct (swaps_append hs_empty old inv_empty) as (h1 & E1 & S1 & _); [constructor|split; [discriminate|split; auto]|]. cbv in E1. injection E1 as <-. exact S1. }
    destruct (swaps_replace h l1 n nn l2 Hv El) as (h' & Ea & Hs); [change (c = head0 n); congruence|split; [discriminate|split; [discriminate|apply Hold]]|].
    exists h', (c :: k). split; [exact Ea|]. split; [apply Hs|]. apply (puts_lift h h' n nn); [exact Hv|exact Hin|exact Hh|reflexivity|exact Hs|discriminate| |].
    + split; [apply prefix_refl|]. split; [|auto]. right. exists (nkey n). split; [exact Hself|]. rewrite E. now exists (a :: r).
    + right. left. split.
      * apply nlook_off. rewrite E. intros (w & Ew). apply (f_equal (@length _)) in Ew. rewrite !app_length in Ew. cbn in Ew. lia.
      * split; [now right; left|]. intros q. destruct (strip (c :: k) q) as [w|] eqn:Es.
        -- apply strip_some in Es. subst q. change (nlook nn ((c :: k) ++ w)) with (nlook nn (nkey nn ++ w)). rewrite nlook_app. destruct w as [|x w].
           ++ now rewrite app_nil_r, streq_refl.
           ++ rewrite streq_neq by (intros E0; apply (f_equal (@length _)) in E0; rewrite app_length in E0; cbn in E0; lia).
              cbn [nn nsubs]. destruct Hold as (_ & Hl). rewrite Hl by discriminate. unfold nlook at 1 2. rewrite E, strip_app2. change (head0 old) with a. change (char0 (x :: w)) with x. change (nkey old) with (a :: r). change (ndata old) with (ndata n). change (nsubs old) with (nsubs n).
              destruct (Ascii.eqb_spec x a) as [->|Hx]; [reflexivity|]. rewrite look_empty. destruct (strip (a :: r) (x :: w)) eqn:E2; [|reflexivity]. apply strip_some in E2. cbn in E2. congruence.
        -- assert (Hn1 : nlook nn q = None) by (apply nlook_off; intros Hp; apply strip_none in Es; now apply Es).
           rewrite Hn1, (streq_neq q) by (intros ->; apply strip_none in Es; apply Es, prefix_refl). symmetry. apply nlook_off. rewrite E. intros Hp. apply strip_none in Es. apply Es.
           eapply prefix_trans; [|exact Hp]. now exists (a :: r).
  - (* deeper *)
    assert (Hlen2 : length (a :: r) <= fuel) by (apply (f_equal (@length _)) in E; rewrite app_length in E; destruct (nkey n); [congruence|]; cbn in *; lia).
    assert (Hsk : skipn (length (nkey n)) (c :: k) = a :: r) by (rewrite E; apply skipn_app_exact). rewrite Hsk.
    destruct (IH (nsubs n) (a :: r) Hni Hlen2 ltac:(discriminate)) as (s' & t & Es & Hi' & St & Pt). rewrite Es. cbn [bind].
    set (nn := Node (nkey n) (ndata n) s').
    assert (Hs : swaps h (hs_update h (length l1) nn) nn) by (apply (swaps_update h l1 n nn l2); auto; split; auto).
    exists (hs_update h (length l1) nn), (nkey n ++ t). split; [reflexivity|]. split; [apply Hs|].
    destruct (puts_below n s' a r t Hn St Pt) as [S2 P2]. rewrite <- E in S2, P2. apply (puts_lift h _ n nn); [exact Hv|exact Hin|exact Hh|exact Hh|exact Hs| |exact S2|exact P2].
    intros E0. apply app_eq_nil in E0. destruct E0. contradiction.
  - (* the keys part *)
    assert (Ek1 : firstn (length p) (nkey n) = p) by (rewrite E; apply firstn_app_exact).
    assert (Ek2 : skipn (length p) (nkey n) = a :: ra) by (rewrite E; apply skipn_app_exact).
    assert (Ek3 : skipn (length p) (c :: k) = b :: rb) by (rewrite E'; apply skipn_app_exact). rewrite Ek1, Ek2, Ek3.
    set (old := Node (a :: ra) (Some (nest (ndata n))) (nsubs n)). set (new := Node (b :: rb) (Some fresh) hs_empty : node).
    assert (Hch : exists ch, hs_append_all hs_empty (match strcmp (b :: rb) (a :: ra) with Gt => [old; new] | _ => [new; old] end) = Ok ch /\ inv ch /\
       forall x w, look ch (x :: w) = if Ascii.eqb x a then nlook old (x :: w) else if Ascii.eqb x b then nlook new (x :: w) else None).
    { assert (Io : ninv old) by (split; [discriminate|split; [discriminate|exact Hni]]). assert (Iw : ninv new) by (apply ninv_leaf; discriminate).
      assert (G : forall n1 n2 : node, ninv n1 -> ninv n2 -> head0 n1 <> head0 n2 -> exists ch, hs_append_all hs_empty [n1; n2] = Ok ch /\ inv ch /\
         forall x w, look ch (x :: w) = if Ascii.eqb x (head0 n2) then nlook n2 (x :: w) else if Ascii.eqb x (head0 n1) then nlook n1 (x :: w) else None).
      { intros n1 n2 I1 I2 Hd. destruct (swaps_append hs_empty n1 inv_empty ltac:(constructor) I1) as (h1 & E1 & (J1 & L1) & T1).
        destruct (swaps_append h1 n2 J1) as (h2 & E2 & (J2 & L2) & _); [rewrite T1; repeat constructor; exact Hd|exact I2|].
        exists h2. cbn [hs_append_all]. rewrite E1. cbn [bind]. rewrite E2. split; [reflexivity|]. split; [exact J2|]. intros x w. rewrite L2, L1 by discriminate. now rewrite look_empty. }
      destruct (strcmp (b :: rb) (a :: ra)).
      1-2: destruct (G new old Iw Io) as (ch & Ec & Ic & Lc); [change (b <> a); congruence|]; exists ch; split; [exact Ec|]; split; [exact Ic|]; exact Lc.
      destruct (G old new Io Iw) as (ch & Ec & Ic & Lc); [exact Hab|]. exists ch. split; [exact Ec|]. split; [exact Ic|]. intros x w. rewrite Lc. change (head0 new) with b. change (head0 old) with a.
      destruct (Ascii.eqb_spec x b) as [->|Hb]; [|reflexivity]. destruct (Ascii.eqb_spec b a); [congruence|reflexivity]. }
    destruct Hch as (ch & Ec & Ic & Lc). rewrite Ec. cbn [bind]. set (nn := Node p (Some fork) ch).
    assert (Hpc : char0 p = c) by (destruct p; [congruence|]; cbn in *; congruence).
    assert (Hs : swaps h (hs_update h (length l1) nn) nn).
    { apply (swaps_update h l1 n nn l2); auto; [change (char0 p = head0 n); congruence|]. split; [exact Hp0|]. split; [discriminate|exact Ic]. }
    exists (hs_update h (length l1) nn), p. split; [reflexivity|]. split; [apply Hs|]. apply (puts_lift h _ n nn); [exact Hv|exact Hin|exact Hh|exact Hpc|exact Hs|exact Hp0| |].
    + rewrite E'. split; [now exists (b :: rb)|]. split; [right; exists (nkey n); split; [exact Hself|rewrite E; now exists (a :: ra)]|].
      intros q x Hq Hxq Hxk. destruct (Own q Hq) as (w & ->). rewrite E in Hxq. destruct (Nat.le_gt_cases (length x) (length p)) as [Hl|Hl].
      { apply (prefix_both p x (p ++ b :: rb)); auto. now exists (b :: rb). }
      exfalso. assert (Hpx : prefix p x) by (apply (prefix_both x p (p ++ b :: rb)); [exact Hxk|now exists (b :: rb)|lia]). destruct Hpx as ([|y z] & ->); [rewrite app_nil_r in Hl; lia|].
      destruct Hxk as (w1 & E1). destruct Hxq as (w2 & E2). rewrite <- (app_assoc p) in E1. rewrite <- (app_assoc p (a :: ra)), <- (app_assoc p (y :: z)) in E2.
      apply app_inv_head in E1. apply app_inv_head in E2. cbn in E1, E2. congruence.
    + right. right. rewrite E'. assert (Hnone : forall w, (forall x, w <> a :: ra ++ x) -> nlook n (p ++ w) = None).
      { intros w Hwn. apply nlook_off. rewrite E. intros (x & Ex). rewrite <- app_assoc in Ex. apply app_inv_head in Ex. now apply (Hwn x). }
      split; [apply Hnone; intros x Ex; congruence|]. split; [exact Hp0|]. split; [intros E0; apply (f_equal (@length _)) in E0; rewrite app_length in E0; cbn in E0; lia|].
      split; [rewrite <- (app_nil_r p); apply Hnone; discriminate|]. destruct (ndata n) as [d|] eqn:Ed; [|congruence].
      exists (nkey n), d. split; [now rewrite nlook_self|]. split; [rewrite E; now exists (a :: ra)|]. split; [intros q Hq _; destruct (Own q Hq) as (w & ->); now exists w|].
      intros q. destruct (strip p q) as [w|] eqn:Es.
      * apply strip_some in Es. subst q. change (nlook nn (p ++ w)) with (nlook nn (nkey nn ++ w)). rewrite nlook_app. rewrite E.
        assert (S' : forall x, streq (p ++ w) (p ++ x) = streq w x).
        { intros x. destruct (streq_spec w x) as [->|Hx]; [apply streq_refl|]. apply streq_neq. intros E0. now apply app_inv_head in E0. }
        assert (S0 : streq (p ++ w) p = streq w []) by (rewrite <- (S' []); now rewrite app_nil_r).
        rewrite !S', S0. destruct w as [|x w]; [reflexivity|]. cbn [nn nsubs]. rewrite Lc.
        rewrite (streq_neq (x :: w) []) by discriminate. unfold nlook at 1. change (nkey old) with (a :: ra). change (ndata old) with (Some (nest (Some d))). change (nsubs old) with (nsubs n).
        unfold new. rewrite nlook_leaf. unfold nlook. rewrite E, strip_app2. rewrite Ed. destruct (Ascii.eqb_spec x a) as [->|Hx].
        -- rewrite (streq_neq (a :: w) (b :: rb)) by congruence. destruct (streq_spec (a :: w) (a :: ra)) as [E0|Hne].
           ++ rewrite E0. rewrite <- (app_nil_r (a :: ra)) at 2. rewrite strip_app. reflexivity.
           ++ destruct (strip (a :: ra) (a :: w)) as [[|y z]|] eqn:E2; [apply strip_some in E2; rewrite app_nil_r in E2; congruence|reflexivity|reflexivity].
        -- destruct (Ascii.eqb_spec x b) as [->|Hb].
           ++ destruct (streq (b :: w) (b :: rb)); [reflexivity|]. rewrite (streq_neq (b :: w) (a :: ra)) by congruence.
              destruct (strip (a :: ra) (b :: w)) eqn:E2; [|reflexivity]. apply strip_some in E2. cbn in E2. congruence.
           ++ rewrite (streq_neq (x :: w) (b :: rb)), (streq_neq (x :: w) (a :: ra)) by congruence. destruct (strip (a :: ra) (x :: w)) eqn:E2; [|reflexivity]. apply strip_some in E2. cbn in E2. congruence.
      * assert (Ho : ~ prefix p q) by now apply strip_none. rewrite (nlook_off nn q Ho). rewrite (streq_neq q (p ++ b :: rb)) by (intros ->; apply Ho; now exists (b :: rb)).
        rewrite (streq_neq q p) by (intros ->; apply Ho, prefix_refl). rewrite (streq_neq q (nkey n)) by (rewrite E; intros ->; apply Ho; now exists (a :: ra)).
        symmetry. apply nlook_off. rewrite E. intros Hp. apply Ho. eapply prefix_trans; [|exact Hp]. now exists (a :: ra).
Qed.
End Set_.

(** ** Removing a key *)
Section Unset_.
Context {E : Type}.
Variables (disp : option D -> res E) (none : E) (clear : option D -> D).
Fixpoint gunset (fuel : nat) (isroot : bool) h k : res (hsl node * E) :=
  match k with
  | [] => Ok (h, none)
  | c :: k' =>
    match fuel with
    | O => NoFuel
    | S fuel' =>
      match find_child c (hitems h) 0 None with
      | NotFound _ => Ok (h, none)
      | Found i n =>
          match scan 1 k' (tl (nkey n)) with
          | E3 =>
              ev <- disp (ndata n) ;;
              let s' := match htail (nsubs n) with
                        | TNull => hs_remove h i
                        | _ => hs_update h i (Node (nkey n) (Some (clear (ndata n))) (nsubs n))
                        end in
              if isroot then Ok (s', ev)
              else match htail s' with TNull => UB | _ => Ok (s', ev) end
          | E1 x =>
              r <- gunset fuel' false (nsubs n) (skipn x k) ;;
              Ok (hs_update h i (Node (nkey n) (ndata n) (fst r)), snd r)
          | _ => Ok (h, none)
          end
      end
    end
  end.

Definition extended (T : str -> option D) k : Prop := exists q, T q <> None /\ proper_prefix k q.
(** [k] is the only path properly extending some other one. *)
Definition lonely (T : str -> option D) k : Prop :=
  exists p, T p <> None /\ proper_prefix p k /\ forall q, T q <> None -> proper_prefix p q -> q = k.
Definition lonely_at (isroot : bool) (T : str -> option D) k : Prop :=
  lonely T k \/ isroot = false /\ forall q, T q <> None -> q = k.
Definition removes (T T' : str -> option D) k d : Prop :=
  exists b : bool, (b = true <-> extended T k) /\ forall q, T' q = if streq q k then if b then Some (clear (Some d)) else None else T q.
Definition gunset_post (isroot : bool) h k (o : res (hsl node * E)) : Prop :=
  match look h k with
  | None => o = Ok (h, none)
  | Some d =>
      match disp (Some d) with
      | Ok ev =>
          lonely_at isroot (look h) k /\ o = UB \/
          ~ lonely_at isroot (look h) k /\ exists h', o = Ok (h', ev) /\ inv h' /\ removes (look h) (look h') k d
      | UB => o = UB
      | NoFuel => o = NoFuel
      end
  end.

Lemma look_child h n : inv h -> In n (hitems h) -> look h (nkey n) <> None.
Proof.
  intros Hv Hin. pose proof (inv_child _ _ Hv Hin) as (Hk & Hd & _). destruct Hv as (Hw & _). rewrite (look_in h n) by auto. now rewrite nlook_self.
Qed.
Lemma look_prefix h n q : inv h -> In n (hitems h) -> prefix (nkey n) q -> look h q = nlook n q.
Proof.
  intros Hv Hin (r & ->). pose proof (inv_child _ _ Hv Hin) as (Hk & _). destruct Hv as (Hw & _). destruct (nkey n) as [|a w] eqn:Ek; [congruence|].
  apply look_in; auto; [discriminate|]. unfold head0. now rewrite Ek.
Qed.
Lemma nlook_prefix n q : nlook n q <> None -> prefix (nkey n) q.
Proof. intros Hq. unfold nlook in Hq. destruct (strip (nkey n) q) eqn:E0; [apply strip_some in E0; eexists; eauto|congruence]. Qed.
Lemma extended_child h n : inv h -> In n (hitems h) -> (extended (look h) (nkey n) <-> hitems (nsubs n) <> []).
Proof.
  intros Hv Hin. pose proof (inv_child _ _ Hv Hin) as (Hk & _ & Hi). split.
  - intros (q & Hq & (a & w & ->)) En. apply Hq. rewrite (look_prefix h n) by (auto; now exists (a :: w)). rewrite nlook_app. apply look_notin; [apply Hi|]. rewrite En. constructor.
  - intros Hne. destruct (hitems (nsubs n)) as [|m l] eqn:Em; [congruence|]. assert (Hm : In m (hitems (nsubs n))) by (rewrite Em; now left).
    pose proof (inv_child _ _ Hi Hm) as (Hmk & _). exists (nkey n ++ nkey m). rewrite (look_prefix h n) by (auto; now exists (nkey m)). rewrite nlook_app.
    pose proof (look_child _ _ Hi Hm) as Hl. destruct (nkey m) as [|a w]; [congruence|]. split; [exact Hl|now exists a, w].
Qed.
Lemma lonely_child h n : inv h -> In n (hitems h) -> ~ lonely (look h) (nkey n).
Proof.
  intros Hv Hin (p & Hp & Hpp & _). pose proof (inv_child _ _ Hv Hin) as (Hk & _). assert (Hp0 : p <> []) by (intros ->; now rewrite look_nil in Hp).
  destruct Hv as (Hw & _). rewrite (look_in h n) in Hp; auto.
  - apply nlook_prefix, prefix_length in Hp. apply proper_prefix_length in Hpp. lia.
  - apply proper_prefix_prefix in Hpp. symmetry. apply (prefix_char0 _ _ Hp0 Hpp).
Qed.

Lemma gunset_spec fuel : forall h k isroot, inv h -> length k <= fuel -> k <> [] -> gunset_post isroot h k (gunset fuel isroot h k).
Proof.
  induction fuel as [|fuel IH]; intros h k isroot Hv Hlen Hkne; [destruct k; [congruence|cbn in Hlen; lia]|].
  destruct k as [|c k]; [congruence|]. cbn [gunset]. pose proof Hv as (Hw & Ht & Hfu). unfold gunset_post.
  pose proof (find_child_spec c (hitems h) 0 None) as Hf. destruct (find_child c (hitems h) 0 None) as [i n|lz].
  2:{ destruct Hf as [Hf _]. now rewrite look_notin. }
  destruct Hf as (l1 & l2 & El & Hi & Hh & Hf). cbn in Hi. subst i. assert (Hin : In n (hitems h)) by (rewrite El; apply in_or_app; right; now left).
  pose proof (inv_child _ _ Hv Hin) as Hn. pose proof Hn as (Hnk & Hnd & Hni).
  assert (Hlk : look h (c :: k) = nlook n (c :: k)) by (apply look_in; auto; discriminate).
  pose proof (scan_keycmp c k (nkey n) Hnk Hh) as Hk.
  inversion Hk as [E0 He|a r E0 He|a r E0 He|p a ra b rb Hp0 E0 E0' Hab He]; clear Hk He; cbv beta iota zeta.
  - rewrite E0 in *. rewrite nlook_self in Hlk. rewrite Hlk. destruct (ndata n) as [d|] eqn:Ed; [|congruence]. destruct (disp (Some d)) as [ev| |]; cbn [bind]; [|reflexivity|reflexivity].
    pose proof (tail_null_ (nsubs n)) as Htn. specialize (Htn (tight_good _ (proj1 (proj2 Hni)))).
    pose proof (extended_child h n Hv Hin) as Hex. pose proof (lonely_child h n Hv Hin) as Hlo.
    set (s' := match htail (nsubs n) with TNull => hs_remove h (length l1) | _ => hs_update h (length l1) (Node (nkey n) (Some (clear (Some d))) (nsubs n)) end).
    assert (Hs' : inv s' /\ removes (look h) (look s') (nkey n) d /\ (hitems s' = [] <-> forall q, look h q <> None -> q = nkey n)).
    { assert (Hit : (l1 = [] /\ l2 = [] /\ hitems (nsubs n) = []) <-> (forall q, look h q <> None -> q = nkey n)).
      { split.
        - intros (E1 & E2 & En) q Hq. rewrite E1, E2 in El. destruct (look h q) as [v|] eqn:Eq; [|congruence]. apply look_at_path in Eq; [|exact Hw]. destruct Eq as (m & Hm & _).
          apply at_path_inv in Hm. destruct Hm as (x & Hx & Hm). rewrite El in Hx. destruct Hx as [<-|[]]. destruct Hm as [[-> _]|(q' & _ & Hq')]; [reflexivity|].
          rewrite En in Hq'. apply at_path_inv in Hq'. destruct Hq' as (? & [] & _).
        - intros Hall. pose proof (wff_nodup _ Hw) as Hno. rewrite El, map_app in Hno. cbn [map] in Hno. apply NoDup_remove_2 in Hno.
          assert (Hoth : forall m, In m (l1 ++ l2) -> False).
          { intros m Hm. apply Hno. rewrite <- map_app. apply in_map_iff. exists m. split; [|exact Hm]. unfold head0. f_equal. apply Hall, look_child; [exact Hv|].
            rewrite El. apply in_app_or in Hm. apply in_or_app. destruct Hm; [now left|right; now right]. }
          assert (E1 : l1 ++ l2 = []) by (destruct (l1 ++ l2) as [|m l]; [reflexivity|exfalso; apply (Hoth m); now left]). apply app_eq_nil in E1. destruct E1. split; [assumption|]. split; [assumption|].
          destruct (hitems (nsubs n)) as [|m l'] eqn:Em; [reflexivity|]. destruct (proj2 Hex) as (q & Hq & Hpp); [congruence|].
          apply Hall in Hq. subst q. apply proper_prefix_length in Hpp. lia. }
      unfold s'. destruct (htail (nsubs n)) as [|j|] eqn:Etl.
      - assert (En : hitems (nsubs n) = []) by now apply Htn.
        split; [now apply (inv_remove h l1 n l2)|]. split.
        + exists false. split; [rewrite Hex, En; split; [discriminate|congruence]|]. intros q. destruct q as [|x q]; [rewrite (streq_neq [] (nkey n)) by congruence; reflexivity|].
          rewrite (look_remove h l1 n l2) by (auto; discriminate). change (char0 (x :: q)) with x. destruct (Ascii.eqb_spec x (head0 n)) as [->|Hx].
          * destruct (streq_spec (head0 n :: q) (nkey n)); [reflexivity|]. rewrite (look_in h n) by (auto; discriminate). symmetry. unfold nlook.
            destruct (strip (nkey n) (head0 n :: q)) as [[|y w]|] eqn:Es; [apply strip_some in Es; rewrite app_nil_r in Es; contradiction| |reflexivity].
            apply look_notin; [apply Hni|]. rewrite En. constructor.
          * rewrite streq_neq; [reflexivity|]. intros E1. apply Hx. unfold head0. now rewrite <- E1.
        + rewrite (hs_remove_items h l1 n l2 El). rewrite <- Hit. split.
          * intros E1. apply app_eq_nil in E1. destruct E1. auto.
          * now intros (-> & -> & _).
      - assert (En : hitems (nsubs n) <> []) by (intros En; apply Htn in En; discriminate).
        set (nn := Node (nkey n) (Some (clear (Some d))) (nsubs n)).
        destruct (swaps_update h l1 n nn l2 Hv El eq_refl ltac:(split; [exact Hnk|split; [discriminate|exact Hni]])) as (Hiv & Hl). split; [exact Hiv|]. split.
        + exists true. split; [rewrite Hex; split; auto|]. intros q. destruct q as [|x q]; [rewrite (streq_neq [] (nkey n)) by congruence; reflexivity|].
          rewrite Hl by discriminate. change (char0 (x :: q)) with x. change (head0 nn) with (head0 n). destruct (Ascii.eqb_spec x (head0 n)) as [->|Hx].
          * rewrite (look_in h n) by (auto; discriminate). unfold nlook. change (nkey nn) with (nkey n). change (nsubs nn) with (nsubs n). change (ndata nn) with (Some (clear (Some d))).
            destruct (streq_spec (head0 n :: q) (nkey n)) as [E1|Hne]; [rewrite E1; rewrite <- (app_nil_r (nkey n)) at 2; now rewrite strip_app|].
            destruct (strip (nkey n) (head0 n :: q)) as [[|y w]|] eqn:Es; [apply strip_some in Es; rewrite app_nil_r in Es; contradiction|reflexivity|reflexivity].
          * rewrite streq_neq; [reflexivity|]. intros E1. apply Hx. unfold head0. now rewrite <- E1.
        + unfold hs_update. cbn [hitems]. rewrite El, list_upd_app. split; [intros E1; apply app_eq_nil in E1; destruct E1; discriminate|]. intros H. exfalso. apply En, (proj2 Hit); auto.
      - exfalso. pose proof (tight_good _ (proj1 (proj2 Hni))) as Hg. unfold good in Hg. rewrite Etl in Hg. exact Hg. }
    destruct Hs' as (I1 & R1 & T1). pose proof (tail_null_ s' (tight_good _ (proj1 (proj2 I1)))) as T2. destruct isroot.
    + right. split; [intros [H|[H _]]; [contradiction|discriminate]|]. exists s'. auto.
    + destruct (htail s') as [|j|] eqn:Et.
      * left. split; [|reflexivity]. right. split; [reflexivity|]. apply T1, T2. reflexivity.
      * right. split; [intros [H|[_ H]]; [contradiction|]; apply T1, T2 in H; discriminate|]. exists s'. auto.
      * right. split; [intros [H|[_ H]]; [contradiction|]; apply T1, T2 in H; discriminate|]. exists s'. auto.
  - rewrite Hlk, nlook_off; [reflexivity|]. rewrite E0. intros (w & Ew). apply (f_equal (@length _)) in Ew. rewrite !app_length in Ew. cbn in Ew. lia.
  - assert (Hlen2 : length (a :: r) <= fuel) by (apply (f_equal (@length _)) in E0; rewrite app_length in E0; destruct (nkey n); [congruence|]; cbn in *; lia).
    assert (Hsk : skipn (length (nkey n)) (c :: k) = a :: r) by (rewrite E0; apply skipn_app_exact). rewrite Hsk. rewrite Hlk, E0, nlook_app.
    specialize (IH (nsubs n) (a :: r) false Hni Hlen2 ltac:(discriminate)). unfold gunset_post in IH.
    assert (N : forall w, look h (nkey n ++ w) = match w with [] => ndata n | _ => look (nsubs n) w end).
    { intros w. rewrite (look_prefix h n) by (auto; now exists w). apply nlook_app. }
    assert (In_ : forall q w, look h q <> None -> q <> [] -> prefix q (nkey n ++ w) -> w <> [] -> prefix (nkey n) q).
    { intros q w Hq Hq0 Hqp Hw0. apply nlook_prefix. rewrite <- (look_in h n); auto. rewrite <- (prefix_char0 _ _ Hq0 Hqp). destruct (nkey n) as [|y z] eqn:Ek; [congruence|]. unfold head0. now rewrite Ek. }
    assert (Hlone : lonely_at isroot (look h) (nkey n ++ a :: r) <-> lonely_at false (look (nsubs n)) (a :: r)).
    { split.
      - intros [(p & Hp & Hpp & Hall)|(_ & Hall)].
        + assert (Hp0 : p <> []) by (intros ->; now rewrite look_nil in Hp). destruct (In_ p (a :: r)) as (w & ->); auto; [now apply proper_prefix_prefix|discriminate|].
          apply proper_prefix_app_inv in Hpp. rewrite N in Hp. destruct w as [|x w].
          * right. split; [reflexivity|]. intros q Hq. rewrite app_nil_r in Hall. apply (app_inv_head (nkey n)). destruct q as [|y q]; [now rewrite look_nil in Hq|].
            apply Hall; [now rewrite N|now exists y, q].
          * left. exists (x :: w). split; [exact Hp|]. split; [exact Hpp|]. intros q Hq Hxq. apply (app_inv_head (nkey n)). apply Hall; [|now apply proper_prefix_app].
            rewrite N. destruct q; [now rewrite look_nil in Hq|exact Hq].
        + exfalso. specialize (Hall (nkey n) (look_child _ _ Hv Hin)). apply (f_equal (@length _)) in Hall. rewrite app_length in Hall. cbn in Hall. lia.
      - intros Hl. left. destruct Hl as [(p & Hp & Hpp & Hall)|(_ & Hall)].
        + exists (nkey n ++ p). split; [rewrite N; destruct p; [now rewrite look_nil in Hp|exact Hp]|]. split; [now apply proper_prefix_app|].
          intros q Hq Hpq. destruct (proper_prefix_prefix _ _ Hpq) as (w & ->). rewrite <- app_assoc in *. apply proper_prefix_app_inv in Hpq. f_equal. apply Hall; [|exact Hpq].
          rewrite N in Hq. destruct (p ++ w) eqn:Epw; [apply proper_prefix_length in Hpq; cbn in Hpq; lia|exact Hq].
        + exists (nkey n). split; [now apply look_child|]. split; [now exists a, r|]. intros q Hq (x & w & ->). f_equal. apply Hall. now rewrite N in Hq. }
    destruct (look (nsubs n) (a :: r)) as [d|] eqn:Ed.
    + destruct (disp (Some d)) as [ev| |]; [|now rewrite IH|now rewrite IH]. destruct IH as [[Hl ->]|(Hl & s' & -> & Hi' & b & Hb & Hr)].
      { left. split; [now apply Hlone|reflexivity]. }
      right. split; [now rewrite Hlone|]. cbn [bind fst snd]. set (nn := Node (nkey n) (ndata n) s').
      destruct (swaps_update h l1 n nn l2 Hv El eq_refl ltac:(split; [exact Hnk|split; [exact Hnd|exact Hi']])) as (Hiv & Hl').
      exists (hs_update h (length l1) nn). split; [reflexivity|]. split; [exact Hiv|]. exists b. split.
      * rewrite Hb. split.
        -- intros (q & Hq & (x & w & ->)). exists (nkey n ++ (a :: r) ++ x :: w). rewrite N. split; [exact Hq|]. exists x, w. now rewrite app_assoc.
        -- intros (q & Hq & (x & w & ->)). rewrite <- app_assoc, N in Hq. exists ((a :: r) ++ x :: w). split; [exact Hq|]. now exists x, w.
      * intros q. destruct q as [|x q].
        { rewrite (streq_neq [] (nkey n ++ a :: r)); [reflexivity|]. intros E1. symmetry in E1. apply app_eq_nil in E1. destruct E1. discriminate. }
        rewrite Hl' by discriminate. change (char0 (x :: q)) with x. change (head0 nn) with (head0 n). destruct (Ascii.eqb_spec x (head0 n)) as [->|Hx].
        -- rewrite (look_in h n) by (auto; discriminate). unfold nlook. change (nkey nn) with (nkey n). change (nsubs nn) with s'. change (ndata nn) with (ndata n).
           destruct (strip (nkey n) (head0 n :: q)) as [w|] eqn:Es.
           ++ apply strip_some in Es. rewrite Es. assert (S1 : streq (nkey n ++ w) (nkey n ++ a :: r) = streq w (a :: r)).
              { destruct (streq_spec w (a :: r)) as [->|Hne]; [apply streq_refl|]. apply streq_neq. intros E1. now apply app_inv_head in E1. }
              rewrite S1. destruct w; [reflexivity|]. apply Hr.
           ++ rewrite streq_neq; [reflexivity|]. apply strip_none in Es. intros E1. apply Es. rewrite E1. now exists (a :: r).
        -- rewrite streq_neq; [reflexivity|]. intros E1. apply Hx. destruct (nkey n) as [|y z] eqn:Ek; [congruence|]. unfold head0. rewrite Ek. cbn in E1. cbn. congruence.
    + rewrite IH. cbn [bind fst snd]. f_equal. f_equal. rewrite node_eta. apply (hs_update_same h l1 n l2 El).
  - rewrite Hlk, nlook_off; [reflexivity|]. rewrite E0, E0'. intros (w & Ew). rewrite <- app_assoc in Ew. apply app_inv_head in Ew. cbn in Ew. congruence.
Qed.
End Unset_.
End Generic.
