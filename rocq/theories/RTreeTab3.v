(** The object dictionary and the machine on tables: every history. *)
From Coq Require Import Permutation.
From Verif Require Import CStr CStrFacts HSListModel HSListFacts RTreeModel RTreeFacts RTreeFacts2 RTreeFacts3 RTreeFacts4 MDictFacts MDictSpec RTreeTab RTreeTab2.

Section Machine.
Context {V : Type}.
Notation cell := (option V * bool)%type.
Notation ytable := (list (str * cell)).
Implicit Types (tb : ytable) (k p q : str) (d : option V).

(** ** Tables *)
(** A table has a row for each point at which the keys seen so far end or part, and
    one for the empty string.  A row holds the value, if any, and whether it is
    weak: whether what is below it hangs on a list whose tail pointer is NULL. *)
Definition y_new : ytable := [([], (None, true))].
Definition parent tb k : str :=
  fold_right (fun e s => if starts (fst e) k && negb (streq (fst e) k) && (length s <? length (fst e)) then fst e else s) [] tb.
Definition y_get tb k : option V := match tget tb k with Some (d, _) => d | None => None end.
(** A key that was no row is put where it leaves the rows; if this is at no row, it
    forks there; if it ends before a row, and the row before it is weak, everything
    else below that row is lost. *)
Definition y_set tb k d : ytable * bool :=
  match k with
  | [] => (tb, false)
  | _ =>
    match tget tb k with
    | Some (_, w) => (tput tb k (d, w), false)
    | None =>
        let s := stem tb k in
        (match tget tb s with
         | Some _ => (k, (d, true)) :: tb
         | None =>
             if streq s k then
               let p := parent tb k in
               match tget tb p with
               | Some (dp, wp) => (k, (d, false)) :: tput (if wp then filter (fun e => negb (inside p k (fst e))) tb else tb) p (dp, false)
               | None => tb
               end
             else (k, (d, true)) :: (s, (None, false)) :: tb
         end, true)
    end
  end.
(** A weak row is removed with everything below; otherwise its value is removed.  If
    the row before it is weak then, and is no empty string, freed memory is used. *)
Definition y_unset tb k : res ytable :=
  match k with
  | [] => Ok tb
  | _ =>
    match tget tb k with
    | None => Ok tb
    | Some (_, w) =>
        let p := parent tb k in
        match tget tb p with
        | None => Ok tb
        | Some (dp, wp) =>
            let wp' := wp || w && forallb (fun q => starts k q) (longer tb p) in
            if wp' && negb (streq p []) then UB
            else Ok (tput (if w then filter (fun e => negb (starts k (fst e))) tb else tput tb k (None, false)) p (dp, wp'))
        end
    end
  end.
(** A copy is weak only where nothing is below. *)
Definition y_copy (cp : V -> V) tb : ytable := map (fun e => (fst e, (option_map cp (fst (snd e)), negb (texceeded tb (fst e))))) tb.
Definition y_pairs tb : list (str * V) := flat_map (fun e => match fst (snd e) with Some v => [(fst e, v)] | None => [] end) tb.

(** ** Histories *)
Inductive rop := RSet (k : str) (d : option V) | RGet (k : str) | RUnset (k : str) | RClear | RLen | RPairs | RClone | RCopy.
Inductive rout := RDone | RGot (o : option V) | RCount (n : nat) | RListed (l : list (str * V)).
Definition rstep (cp : V -> V) (t : rtree V) (o : rop) : res (rtree V * rout) :=
  match o with
  | RSet k d => t' <- rt_set t k d ;; Ok (t', RDone)
  | RGet k => v <- rt_get t k ;; Ok (t, RGot v)
  | RUnset k => t' <- rt_unset t k ;; Ok (t', RDone)
  | RClear => Ok (rt_clear t, RDone)
  | RLen => Ok (t, RCount (tlen t))
  | RPairs => l <- rt_pairs t ;; Ok (t, RListed l)
  | RClone => Ok (rt_clone cp t, RDone)
  | RCopy => Ok (rt_copy cp t, RDone)
  end.
Fixpoint rrun (cp : V -> V) (t : rtree V) (os : list rop) : res (rtree V * list rout) :=
  match os with
  | [] => Ok (t, [])
  | o :: r => a <- rstep cp t o ;; b <- rrun cp (fst a) r ;; Ok (fst b, snd a :: snd b)
  end.
Record ystate := mkY { y_tab : ytable; y_len : nat }.
Definition ystep (cp : V -> V) (s : ystate) (o : rop) : res (ystate * rout) :=
  match o with
  | RSet k d => let r := y_set (y_tab s) k d in Ok (mkY (fst r) (if snd r then S (y_len s) else y_len s), RDone)
  | RGet k => Ok (s, RGot (y_get (y_tab s) k))
  | RUnset k => tb <- y_unset (y_tab s) k ;; Ok (mkY tb (y_len s), RDone)
  | RClear => Ok (mkY y_new 0, RDone)
  | RLen => Ok (s, RCount (y_len s))
  | RPairs => Ok (s, RListed (y_pairs (y_tab s)))
  | RClone => Ok (mkY (y_copy cp (y_tab s)) (y_len s), RDone)
  | RCopy => Ok (mkY (y_copy cp (y_tab s)) 0, RDone)
  end.
Fixpoint yrun (cp : V -> V) (s : ystate) (os : list rop) : res (ystate * list rout) :=
  match os with
  | [] => Ok (s, [])
  | o :: r => a <- ystep cp s o ;; b <- yrun cp (fst a) r ;; Ok (fst b, snd a :: snd b)
  end.
Definition same_out (a b : rout) : Prop :=
  match a, b with
  | RListed l, RListed l' => Permutation l l'
  | _, _ => a = b
  end.

(** ** Trees and tables *)
Definition oshows (h : hsl (node V)) tb : Prop := wff h /\ NoDup (map fst tb) /\ forall q, cells None h q = tget tb q.
Lemma oshows_new : oshows hs_empty y_new.
Proof.
  split; [apply wff_empty|]. split; [repeat constructor; auto|]. intros q. destruct q as [|c q]; [reflexivity|]. unfold tget. cbn [y_new find]. reflexivity.
Qed.
Lemma cells_look (h : hsl (node V)) : wff h -> forall d q, q <> [] -> look h q = match cells d h q with Some (d, _) => d | None => None end.
Proof.
  induction 1 as [h Hs Hnd Hk Hsub IH]. intros d q Hq. assert (Hw : wff h) by (constructor; auto). destruct q as [|c q]; [congruence|].
  rewrite look_cons by exact Hw. destruct (pick c (hitems h)) as [n|] eqn:Ep.
  - apply pick_some in Ep. destruct Ep as [Hin Hh]. rewrite (cells_in d h n) by (auto; discriminate). unfold nlook, ncells. destruct (strip (nkey n) (c :: q)) as [[|y r]|]; [reflexivity| |reflexivity].
    apply IH; [exact Hin|discriminate].
  - rewrite cells_notin; [reflexivity|exact Hw|discriminate|]. now apply pick_none_inv in Ep.
Qed.
Lemma parent_base tb k p : base (tget tb) k p -> parent tb k = p.
Proof.
  intros (B1 & B2 & B3).
  assert (H : (parent tb k = [] \/ In (parent tb k) (map fst tb) /\ proper_prefix (parent tb k) k) /\ forall q, In q (map fst tb) -> proper_prefix q k -> length q <= length (parent tb k)).
  { clear. induction tb as [|[q e] tb (I1 & I2)]; cbn [parent fold_right map]; [split; [now left|intros ? []]|]. cbn [fst]. change (fold_right _ [] tb) with (parent tb k).
    assert (Hpp : starts q k && negb (streq q k) = true <-> proper_prefix q k).
    { rewrite Bool.andb_true_iff, Bool.negb_true_iff, starts_spec. split.
      - intros [([|x w] & ->) Hn]; [rewrite app_nil_r, streq_refl in Hn; discriminate|now exists x, w].
      - intros Hp. split; [now apply proper_prefix_prefix|]. apply streq_neq. intros ->. apply proper_prefix_length in Hp. lia. }
    destruct (starts q k && negb (streq q k)) eqn:E; cbn [andb].
    - destruct (Nat.ltb_spec (length (parent tb k)) (length q)) as [L|L].
      + split; [right; split; [now left|now apply Hpp]|]. intros x [<-|Hx] Hp; [lia|]. specialize (I2 x Hx Hp). lia.
      + split; [destruct I1 as [I1|[I1 I3]]; [now left|right; split; [now right|exact I3]]|]. intros x [<-|Hx] Hp; auto.
    - split; [destruct I1 as [I1|[I1 I3]]; [now left|right; split; [now right|exact I3]]|]. intros x [<-|Hx] Hp; auto. apply Hpp in Hp. discriminate. }
  destruct H as (H1 & H2). apply tget_none in B1. pose proof (H2 p B1 B2) as L. destruct H1 as [H1|[H1 H3]].
  - rewrite H1 in *. destruct p; [reflexivity|cbn in L; lia].
  - apply tget_none in H1. pose proof (B3 _ H1 H3) as L'.
    assert (P : prefix p (parent tb k)) by (apply (prefix_both (parent tb k) p k); auto using proper_prefix_prefix).
    destruct P as ([|y u] & E); [now rewrite app_nil_r in E|]. rewrite E, app_length in L'. cbn in L'. lia.
Qed.
Lemma base_ext (T T' : str -> option cell) k p : (forall q, T q = T' q) -> base T k p -> base T' k p.
Proof. intros H (B1 & B2 & B3). split; [now rewrite <- H|]. split; [exact B2|]. intros q Hq. rewrite <- H in Hq. now apply B3. Qed.
Lemma stems_ext (T T' : str -> option cell) k s : (forall q, T q = T' q) -> stems T k s -> stems T' k s.
Proof.
  intros H (S1 & S2 & S3). split; [exact S1|]. split; [destruct S2 as [S2|(q & Hq & Hp)]; [now left|right; exists q; now rewrite <- H]|]. intros q r Hq. rewrite <- H in Hq. now apply S3.
Qed.
Lemma tget_filter (f : str -> bool) tb q : tget (filter (fun e => f (fst e)) tb) q = if f q then tget tb q else None.
Proof.
  induction tb as [|[x e] tb IH]; cbn [filter]; [now destruct (f q)|]. cbn [fst]. destruct (f x) eqn:Ef.
  - rewrite !tget_cons, IH. destruct (streq_spec x q) as [->|]; [now rewrite Ef|reflexivity].
  - rewrite IH, tget_cons. destruct (streq_spec x q) as [->|]; [now rewrite Ef|reflexivity].
Qed.
Lemma filter_nodup (f : str -> bool) tb : NoDup (map fst tb) -> NoDup (map fst (filter (fun e => f (fst e)) tb)).
Proof.
  induction tb as [|[x e] tb IH]; cbn; [auto|]. intros Hnd. apply NoDup_cons_iff in Hnd. destruct Hnd as [Hni Hnd]. destruct (f x); [|auto]. cbn. constructor; [|auto].
  intros Hin. apply Hni. apply in_map_iff in Hin. destruct Hin as (y & <- & Hy). apply filter_In in Hy. now apply in_map.
Qed.
Lemma y_set_ne tb k d : k <> [] -> y_set tb k d =
    match tget tb k with
    | Some (_, w) => (tput tb k (d, w), false)
    | None =>
        let s := stem tb k in
        (match tget tb s with
         | Some _ => (k, (d, true)) :: tb
         | None =>
             if streq s k then
               let p := parent tb k in
               match tget tb p with
               | Some (dp, wp) => (k, (d, false)) :: tput (if wp then filter (fun e => negb (inside p k (fst e))) tb else tb) p (dp, false)
               | None => tb
               end
             else (k, (d, true)) :: (s, (None, false)) :: tb
         end, true)
    end.
Proof. now destruct k. Qed.
Lemma y_unset_ne tb k : k <> [] -> y_unset tb k =
    match tget tb k with
    | None => Ok tb
    | Some (_, w) =>
        let p := parent tb k in
        match tget tb p with
        | None => Ok tb
        | Some (dp, wp) =>
            let wp' := wp || w && forallb (fun q => starts k q) (longer tb p) in
            if wp' && negb (streq p []) then UB
            else Ok (tput (if w then filter (fun e => negb (starts k (fst e))) tb else tput tb k (None, false)) p (dp, wp'))
        end
    end.
Proof. now destruct k. Qed.
Lemma not_in_tget tb q : tget tb q = None -> ~ In q (map fst tb).
Proof. intros Hq Hx. apply tget_none in Hx. congruence. Qed.
Lemma inside_p p k : inside p k p = false.
Proof. unfold inside. rewrite streq_refl. now rewrite Bool.andb_false_r. Qed.

Lemma set_oshows h tb k d : oshows h tb ->
  exists h', set_sub (length k) h k d = Ok (h', snd (y_set tb k d)) /\ oshows h' (fst (y_set tb k d)).
Proof.
  intros (Hw & Hnd & Hl). destruct k as [|c k]; [exists h; split; [reflexivity|split; auto]|].
  destruct (set_cells (length (c :: k)) h (c :: k) d None Hw (le_n _) ltac:(discriminate)) as (h' & b & E & Hw' & Hs).
  exists h'. rewrite E. set (K := c :: k) in *. assert (HK : K <> []) by discriminate. clearbody K. clear E c k.
  rewrite y_set_ne by exact HK. destruct Hs as [(d0 & w & Ek & -> & Hq)|(Ek & -> & s & Hst & Hs)]; rewrite Hl in Ek; rewrite Ek.
  - split; [reflexivity|]. split; [exact Hw'|]. split; [cbn [fst]; now rewrite tput_keys|]. intros q. rewrite Hq, Hl. cbn [fst]. now rewrite tget_tput, Ek.
  - assert (Es : stem tb K = s).
    { apply (stems_unique (tget tb) K); [apply stem_stems|]. now apply (stems_ext (cells None h)). }
    cbv zeta. cbn [fst snd]. split; [reflexivity|]. split; [exact Hw'|]. rewrite Es. destruct Hs as [(E1 & Hq)|[(-> & p & dp & wp & Hb & Ep & Hq)|(E1 & E2 & Hq)]].
    + rewrite Hl in E1. destruct (tget tb s); [|congruence]. split; [cbn; constructor; [now apply not_in_tget|exact Hnd]|]. intros q. rewrite Hq, tget_cons, Hl.
      destruct (streq_spec q K) as [->|Hn]; [now rewrite streq_refl|]. now rewrite (streq_neq K q) by congruence.
    + rewrite Ek, streq_refl. apply (base_ext _ (tget tb)) in Hb; [|exact Hl]. rewrite (parent_base tb K p Hb). rewrite Hl in Ep. rewrite Ep.
      assert (HpK : p <> K) by (intros ->; rewrite Ek in Ep; discriminate).
      assert (Hg : forall q, tget (if wp then filter (fun e => negb (inside p K (fst e))) tb else tb) q = if wp && inside p K q then None else tget tb q).
      { intros q. destruct wp; [|reflexivity]. cbn [andb]. rewrite (tget_filter (fun x => negb (inside p K x))). now destruct (inside p K q). }
      split.
      * cbn [map fst]. rewrite tput_keys. constructor.
        -- intros Hx. apply tget_none in Hx. rewrite Hg, Ek in Hx. destruct (wp && inside p K K); congruence.
        -- destruct wp; [now apply (filter_nodup (fun x => negb (inside p K x)))|exact Hnd].
      * intros q. rewrite Hq, tget_cons, tget_tput, !Hg, inside_p, Ep, Hl, Bool.andb_false_r. destruct (streq_spec q K) as [->|Hn]; [now rewrite streq_refl|].
        now rewrite (streq_neq K q) by congruence.
    + rewrite Hl in E2. rewrite E2. rewrite (streq_neq s K) by exact E1. split.
      * cbn [map fst]. constructor; [intros [H|H]; [congruence|]; revert H; now apply not_in_tget|constructor; [now apply not_in_tget|exact Hnd]].
      * intros q. rewrite Hq, !tget_cons, Hl. destruct (streq_spec q K) as [->|Hn]; [now rewrite streq_refl|]. rewrite (streq_neq K q) by congruence.
        destruct (streq_spec q s) as [->|Hn']; [now rewrite streq_refl|]. now rewrite (streq_neq s q) by congruence.
Qed.

Lemma unset_oshows h tb k : oshows h tb ->
  match unset_sub (length k) true h k, y_unset tb k with
  | Ok h', Ok tb' => oshows h' tb'
  | UB, UB => True
  | _, _ => False
  end.
Proof.
  intros (Hw & Hnd & Hl). destruct k as [|c k]; [split; auto|].
  pose proof (unset_cells (length (c :: k)) h (c :: k) None true Hw (le_n _) ltac:(discriminate)) as H.
  set (K := c :: k) in *. assert (HK : K <> []) by discriminate. clearbody K. clear c k. rewrite y_unset_ne by exact HK. unfold unsets in H. rewrite Hl in H.
  destruct (tget tb K) as [[dk w]|] eqn:Ek; [|rewrite H; split; auto].
  destruct H as (p & dp & wp & wp' & Hb & Ep & Hwp & H). apply (base_ext _ (tget tb)) in Hb; [|exact Hl]. cbv zeta. rewrite (parent_base tb K p Hb). rewrite Hl in Ep. rewrite Ep.
  assert (Ewp : wp || w && forallb (fun q => starts K q) (longer tb p) = wp').
  { assert (Hob : forallb (fun q => starts K q) (longer tb p) = true <-> only_below (cells None h) p K).
    { rewrite forallb_forall. split; intros G q.
      - intros Hq Hp. rewrite Hl in Hq. apply starts_spec, G. now apply longer_in.
      - intros Hq. apply longer_in in Hq. destruct Hq as [Hq Hp]. apply starts_spec, G; [now rewrite Hl|exact Hp]. }
    rewrite <- Hob in Hwp. destruct wp, w, (forallb (fun q => starts K q) (longer tb p)), wp'; cbn; try reflexivity; intuition congruence. }
  rewrite Ewp. assert (HpK : p <> K) by (destruct Hb as (_ & Hp & _); intros ->; apply proper_prefix_length in Hp; lia).
  assert (HsK : starts K p = false) by (destruct (starts K p) eqn:Es; [|reflexivity]; apply starts_spec, prefix_length in Es; destruct Hb as (_ & Hp & _); apply proper_prefix_length in Hp; lia).
  destruct H as [(H1 & H2 & ->)|(H1 & h' & -> & Hw' & Hq)].
  - rewrite H1. destruct H2 as [H2|H2]; [|discriminate]. rewrite streq_neq by exact H2. exact I.
  - replace (wp' && negb (streq p [])) with false.
    2:{ destruct wp'; [|reflexivity]. destruct (streq_spec p []); [reflexivity|]. exfalso. apply H1. split; [reflexivity|now left]. }
    split; [exact Hw'|].
    assert (Hg : forall q, tget (if w then filter (fun e => negb (starts K (fst e))) tb else tput tb K (None, false)) q = if w && starts K q then None else if streq q K then Some (None, false) else tget tb q).
    { intros q. destruct w; cbn [andb].
      - rewrite (tget_filter (fun x => negb (starts K x))). destruct (starts K q) eqn:Es; [reflexivity|]. cbn [negb].
        rewrite streq_neq; [reflexivity|]. intros ->. rewrite (proj2 (starts_spec K K) (prefix_refl K)) in Es. discriminate.
      - rewrite tget_tput, Ek. reflexivity. }
    split.
    + rewrite tput_keys. destruct w; [now apply (filter_nodup (fun x => negb (starts K x)))|now rewrite tput_keys].
    + intros q. rewrite Hq, tget_tput, !Hg, HsK, Bool.andb_false_r, (streq_neq p K) by exact HpK. rewrite Ep, Hl.
      destruct (streq_spec q p) as [->|]; [|reflexivity]. rewrite HsK, Bool.andb_false_r. now rewrite (streq_neq p K).
Qed.
Lemma get_oshows h tb k : oshows h tb -> get_sub (length k) h k = Ok (y_get tb k).
Proof.
  intros (Hw & _ & Hl). rewrite get_sub_look by auto. unfold y_get. rewrite <- Hl. destruct k as [|c k]; [reflexivity|]. now rewrite (cells_look h Hw None) by discriminate.
Qed.
Lemma pairs_oshows h tb : oshows h tb -> Permutation (ents (hitems h)) (y_pairs tb).
Proof.
  intros (Hw & Hnd & Hl). apply NoDup_Permutation.
  - apply (NoDup_map_inv fst), ents_nodup, Hw.
  - apply (NoDup_map_inv fst). clear Hl. induction tb as [|[q [d w]] tb IH]; [constructor|]. cbn in Hnd. apply NoDup_cons_iff in Hnd. destruct Hnd as [Hni Hnd].
    cbn [y_pairs flat_map fst snd]. change (flat_map _ tb) with (y_pairs tb). rewrite map_app. destruct d; [|now apply IH]. cbn. constructor; [|now apply IH].
    intros Hin. apply Hni. apply in_map_iff in Hin. destruct Hin as ([x v'] & <- & Hx). unfold y_pairs in Hx. apply in_flat_map in Hx. destruct Hx as (e & He & Hx).
    destruct (fst (snd e)); [|destruct Hx]. destruct Hx as [[= <- _]|[]]. exact (in_map fst tb e He).
  - intros [q v]. rewrite ents_look by exact Hw. unfold y_pairs. rewrite in_flat_map. split.
    + intros H. assert (Hq : q <> []) by (intros ->; discriminate). rewrite (cells_look h Hw None) in H by exact Hq. rewrite Hl in H. destruct (tget tb q) as [[d w]|] eqn:E; [|discriminate]. subst d.
      exists (q, (Some v, w)). split; [now apply tget_in|now left].
    + intros ([x [d w]] & He & Hx). cbn in Hx. destruct d as [u|]; [|destruct Hx]. destruct Hx as [[= -> ->]|[]].
      apply (tget_in tb _ _ Hnd) in He. rewrite <- Hl in He. assert (Hq : q <> []) by (intros ->; discriminate). rewrite (cells_look h Hw None) by exact Hq. now rewrite He.
Qed.
Lemma clone_weak (cp : V -> V) h : weakh (clone_sub cp h) = match hitems h with [] => true | _ => false end.
Proof. unfold weakh, clone_sub. cbn [htail]. rewrite map_length. now destruct (hitems h). Qed.
Lemma extended_ext (T T' : str -> option cell) q : (forall q, T q = T' q) -> extended T q -> extended T' q.
Proof. intros H (x & Hx & Hp). exists x. now rewrite <- H. Qed.
Lemma clone_cells (cp : V -> V) (h : hsl (node V)) : wff h -> forall d q d1 w1, cells d h q = Some (d1, w1) ->
  exists w2, cells (option_map cp d) (clone_sub cp h) q = Some (option_map cp d1, w2) /\ (w2 = true <-> ~ extended (cells d h) q).
Proof.
  induction 1 as [h Hs Hnd Hk Hsub IH]. intros d q d1 w1 E. assert (Hw : wff h) by (constructor; auto). destruct q as [|c q].
  - injection E as <- <-. exists (weakh (clone_sub cp h)). split; [reflexivity|]. rewrite clone_weak. destruct (hitems h) as [|n l] eqn:El.
    + split; [|reflexivity]. intros _ (x & Hx & Hp). destruct x as [|y x]; [destruct Hp as (? & ? & ?); discriminate|]. apply Hx. apply cells_notin; [exact Hw|discriminate|rewrite El; constructor].
    + split; [discriminate|]. intros H. elim H. assert (Hin : In n (hitems h)) by (rewrite El; now left). exists (nkey n). split.
      * rewrite <- (app_nil_r (nkey n)), cells_app by auto. discriminate.
      * pose proof (wff_key _ _ Hw Hin). destruct (nkey n) as [|y z]; [congruence|now exists y, z].
  - assert (Hq : cells d h (c :: q) <> None) by congruence. destruct (cells_some d h (c :: q) Hw ltac:(discriminate) Hq) as (n & Hin & Hh & (r & Er)).
    rewrite Er in *. rewrite cells_app in E by auto. destruct (IH n Hin (ndata n) r d1 w1 E) as (w2 & E2 & Hx). exists w2.
    assert (Hin' : In (clone_node cp n) (hitems (clone_sub cp h))) by (rewrite clone_items; now apply in_map). split.
    + pose proof (cells_app (option_map cp d) (clone_sub cp h) (clone_node cp n) r (clone_wff cp h Hw) Hin') as H. rewrite clone_node_eq in H. cbn [nkey ndata nsubs] in H. rewrite H. exact E2.
    + rewrite Hx. split; intros H (x & Hx1 & Hp); apply H.
      * pose proof (proper_prefix_prefix _ _ Hp) as (u & ->). rewrite <- app_assoc in Hx1, Hp. rewrite cells_app in Hx1 by auto. exists (r ++ u). split; [exact Hx1|now apply (proj1 (pp_app (nkey n) r (r ++ u)))].
      * exists (nkey n ++ x). rewrite cells_app by auto. split; [exact Hx1|now apply pp_app].
Qed.
Lemma clone_cells_none (cp : V -> V) (h : hsl (node V)) : wff h -> forall d q, cells d h q = None -> cells (option_map cp d) (clone_sub cp h) q = None.
Proof.
  induction 1 as [h Hs Hnd Hk Hsub IH]. intros d q E. assert (Hw : wff h) by (constructor; auto). destruct q as [|c q]; [discriminate|].
  destruct (pick c (hitems h)) as [n|] eqn:Ep.
  - apply pick_some in Ep. destruct Ep as [Hin Hh]. assert (Hin' : In (clone_node cp n) (hitems (clone_sub cp h))) by (rewrite clone_items; now apply in_map).
    rewrite (cells_in d h n) in E by (auto; discriminate). rewrite (cells_in _ _ (clone_node cp n)); [|now apply clone_wff|exact Hin'|discriminate|now rewrite clone_head].
    unfold ncells in *. rewrite clone_node_eq. cbn [nkey ndata nsubs]. destruct (strip (nkey n) (c :: q)); [|reflexivity]. now apply IH.
  - apply cells_notin; [now apply clone_wff|discriminate|]. rewrite clone_items. apply Forall_map. apply pick_none_inv in Ep. eapply Forall_impl; [|exact Ep]. intros m. now rewrite clone_head.
Qed.
Lemma tget_map (f : str -> cell -> cell) tb q : tget (map (fun e => (fst e, f (fst e) (snd e))) tb) q = option_map (f q) (tget tb q).
Proof.
  induction tb as [|[x e] tb IH]; [reflexivity|]. cbn [map fst snd]. rewrite !tget_cons, IH. now destruct (streq_spec x q) as [->|].
Qed.
Lemma copy_oshows cp h tb : oshows h tb -> oshows (clone_sub cp h) (y_copy cp tb).
Proof.
  intros (Hw & Hnd & Hl). split; [now apply clone_wff|]. split; [unfold y_copy; rewrite map_map; cbn [fst]; exact Hnd|]. intros q.
  change (y_copy cp tb) with (map (fun e => (fst e, (fun x c => (option_map cp (fst c), negb (texceeded tb x))) (fst e) (snd e))) tb).
  rewrite (tget_map (fun x c => (option_map cp (fst c), negb (texceeded tb x)))). rewrite <- Hl. destruct (cells None h q) as [[d1 w1]|] eqn:E.
  - destruct (clone_cells cp h Hw None q d1 w1 E) as (w2 & E2 & Hx). cbn [option_map] in E2. rewrite E2. cbn [option_map fst]. do 2 f_equal.
    assert (G : texceeded tb q = true <-> extended (cells None h) q) by (rewrite texceeded_spec; split; apply extended_ext; intros x; now rewrite Hl).
    destruct w2, (texceeded tb q); cbn; try reflexivity; exfalso; [apply Hx; [reflexivity|now apply G]|].
    assert (Hno : ~ extended (cells None h) q) by (intros Hy; apply G in Hy; discriminate). apply Hx in Hno. discriminate.
  - exact (clone_cells_none cp h Hw None q E).
Qed.

Definition tshows (t : rtree V) (s : ystate) : Prop := oshows (troot t) (y_tab s) /\ tlen t = y_len s.
Lemma rstep_shows cp t s o : tshows t s ->
  match rstep cp t o, ystep cp s o with
  | Ok (t', a), Ok (s', b) => tshows t' s' /\ same_out a b
  | UB, UB => True
  | _, _ => False
  end.
Proof.
  intros (Hs & El). destruct o as [k d|k|k| | | | |]; cbn [rstep ystep].
  - unfold rt_set. destruct (set_oshows (troot t) (y_tab s) k d Hs) as (h' & -> & H'). cbn [bind fst snd]. split; [|reflexivity]. split; [exact H'|]. cbn [tlen y_len]. now rewrite El.
  - unfold rt_get. rewrite (get_oshows _ _ k Hs). cbn [bind]. split; [split; auto|reflexivity].
  - unfold rt_unset. pose proof (unset_oshows _ _ k Hs) as H. destruct (unset_sub (length k) true (troot t) k), (y_unset (y_tab s) k); cbn [bind]; try contradiction; try exact I. split; [split; auto|reflexivity].
  - split; [split; [apply oshows_new|reflexivity]|reflexivity].
  - rewrite El. split; [split; auto|reflexivity].
  - rewrite rt_pairs_ents. cbn [bind]. split; [split; auto|]. cbn. now apply pairs_oshows.
  - split; [split; [now apply copy_oshows|exact El]|reflexivity].
  - split; [split; [now apply copy_oshows|reflexivity]|reflexivity].
Qed.
Lemma rrun_shows cp os : forall t s, tshows t s ->
  match rrun cp t os, yrun cp s os with
  | Ok (t', a), Ok (s', b) => tshows t' s' /\ Forall2 same_out a b
  | UB, UB => True
  | _, _ => False
  end.
Proof.
  induction os as [|o os IH]; intros t s H; [split; [exact H|constructor]|]. cbn [rrun yrun]. pose proof (rstep_shows cp t s o H) as Hst.
  destruct (rstep cp t o) as [[t1 a]| |], (ystep cp s o) as [[s1 b]| |]; cbn [bind]; try contradiction; [|exact I]. destruct Hst as (H1 & Hab). cbn [fst snd]. specialize (IH t1 s1 H1).
  destruct (rrun cp t1 os) as [[t2 x]| |], (yrun cp s1 os) as [[s2 y]| |]; cbn [bind fst snd]; try contradiction; [|exact I]. destruct IH as (H2 & Hxy). split; [exact H2|]. now constructor.
Qed.
Lemma rrun_exact cp os :
  match rrun cp rt_create os, yrun cp (mkY y_new 0) os with
  | Ok (t, a), Ok (s, b) => Forall2 same_out a b
  | UB, UB => True
  | _, _ => False
  end.
Proof.
  pose proof (rrun_shows cp os rt_create (mkY y_new 0) (conj oshows_new eq_refl)) as H.
  destruct (rrun cp rt_create os) as [[t a]| |], (yrun cp (mkY y_new 0) os) as [[s b]| |]; try exact H. apply H.
Qed.
(** ** One call on what a history made *)
Lemma after cp os t a s b : rrun cp rt_create os = Ok (t, a) -> yrun cp (mkY y_new 0) os = Ok (s, b) -> tshows t s.
Proof.
  intros E1 E2. pose proof (rrun_shows cp os rt_create (mkY y_new 0) (conj oshows_new eq_refl)) as H. rewrite E1, E2 in H. apply H.
Qed.
Lemma rt_get_shows t s k : tshows t s -> rt_get t k = Ok (y_get (y_tab s) k).
Proof. intros (H & _). exact (get_oshows _ _ k H). Qed.
Lemma set_lost cp os t a s b k d : k <> [] -> rrun cp rt_create os = Ok (t, a) -> yrun cp (mkY y_new 0) os = Ok (s, b) ->
  exists t', rt_set t k d = Ok t' /\ rt_get t' k = Ok d /\ forall q, q <> k -> rt_get t' q =
      match tget (y_tab s) k, tget (y_tab s) (stem (y_tab s) k), tget (y_tab s) (parent (y_tab s) k) with
      | None, None, Some (_, true) => if streq (stem (y_tab s) k) k && inside (parent (y_tab s) k) k q then Ok None else rt_get t q
      | _, _, _ => rt_get t q
      end.
Proof.
  intros Hk E1 E2. pose proof (after cp os t a s b E1 E2) as Hs. pose proof (fun q => rt_get_shows t s q Hs) as Hg. destruct Hs as (Hs & El).
  destruct (set_oshows (troot t) (y_tab s) k d Hs) as (h' & E & Hs'). unfold rt_set. rewrite E. cbn [bind]. eexists. split; [reflexivity|].
  assert (Hg' : forall q, get_sub (length q) h' q = Ok (y_get (fst (y_set (y_tab s) k d)) q)) by (intros q; exact (get_oshows _ _ q Hs')). unfold rt_get at 1. cbn [fst snd troot]. rewrite Hg'.
  assert (H : forall q, y_get (fst (y_set (y_tab s) k d)) q = if streq q k then d else
      match tget (y_tab s) k, tget (y_tab s) (stem (y_tab s) k), tget (y_tab s) (parent (y_tab s) k) with
      | None, None, Some (_, true) => if streq (stem (y_tab s) k) k && inside (parent (y_tab s) k) k q then None else y_get (y_tab s) q
      | _, _, _ => y_get (y_tab s) q
      end).
  { intros q. destruct Hs' as (Hw' & _ & Hl'). destruct Hs as (Hw & Hnd & Hl). destruct (set_cells (length k) (troot t) k d None Hw (le_n _) Hk) as (h2 & bb & E' & _ & Hset).
    rewrite E in E'. injection E' as <- <-. unfold y_get. rewrite <- Hl'. destruct Hset as [(d0 & w & Ek & _ & Hq)|(Ek & _ & x & Hst & Hx)]; rewrite Hl in Ek; rewrite Ek.
    - rewrite Hq, Hl. now destruct (streq q k).
    - assert (Es : stem (y_tab s) k = x) by (apply (stems_unique (tget (y_tab s)) k); [apply stem_stems|]; now apply (stems_ext (cells None (troot t)))). rewrite Es.
      destruct Hx as [(F1 & Hq)|[(-> & p & dp & wp & Hb & Ep & Hq)|(F1 & F2 & Hq)]].
      + rewrite Hl in F1. destruct (tget (y_tab s) x); [|congruence]. rewrite Hq, Hl. now destruct (streq q k).
      + apply (base_ext _ (tget (y_tab s))) in Hb; [|exact Hl]. rewrite (parent_base _ _ _ Hb). rewrite Hl in Ep. rewrite Ek, Ep, Hq, !Hl, streq_refl. cbn [andb].
        destruct (streq_spec q k) as [->|]; [reflexivity|]. destruct (streq_spec q p) as [->|]; [rewrite inside_p, Ep; now destruct wp|]. destruct wp; cbn [andb]; [|reflexivity]. now destruct (inside p k q).
      + rewrite Hl in F2. rewrite F2, Hq, Hl, (streq_neq x k) by exact F1. cbn [andb]. destruct (streq_spec q k) as [->|]; [reflexivity|].
        destruct (streq_spec q x) as [->|]; [rewrite F2|]; destruct (tget (y_tab s) (parent (y_tab s) k)) as [[? []]|]; reflexivity. }
  split; [now rewrite H, streq_refl|]. intros q Hq. unfold rt_get at 1. cbn [troot]. rewrite Hg', H, (streq_neq q k), Hg by exact Hq.
  destruct (tget (y_tab s) k); [reflexivity|]. destruct (tget (y_tab s) (stem (y_tab s) k)); [reflexivity|]. destruct (tget (y_tab s) (parent (y_tab s) k)) as [[? []]|]; try reflexivity.
  now destruct (_ && _).
Qed.
Lemma unset_lost cp os t a s b k : k <> [] -> rrun cp rt_create os = Ok (t, a) -> yrun cp (mkY y_new 0) os = Ok (s, b) ->
  match tget (y_tab s) k, tget (y_tab s) (parent (y_tab s) k) with
  | Some (_, w), Some (_, wp) =>
      if (wp || w && forallb (fun q => starts k q) (longer (y_tab s) (parent (y_tab s) k))) && negb (streq (parent (y_tab s) k) []) then rt_unset t k = UB
      else exists t', rt_unset t k = Ok t' /\ forall q, rt_get t' q = if streq q k || w && starts k q then Ok None else rt_get t q
  | _, _ => rt_unset t k = Ok t
  end.
Proof.
  intros Hk E1 E2. pose proof (after cp os t a s b E1 E2) as Hs. pose proof (fun q => rt_get_shows t s q Hs) as Hg. destruct Hs as (Hs & El).
  pose proof (unset_oshows _ _ k Hs) as H. destruct Hs as (Hw & Hnd & Hl). pose proof (unset_cells (length k) (troot t) k None true Hw (le_n _) Hk) as Hu. unfold unsets in Hu. rewrite Hl in Hu.
  rewrite y_unset_ne in H by exact Hk. unfold rt_unset. destruct (tget (y_tab s) k) as [[d w]|] eqn:Ek.
  2:{ rewrite Hu. cbn [bind]. now destruct t. }
  destruct Hu as (p & dp & wp & wp' & Hb & Ep & _). apply (base_ext _ (tget (y_tab s))) in Hb; [|exact Hl]. cbv zeta in H. rewrite (parent_base _ _ _ Hb) in *. rewrite Hl in Ep. rewrite Ep in *.
  destruct (_ && negb _).
  - destruct (unset_sub (length k) true (troot t) k); try contradiction. reflexivity.
  - destruct (unset_sub (length k) true (troot t) k) as [h'| |]; try contradiction. cbn [bind]. eexists. split; [reflexivity|]. intros q. rewrite Hg. unfold rt_get. cbn [troot]. rewrite (get_oshows _ _ q H).
    assert (HpK : p <> k) by (destruct Hb as (_ & Hp & _); intros ->; apply proper_prefix_length in Hp; lia).
    assert (HsK : starts k p = false) by (destruct (starts k p) eqn:Es; [|reflexivity]; apply starts_spec, prefix_length in Es; destruct Hb as (_ & Hp & _); apply proper_prefix_length in Hp; lia).
    assert (Hg2 : forall q, tget (if w then filter (fun e => negb (starts k (fst e))) (y_tab s) else tput (y_tab s) k (None, false)) q = if w && starts k q then None else if streq q k then Some (None, false) else tget (y_tab s) q).
    { intros x. destruct w; cbn [andb].
      - rewrite (tget_filter (fun x => negb (starts k x))). destruct (starts k x) eqn:Es; [reflexivity|]. cbn [negb].
        rewrite streq_neq; [reflexivity|]. intros ->. rewrite (proj2 (starts_spec k k) (prefix_refl k)) in Es. discriminate.
      - rewrite tget_tput, Ek. reflexivity. }
    unfold y_get. rewrite tget_tput, !Hg2, HsK, Bool.andb_false_r, (streq_neq p k) by exact HpK. rewrite Ep. destruct (streq_spec q p) as [->|].
    + rewrite HsK, Bool.andb_false_r, (streq_neq p k) by exact HpK. cbn [orb]. now rewrite Ep.
    + rewrite Bool.orb_comm. destruct (w && starts k q); [reflexivity|]. cbn [orb]. now destruct (streq q k).
Qed.
End Machine.
Arguments rop V : clear implicits.
Arguments rout V : clear implicits.
Arguments ystate V : clear implicits.
