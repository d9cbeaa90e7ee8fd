(** A table of paths, the meaning of the two multi-dictionaries: no trees, only
    prefixes of strings. *)
From Coq Require Import Permutation.
From Verif Require Import CStr CStrFacts HSListModel HSListFacts RTreeModel RTreeFacts RTreeFacts2 RTreeFacts4 MDictFacts.

Fixpoint lcp (a b : str) : str :=
  match a, b with
  | x :: a', y :: b' => if Ascii.eqb x y then x :: lcp a' b' else []
  | _, _ => []
  end.
Fixpoint starts (s q : str) : bool :=
  match s, q with
  | [], _ => true
  | x :: s', y :: q' => Ascii.eqb x y && starts s' q'
  | _, [] => false
  end.

Section Table.
Context {D : Type}.
Notation table := (list (str * D)).
Implicit Types (tb : table) (k q s p : str) (d : D).

Definition tget tb k : option D := option_map snd (find (fun e => streq (fst e) k) tb).
Definition tput tb k d : table := map (fun e => if streq (fst e) k then (k, d) else e) tb.
Definition tdel tb k : table := filter (fun e => negb (streq (fst e) k)) tb.
(** The longest string that [k] shares with a path of the table. *)
Definition stem tb k : str := fold_right (fun e s => let u := lcp (fst e) k in if length s <? length u then u else s) [] tb.
(** The shortest path that starts with [s]. *)
Definition lowest tb s : option (str * D) :=
  fold_right (fun e o => if starts s (fst e) then match o with Some e' => if length (fst e') <? length (fst e) then o else Some e | None => Some e end else o) None tb.
Definition longer tb k : list str := filter (fun q => starts k q && negb (streq q k)) (map fst tb).
Definition texceeded tb k : bool := match longer tb k with [] => false | _ => true end.
Definition tlonely tb k : bool :=
  existsb (fun p => starts p k && negb (streq p k) && forallb (fun q => streq q k) (longer tb p)) (map fst tb).

Section Set_.
Variables (hit nest : D -> D) (fresh fork : D).
Definition tforks tb k : bool :=
  match k, tget tb k, stem tb k with
  | [], _, _ | _, Some _, _ | _, _, [] => false
  | _, None, s => negb (streq s k) && match tget tb s with Some _ => false | None => true end
  end.
Definition tset tb k : table :=
  match k, tget tb k with
  | [], _ => tb
  | _, Some d => tput tb k (hit d)
  | _, None =>
      if tforks tb k then
        (k, fresh) :: (stem tb k, fork) :: match lowest tb (stem tb k) with Some (p, d) => tput tb p (nest d) | None => tb end
      else (k, fresh) :: tb
  end.
End Set_.
Section Unset_.
Context {E : Type}.
Variables (disp : D -> res E) (none : E) (clear : D -> D).
Definition tunset tb k : res (table * E) :=
  match k, tget tb k with
  | [], _ | _, None => Ok (tb, none)
  | _, Some d =>
      ev <- disp d ;;
      if tlonely tb k then UB else Ok (if texceeded tb k then tput tb k (clear d) else tdel tb k, ev)
  end.
End Unset_.

(** ** Facts *)
Lemma starts_spec s q : starts s q = true <-> prefix s q.
Proof.
  revert q. induction s as [|x s IH]; intros [|y q]; cbn.
  - split; [intros _; apply prefix_refl|reflexivity].
  - split; [intros _; now exists (y :: q)|reflexivity].
  - split; [discriminate|]. intros (r & E). discriminate.
  - rewrite Bool.andb_true_iff, IH. split.
    + intros [Ha (r & ->)]. apply Ascii.eqb_eq in Ha. subst. now exists r.
    + intros (r & E). cbn in E. injection E as -> ->. split; [apply Ascii.eqb_refl|now exists r].
Qed.
Lemma lcp_l a b : prefix (lcp a b) a.
Proof.
  revert b. induction a as [|x a IH]; intros [|y b]; cbn; try (eexists; reflexivity). destruct (Ascii.eqb_spec x y) as [->|]; [|now exists (x :: a)].
  destruct (IH b) as (r & E). exists r. cbn. now rewrite <- E.
Qed.
Lemma lcp_r a b : prefix (lcp a b) b.
Proof.
  revert b. induction a as [|x a IH]; intros [|y b]; cbn; try (eexists; reflexivity). destruct (Ascii.eqb_spec x y) as [->|]; [|now exists (y :: b)].
  destruct (IH b) as (r & E). exists r. cbn. now rewrite <- E.
Qed.
Lemma lcp_max a b r : prefix r a -> prefix r b -> prefix r (lcp a b).
Proof.
  revert a b. induction r as [|x r IH]; intros a b; [eexists; reflexivity|]. intros (u & ->) (w & ->). cbn. rewrite Ascii.eqb_refl.
  destruct (IH (r ++ u) (r ++ w)) as (z & E); [eexists; reflexivity|eexists; reflexivity|]. exists z. cbn. now rewrite <- E.
Qed.
Lemma tget_in tb k d : NoDup (map fst tb) -> (tget tb k = Some d <-> In (k, d) tb).
Proof.
  unfold tget. induction tb as [|[q e] tb IH]; cbn; intros Hnd; [split; [discriminate|intros []]|]. apply NoDup_cons_iff in Hnd. destruct Hnd as [Hni Hnd].
  destruct (streq_spec q k) as [->|Hne].
  - cbn. split; [intros [= ->]; now left|]. intros [[= ->]|Hin]; [reflexivity|]. exfalso. apply Hni. now apply (in_map fst) in Hin.
  - rewrite IH by exact Hnd. split; [now right|]. intros [[= -> _]|]; [congruence|assumption].
Qed.
Lemma tget_none tb k : tget tb k <> None <-> In k (map fst tb).
Proof.
  unfold tget. induction tb as [|[q e] tb IH]; cbn; [tauto|]. destruct (streq_spec q k) as [->|Hne]; cbn; [split; [now left|discriminate]|]. rewrite IH. split; [now right|]. intros [?|?]; [congruence|assumption].
Qed.
Lemma tget_cons q e tb k : tget ((q, e) :: tb) k = if streq q k then Some e else tget tb k.
Proof. unfold tget. cbn. now destruct (streq q k). Qed.
Lemma tput_keys tb k d : map fst (tput tb k d) = map fst tb.
Proof. unfold tput. rewrite map_map. apply map_ext. intros [q e]. cbn. now destruct (streq_spec q k) as [->|]. Qed.
Lemma tget_tput tb k d q : tget (tput tb k d) q = if streq q k then match tget tb k with Some _ => Some d | None => None end else tget tb q.
Proof.
  unfold tput. induction tb as [|[x e] tb IH]; cbn [map]; [now destruct (streq q k)|]. cbn [fst]. destruct (streq_spec x k) as [->|Hx].
  - rewrite !tget_cons, IH, streq_refl. destruct (streq_spec k q) as [->|Hn]; [now rewrite streq_refl|]. destruct (streq_spec q k); [congruence|reflexivity].
  - rewrite !tget_cons, IH. rewrite (streq_neq x k) by exact Hx. destruct (streq_spec x q) as [->|Hn]; [|reflexivity]. now rewrite (streq_neq q k) by exact Hx.
Qed.
Lemma tget_tdel tb k q : tget (tdel tb k) q = if streq q k then None else tget tb q.
Proof.
  unfold tdel. induction tb as [|[x e] tb IH]; cbn [filter]; [now destruct (streq q k)|]. cbn [fst]. destruct (streq_spec x k) as [->|Hx]; cbn [negb].
  - rewrite IH, tget_cons. destruct (streq_spec q k) as [E|E]; [reflexivity|]. now rewrite (streq_neq k q) by congruence.
  - rewrite !tget_cons, IH. destruct (streq_spec x q) as [->|Hn]; [|reflexivity]. now rewrite (streq_neq q k) by exact Hx.
Qed.
Lemma tdel_nodup tb k : NoDup (map fst tb) -> NoDup (map fst (tdel tb k)).
Proof.
  unfold tdel. induction tb as [|[x e] tb IH]; cbn; [auto|]. intros Hnd. apply NoDup_cons_iff in Hnd. destruct Hnd as [Hni Hnd]. destruct (negb (streq x k)); [|auto]. cbn. constructor; [|auto].
  intros Hin. apply Hni. apply in_map_iff in Hin. destruct Hin as (y & <- & Hy). apply filter_In in Hy. now apply in_map.
Qed.
Lemma prefix_antisym a b : prefix a b -> prefix b a -> a = b.
Proof. intros (r & ->) (w & E). rewrite <- app_assoc in E. rewrite <- (app_nil_r a) in E at 1. apply app_inv_head in E. symmetry in E. apply app_eq_nil in E. destruct E as [-> _]. now rewrite app_nil_r. Qed.
Lemma stems_unique (T : str -> option D) k s s' : stems T k s -> stems T k s' -> s = s'.
Proof.
  assert (G : forall s s', stems T k s -> stems T k s' -> prefix s s').
  { clear. intros s s' (P1 & P2 & _) (_ & _ & P3). destruct P2 as [->|(q & Hq & Hs)]; [now exists s'|]. now apply (P3 q). }
  intros H1 H2. apply prefix_antisym; auto.
Qed.
Lemma stem_stems tb k : stems (tget tb) k (stem tb k).
Proof.
  assert (H : prefix (stem tb k) k /\ (stem tb k = [] \/ exists q, In q (map fst tb) /\ prefix (stem tb k) q) /\ forall q, In q (map fst tb) -> length (lcp q k) <= length (stem tb k)).
  { induction tb as [|[q e] tb (I1 & I2 & I3)]; cbn [stem fold_right map].
    - split; [now exists k|]. split; [now left|]. intros ? [].
    - cbn [fst]. change (fold_right _ [] tb) with (stem tb k). destruct (Nat.ltb_spec (length (stem tb k)) (length (lcp q k))) as [Hl|Hl].
      + split; [apply lcp_r|]. split; [right; exists q; split; [now left|apply lcp_l]|]. intros x [<-|Hx]; [lia|]. specialize (I3 x Hx). lia.
      + split; [exact I1|]. split; [destruct I2 as [I2|(x & Hx & Hp)]; [now left|right; exists x; split; [now right|exact Hp]]|]. intros x [<-|Hx]; auto. }
  destruct H as (H1 & H2 & H3). split; [exact H1|]. split.
  - destruct H2 as [H2|(q & Hq & Hp)]; [now left|right]. exists q. split; [now apply tget_none|exact Hp].
  - intros q r Hq Hrq Hrk. apply tget_none in Hq. apply (prefix_both (stem tb k) r k); auto. apply H3 in Hq. pose proof (prefix_length _ _ (lcp_max _ _ _ Hrq Hrk)). lia.
Qed.
Lemma lowest_spec tb s p d : NoDup (map fst tb) -> tget tb p = Some d -> prefix s p -> (forall q, tget tb q <> None -> prefix s q -> prefix p q) -> lowest tb s = Some (p, d).
Proof.
  intros Hnd Hp Hs Hall.
  assert (H : match lowest tb s with
              | Some (q, e) => In (q, e) tb /\ prefix s q /\ forall x, In x (map fst tb) -> prefix s x -> length q <= length x
              | None => forall x, In x (map fst tb) -> ~ prefix s x end).
  { clear. induction tb as [|[q e] tb IH]; cbn [lowest fold_right]; [intros ? []|]. cbn [fst]. change (fold_right _ None tb) with (lowest tb s).
    destruct (starts s q) eqn:Es.
    - apply starts_spec in Es. destruct (lowest tb s) as [[q' e']|].
      + destruct IH as (I1 & I2 & I3). cbn [fst]. destruct (Nat.ltb_spec (length q') (length q)) as [Hl|Hl].
        * split; [now right|]. split; [exact I2|]. intros x [<-|Hx] Hsx; [cbn; lia|auto].
        * split; [now left|]. split; [exact Es|]. intros x [<-|Hx] Hsx; [cbn; lia|]. specialize (I3 x Hx Hsx). lia.
      + split; [now left|]. split; [exact Es|]. intros x [<-|Hx] Hsx; [cbn; lia|]. exfalso. now apply (IH x).
    - assert (Hn : ~ prefix s q) by (rewrite <- starts_spec; congruence). destruct (lowest tb s) as [[q' e']|].
      + destruct IH as (I1 & I2 & I3). split; [now right|]. split; [exact I2|]. intros x [<-|Hx] Hsx; [contradiction|auto].
      + intros x [<-|Hx]; auto. }
  assert (Hpin : In p (map fst tb)) by (apply tget_none; congruence). destruct (lowest tb s) as [[q e]|]; [|exfalso; now apply (H p)].
  destruct H as (H1 & H2 & H3). apply (tget_in tb q e Hnd) in H1. assert (Hq : prefix p q) by (apply Hall; [congruence|exact H2]).
  destruct Hq as ([|x w] & ->); [|specialize (H3 p Hpin Hs); rewrite app_length in H3; cbn in H3; lia]. rewrite app_nil_r in *. congruence.
Qed.
Lemma longer_in tb k q : In q (longer tb k) <-> tget tb q <> None /\ proper_prefix k q.
Proof.
  unfold longer. rewrite filter_In, tget_none, Bool.andb_true_iff, Bool.negb_true_iff, starts_spec. split; intros [H1 H2]; (split; [exact H1|]).
  - destruct H2 as [([|x w] & ->) Hn]; [rewrite app_nil_r, streq_refl in Hn; discriminate|]. now exists x, w.
  - split; [now apply proper_prefix_prefix|]. apply streq_neq. intros ->. apply proper_prefix_length in H2. lia.
Qed.
Lemma texceeded_spec tb k : texceeded tb k = true <-> extended (tget tb) k.
Proof.
  unfold texceeded. split.
  - destruct (longer tb k) as [|q l] eqn:E; [discriminate|]. intros _. exists q. apply longer_in. rewrite E. now left.
  - intros (q & Hq & Hp). assert (Hin : In q (longer tb k)) by now apply longer_in. destruct (longer tb k); [destruct Hin|reflexivity].
Qed.
Lemma tlonely_spec tb k : tlonely tb k = true <-> lonely (tget tb) k.
Proof.
  unfold tlonely. rewrite existsb_exists. split.
  - intros (p & Hp & H). apply Bool.andb_true_iff in H. destruct H as [H1 H2]. rewrite forallb_forall in H2. assert (Hin : In p (map fst tb)) by exact Hp. apply tget_none in Hp.
    exists p. split; [exact Hp|]. split.
    + apply Bool.andb_true_iff in H1. destruct H1 as [H1 H3]. apply starts_spec in H1. apply Bool.negb_true_iff in H3. destruct H1 as ([|x w] & ->); [rewrite app_nil_r, streq_refl in H3; discriminate|now exists x, w].
    + intros q Hq Hpq. specialize (H2 q (proj2 (longer_in tb p q) (conj Hq Hpq))). now destruct (streq_spec q k).
  - intros (p & Hp & Hpp & Hall). exists p. split; [now apply tget_none|]. apply Bool.andb_true_iff. split.
    + apply Bool.andb_true_iff. split; [now apply starts_spec, proper_prefix_prefix|]. apply Bool.negb_true_iff, streq_neq. intros ->. apply proper_prefix_length in Hpp. lia.
    + apply forallb_forall. intros q Hq. apply longer_in in Hq. destruct Hq as [H1 H2]. rewrite (Hall q H1 H2). apply streq_refl.
Qed.

Lemma tset_ne hit nest fresh fork tb k : k <> [] -> tset hit nest fresh fork tb k =
  match tget tb k with
  | Some d => tput tb k (hit d)
  | None => if tforks tb k then (k, fresh) :: (stem tb k, fork) :: match lowest tb (stem tb k) with Some (p, d) => tput tb p (nest d) | None => tb end
            else (k, fresh) :: tb
  end.
Proof. destruct k; [congruence|reflexivity]. Qed.
Lemma tunset_ne {E} (disp : D -> res E) none clear tb k : k <> [] -> tunset disp none clear tb k =
  match tget tb k with
  | Some d => ev <- disp d ;; if tlonely tb k then UB else Ok (if texceeded tb k then tput tb k (clear d) else tdel tb k, ev)
  | None => Ok (tb, none)
  end.
Proof. destruct k; [congruence|reflexivity]. Qed.
Lemma tforks_ne tb k : k <> [] -> tforks tb k =
  match tget tb k, stem tb k with
  | Some _, _ | _, [] => false
  | None, s => negb (streq s k) && match tget tb s with Some _ => false | None => true end
  end.
Proof. destruct k; [congruence|]. unfold tforks. now destruct (tget tb (a :: k)), (stem tb (a :: k)). Qed.

(** ** The tree and the table *)
Definition shows (h : hsl (node D)) tb : Prop := inv h /\ NoDup (map fst tb) /\ forall q, look h q = tget tb q.
Lemma shows_empty : shows hs_empty [].
Proof. split; [apply inv_empty|]. split; [constructor|]. intros q. apply look_empty. Qed.

Lemma gset_shows (hit nest : option D -> D) fresh fork h tb k :
  shows h tb -> exists h', gset hit nest fresh fork (length k) h k = Ok h' /\ shows h' (tset (fun d => hit (Some d)) (fun d => nest (Some d)) fresh fork tb k).
Proof.
  intros (Hv & Hnd & Hl). destruct k as [|c k]; [exists h; split; [reflexivity|split; auto]|].
  destruct (gset_spec hit nest fresh fork (length (c :: k)) h (c :: k) Hv (le_n _) ltac:(discriminate)) as (h' & s & E & Hv' & Hst & Hp).
  exists h'. split; [exact E|]. split; [exact Hv'|]. set (K := c :: k) in *.
  assert (HK : K <> []) by discriminate.
  assert (Hs : s = stem tb K).
  { apply (stems_unique (tget tb) K); [|apply stem_stems]. destruct Hst as (S1 & S2 & S3). split; [exact S1|]. split.
    - destruct S2 as [S2|(q & Hq & Hp')]; [now left|right; exists q; now rewrite <- Hl].
    - intros q r Hq. rewrite <- Hl in Hq. now apply S3. }
  assert (Hin : forall q, tget tb q = None -> ~ In q (map fst tb)) by (intros q Hq Hx; apply tget_none in Hx; congruence).
  rewrite tset_ne by exact HK. clearbody K. destruct Hp as [(d & Ed & Hp)|[(Ed & B & Hp)|(Ed & B1 & B2 & B3 & p & d & Ep & Hsp & Hm & Hp)]]; rewrite Hl in Ed; rewrite Ed.
  - split; [now rewrite tput_keys|]. intros q. rewrite Hp, tget_tput, Ed, Hl. reflexivity.
  - assert (F : tforks tb K = false).
    { rewrite tforks_ne, Ed, <- Hs by exact HK. destruct s as [|x s]; [reflexivity|]. cbv zeta. destruct B as [B|[B|B]]; [discriminate|destruct (streq_spec (x :: s) K); [reflexivity|contradiction]|].
      rewrite Hl in B. destruct (tget tb (x :: s)); [now rewrite Bool.andb_false_r|congruence]. }
    rewrite F. split; [cbn; constructor; [now apply Hin|exact Hnd]|]. intros q. rewrite Hp, tget_cons, Hl.
    destruct (streq_spec q K) as [->|Hn]; [now rewrite streq_refl|]. now rewrite (streq_neq K q) by congruence.
  - assert (F : tforks tb K = true).
    { rewrite tforks_ne, Ed, <- Hs by exact HK. destruct s as [|x s]; [congruence|]. cbv zeta. rewrite <- Hl, B3. rewrite (streq_neq (x :: s) K) by exact B2. reflexivity. }
    rewrite F. rewrite Hl in Ep, B3. rewrite <- Hs. rewrite (lowest_spec tb s p d Hnd Ep Hsp) by (intros q Hq; rewrite <- Hl in Hq; now apply Hm). split.
    + cbn [map fst]. rewrite tput_keys. constructor; [|constructor; [now apply Hin|exact Hnd]]. intros [H|H]; [congruence|]. revert H. now apply Hin.
    + intros q. rewrite Hp, !tget_cons, tget_tput, Ep, Hl. destruct (streq_spec q K) as [->|Hn]; [now rewrite streq_refl|]. rewrite (streq_neq K q) by congruence.
      destruct (streq_spec q s) as [->|Hn']; [now rewrite streq_refl|]. now rewrite (streq_neq s q) by congruence.
Qed.

Lemma gunset_shows {E} (disp : option D -> res E) none clear h tb k : shows h tb ->
  match gunset disp none clear (length k) true h k, tunset (fun d => disp (Some d)) none (fun d => clear (Some d)) tb k with
  | Ok (h', ev), Ok (tb', ev') => ev = ev' /\ shows h' tb'
  | UB, UB => True
  | NoFuel, NoFuel => True
  | _, _ => False
  end.
Proof.
  intros (Hv & Hnd & Hl). destruct k as [|c k]; [cbn; split; [reflexivity|split; auto]|]. set (K := c :: k).
  pose proof (gunset_spec disp none clear (length K) h K true Hv (le_n _) ltac:(discriminate)) as H. unfold gunset_post in H.
  rewrite Hl in H. rewrite tunset_ne by discriminate. clearbody K.
  destruct (tget tb K) as [d|] eqn:Ed; [|rewrite H; split; [reflexivity|split; auto]].
  destruct (disp (Some d)) as [ev| |]; cbn [bind]; [|now rewrite H|now rewrite H].
  assert (Hlo : lonely_at true (look h) K <-> tlonely tb K = true).
  { rewrite tlonely_spec. split.
    - intros [(p & P1 & P2 & P3)|[? _]]; [|discriminate]. exists p. rewrite <- Hl. split; [exact P1|]. split; [exact P2|]. intros q Hq. rewrite <- Hl in Hq. now apply P3.
    - intros (p & P1 & P2 & P3). left. exists p. rewrite Hl. split; [exact P1|]. split; [exact P2|]. intros q Hq. rewrite Hl in Hq. now apply P3. }
  destruct H as [[H1 ->]|(H1 & h' & -> & Hv' & b & Hb & Hr)].
  - now rewrite (proj1 Hlo H1).
  - destruct (tlonely tb K); [exfalso; now apply H1, Hlo|]. split; [reflexivity|]. assert (Hx : texceeded tb K = b).
    { assert (G : extended (look h) K <-> extended (tget tb) K) by (split; intros (q & Hq & Hp); exists q; [rewrite <- Hl|rewrite Hl]; auto).
      pose proof (texceeded_spec tb K) as Ht. rewrite <- G, <- Hb in Ht. destruct (texceeded tb K), b; try reflexivity; [symmetry; now apply Ht|now apply Ht]. }
    rewrite Hx. split; [exact Hv'|]. destruct b.
    + split; [now rewrite tput_keys|]. intros q. now rewrite Hr, tget_tput, Ed, Hl.
    + split; [now apply tdel_nodup|]. intros q. now rewrite Hr, tget_tdel, Hl.
Qed.
Lemma gget_shows h tb k : shows h tb -> get_sub (length k) h k = Ok (tget tb k).
Proof. intros (_ & _ & Hl). rewrite <- Hl. now apply get_sub_look. Qed.
Lemma shows_ents h tb : shows h tb -> Permutation (ents (hitems h)) tb.
Proof.
  intros ((Hw & _) & Hnd & Hl). apply NoDup_Permutation.
  - apply (NoDup_map_inv fst), ents_nodup, Hw.
  - now apply (NoDup_map_inv fst).
  - intros [q d]. rewrite ents_look by exact Hw. rewrite Hl. now apply tget_in.
Qed.
End Table.
