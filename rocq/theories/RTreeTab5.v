(** Which values the string dictionaries release and which they lose, for every history. *)
From Coq Require Import Permutation.
From Verif Require Import CStr CStrFacts HSListModel HSListFacts RTreeModel RTreeFacts RTreeFacts2 RTreeFacts3 RTreeFacts4 OwnModel OwnFacts OwnFacts2 OwnFacts3 OwnFacts4 OwnFacts5
  MDictFacts MDictSpec RTreeTab RTreeTab2 RTreeTab3 RTreeTab4.

Section Machine.
Context {V : Type}.
Notation cell := (option V * bool)%type.
Notation ytable := (list (str * cell)).
Implicit Types (tb : ytable) (k p q : str) (d : option V).

Definition y_vals tb : list V := map snd (y_pairs tb).
(** The values that setting the new key [k] loses. *)
Definition y_lost tb k : list V :=
  match tget tb k with
  | Some _ => []
  | None =>
      match tget tb (stem tb k) with
      | Some _ => []
      | None =>
          if streq (stem tb k) k then
            match tget tb (parent tb k) with
            | Some (_, true) => y_vals (filter (fun e => inside (parent tb k) k (fst e)) tb)
            | _ => []
            end
          else []
      end
  end.
(** The values that removing [k] destroys. *)
Definition y_gone tb k : list V :=
  match k with
  | [] => []
  | _ => match tget tb k with
         | Some (_, true) => y_vals (filter (fun e => starts k (fst e)) tb)
         | Some (d, false) => olist d
         | None => []
         end
  end.
(** The calls on tables: what each does to values, and what it loses. *)
Definition w_set kd (ctor : option V -> option V) tb own k d : res (ytable * effect V * list V) :=
  let d' := stored kd ctor d in
  Ok (fst (y_set tb k d'), mkE (added kd own d') (map Some (olist (y_get tb k))) None, match k with [] => olist d' | _ => y_lost tb k end).
(** The key that a set with the length [m] uses. *)
Definition w_key kd tb k (m : nat) : str :=
  match firstn m k with [] => [] | K => used kd (tget tb) k K (stem tb K) end.
Definition w_step kd (ctor : option V -> option V) tb (o : oop V) : res (ytable * effect V * list V) :=
  match o with
  | OSet own k d => w_set kd ctor tb own k d
  | OSetN own k m d => if m <=? length k then w_set kd ctor tb own (w_key kd tb k m) d else UB
  | OGet own k => Ok (tb, mkE (added kd own (y_get tb k)) [] (y_get tb k), [])
  | OUnset k => tb' <- y_unset tb k ;; Ok (tb', mkE [] (map Some (y_gone tb k)) None, [])
  | OClear => Ok (y_new, mkE [] (map Some (y_vals tb)) None, [])
  end.
Fixpoint w_run kd ctor tb (os : list (oop V)) : res (ytable * list (effect V) * list V) :=
  match os with
  | [] => Ok (tb, [], [])
  | o :: r => a <- w_step kd ctor tb o ;; b <- w_run kd ctor (fst (fst a)) r ;; Ok (fst (fst b), snd (fst a) :: snd (fst b), snd a ++ snd b)
  end.
Definition same_values (e e' : effect V) : Prop :=
  e_added e = e_added e' /\ e_result e = e_result e' /\ Permutation (flat_map olist (e_destroyed e)) (flat_map olist (e_destroyed e')).
Definition covered kd (o : oop V) : Prop := kd = Objects \/ o <> OClear.

(** ** Counting on tables *)
Lemma y_pairs_cons q d (w : bool) tb : y_vals ((q, (d, w)) :: tb) = olist d ++ y_vals tb.
Proof. unfold y_vals, y_pairs. cbn [flat_map fst snd]. rewrite map_app. now destruct d. Qed.
Lemma y_vals_filter (f : str -> bool) tb : Permutation (y_vals tb) (y_vals (filter (fun e => negb (f (fst e))) tb) ++ y_vals (filter (fun e => f (fst e)) tb)).
Proof.
  induction tb as [|[q [d w]] tb IH]; [reflexivity|]. cbn [filter fst]. destruct (f q); cbn [negb]; rewrite !y_pairs_cons, IH.
  - apply Permutation_app_swap_app.
  - now rewrite app_assoc.
Qed.
Lemma ok_same {A} (x y : A) : Ok x = Ok y -> x = y.
Proof. congruence. Qed.
Lemma tput_absent tb k c : ~ In k (map fst tb) -> tput tb k c = tb.
Proof.
  induction tb as [|[q e] tb IH]; [reflexivity|]. intros H. unfold tput in *. cbn [map fst]. cbn [map fst In] in H. rewrite streq_neq by (intros ->; apply H; now left). f_equal. apply IH. tauto.
Qed.
Lemma y_vals_tput tb k d d0 (w w0 : bool) : NoDup (map fst tb) -> tget tb k = Some (d0, w0) -> Permutation (olist d0 ++ y_vals (tput tb k (d, w))) (olist d ++ y_vals tb).
Proof.
  induction tb as [|[q [d1 w1]] tb IH]; [discriminate|]. cbn [map fst]. intros Hnd E. apply NoDup_cons_iff in Hnd. destruct Hnd as [Hni Hnd]. rewrite tget_cons in E. unfold tput. cbn [map fst].
  change (map _ tb) with (tput tb k (d, w)). destruct (streq_spec q k) as [->|Hn].
  - injection E as -> ->. rewrite tput_absent by exact Hni. rewrite !y_pairs_cons. apply Permutation_app_swap_app.
  - rewrite !y_pairs_cons. rewrite Permutation_app_swap_app, (IH Hnd E). apply Permutation_app_swap_app.
Qed.
Lemma y_vals_tput_same tb k d (w w0 : bool) : NoDup (map fst tb) -> tget tb k = Some (d, w0) -> Permutation (y_vals (tput tb k (d, w))) (y_vals tb).
Proof. intros Hnd E. apply (Permutation_app_inv_l (olist d)). exact (y_vals_tput tb k d d w w0 Hnd E). Qed.

Lemma y_set_count h tb k d : oshows h tb -> k <> [] -> Permutation (y_vals (fst (y_set tb k d)) ++ olist (y_get tb k) ++ y_lost tb k) (olist d ++ y_vals tb).
Proof.
  intros (Hw & Hnd & Hl) Hk. rewrite y_set_ne by exact Hk. unfold y_get, y_lost. destruct (tget tb k) as [[d0 w]|] eqn:Ek.
  - cbn [fst]. rewrite app_nil_r, Permutation_app_comm. exact (y_vals_tput tb k d d0 w w Hnd Ek).
  - cbn [olist app]. cbv zeta. cbn [fst]. destruct (tget tb (stem tb k)) eqn:Es.
    + now rewrite y_pairs_cons, app_nil_r.
    + destruct (streq_spec (stem tb k) k) as [E|Hn].
      * destruct (set_cells (length k) h k d None Hw (le_n _) Hk) as (h' & b & _ & _ & Hs).
        assert (Hp : exists c, tget tb (parent tb k) = Some c).
        { destruct Hs as [(d1 & w & E1 & _)|(_ & _ & s & Hst & Hs)]; [rewrite Hl in E1; congruence|].
          apply (stems_ext _ (tget tb)) in Hst; [|exact Hl]. assert (s = k) as -> by (rewrite <- E; apply (stems_unique (tget tb) k); [exact Hst|apply stem_stems]).
          destruct Hs as [(E1 & _)|[(_ & p & dp & wp & Hb & Ep & _)|(E1 & _)]]; [rewrite Hl in E1; congruence| |congruence].
          apply (base_ext _ (tget tb)) in Hb; [|exact Hl]. rewrite (parent_base tb k p Hb). rewrite <- Hl, Ep. eauto. }
        destruct Hp as ([dp wp] & Ep). rewrite Ep, y_pairs_cons. set (p := parent tb k) in *. destruct wp.
        -- rewrite <- app_assoc. apply Permutation_app_head. rewrite (y_vals_filter (fun x => inside p k x) tb). apply Permutation_app_tail.
           apply (y_vals_tput_same _ p dp false true); [now apply (filter_nodup (fun x => negb (inside p k x)))|]. rewrite (tget_filter (fun x => negb (inside p k x))), inside_p. exact Ep.
        -- rewrite app_nil_r. apply Permutation_app_head. exact (y_vals_tput_same _ p dp false false Hnd Ep).
      * now rewrite !y_pairs_cons, app_nil_r.
Qed.
Lemma y_unset_count h tb k tb' : oshows h tb -> y_unset tb k = Ok tb' -> Permutation (y_vals tb' ++ y_gone tb k) (y_vals tb).
Proof.
  intros (Hw & Hnd & Hl) E. destruct k as [|c k]; [apply ok_same in E; subst; now rewrite app_nil_r|]. set (K := c :: k) in *. assert (HK : K <> []) by discriminate.
  assert (Eg : y_gone tb K = match tget tb K with
         | Some (_, true) => y_vals (filter (fun e => starts K (fst e)) tb)
         | Some (d, false) => olist d
         | None => []
         end) by reflexivity.
  rewrite Eg. clear Eg. clearbody K. rewrite y_unset_ne in E by exact HK. destruct (tget tb K) as [[d w]|] eqn:Ek; [|apply ok_same in E; subst; now rewrite app_nil_r].
  pose proof (unset_cells (length K) h K None true Hw (le_n _) HK) as H. unfold unsets in H. rewrite Hl, Ek in H. destruct H as (p & dp & wp & wp' & Hb & Ep & _).
  apply (base_ext _ (tget tb)) in Hb; [|exact Hl]. cbv zeta in E. rewrite (parent_base tb K p Hb) in E. rewrite Hl in Ep. rewrite Ep in E.
  destruct (_ && _); [discriminate|]. apply ok_same in E. subst tb'.
  assert (HpK : p <> K) by (destruct Hb as (_ & Hp & _); intros ->; apply proper_prefix_length in Hp; lia).
  assert (HsK : starts K p = false) by (destruct (starts K p) eqn:Es; [|reflexivity]; apply starts_spec, prefix_length in Es; destruct Hb as (_ & Hp & _); apply proper_prefix_length in Hp; lia).
  destruct w.
  - rewrite (y_vals_filter (fun x => starts K x) tb). apply Permutation_app_tail. eapply y_vals_tput_same; [now apply (filter_nodup (fun x => negb (starts K x)))|].
    rewrite (tget_filter (fun x => negb (starts K x))), HsK. exact Ep.
  - rewrite (y_vals_tput_same _ p dp _ wp); [|now rewrite tput_keys|rewrite tget_tput, Ek, (streq_neq p K) by exact HpK; exact Ep].
    rewrite Permutation_app_comm. exact (y_vals_tput tb K None d false false Hnd Ek).
Qed.

(** ** Dictionaries and tables *)
Definition wshows (s : odict V) tb : Prop := oshows (o_root s) tb /\ o_dead s = false.
Lemma wshows_shows s tb k : wshows s tb -> OwnFacts3.shows s k = y_get tb k.
Proof. intros (H & Hd). unfold OwnFacts3.shows. now rewrite Hd, (get_oshows _ _ k H). Qed.
Lemma wshows_vals s tb : wshows s tb -> Permutation (OwnFacts.vals (hitems (o_root s))) (y_vals tb).
Proof. intros (H & _). apply Permutation_map. exact (pairs_oshows _ _ H). Qed.
Lemma live_live (s : odict V) k : o_dead s = false -> live s k = true.
Proof. intros H. unfold live. rewrite H. now destruct k. Qed.
Lemma somes_map (l : list V) : flat_map olist (map Some l) = l.
Proof. induction l; cbn; [reflexivity|now f_equal]. Qed.

Lemma set_n_used kd ctor s tb own k m d : wshows s tb -> m <= length k ->
  o_step kd ctor s (OSetN own k m d) = o_step kd ctor s (OSet own (w_key kd tb k m) d).
Proof.
  intros ((Hw & _ & Hl) & Hd) Hm. cbn [o_step]. unfold o_set. rewrite (proj2 (Nat.leb_le _ _) Hm), Nat.leb_refl, !(live_live s) by exact Hd. cbn [andb]. unfold w_key.
  destruct m as [|m]; [reflexivity|]. destruct k as [|c k]; [cbn in Hm; lia|].
  destruct (own_set_n_used kd (S m) (o_root s) (c :: k) (S m) (match kd with Objects => d | Plain _ => ctor d end) None Hw ltac:(lia) Hm (le_n _)) as (x & Hst & E).
  assert (Ex : stem tb (firstn (S m) (c :: k)) = x) by (apply (stems_unique (tget tb) (firstn (S m) (c :: k))); [apply stem_stems|now apply (stems_ext (cells None (o_root s)))]).
  rewrite E. cbv zeta. cbn [firstn] in *. rewrite Ex. unfold used. now rewrite !Hl.
Qed.
Lemma w_set_shows kd ctor s tb own k d : owning kd -> wshows s tb ->
  match o_step kd ctor s (OSet own k d), w_set kd ctor tb own k d with
  | Ok (s', e), Ok (tb', e', lost) => wshows s' tb' /\ same_values e e' /\ Permutation (y_vals tb' ++ somes (e_destroyed e') ++ lost) (olist (stored kd ctor d) ++ y_vals tb)
  | UB, UB => True
  | _, _ => False
  end.
Proof.
  intros Ho (Ht & Hd).
  pose proof (set_exact kd ctor s own k d) as Hx. cbn [o_step] in *. unfold w_set. unfold o_set in *. rewrite Nat.leb_refl, (live_live _ _ Hd) in *. cbn [andb] in *. fold (stored kd ctor d) in *.
    destruct (set_oshows _ _ k (stored kd ctor d) Ht) as (h' & E & Ht'). pose proof (own_set_tree kd Ho (length k) (o_root s) k (stored kd ctor d)) as T. rewrite E in T.
    destruct (own_set kd (length k) (o_root s) k (length k) (stored kd ctor d)) as [[h2 ev]| |] eqn:Eo; cbn in T; try discriminate. injection T as ->.
    cbn [bind fst snd] in *. specialize (Hx _ _ eq_refl Hd). rewrite (wshows_shows s tb k (conj Ht Hd)) in Hx. cbn [e_destroyed] in *.
    split; [split; [exact Ht'|exact Hd]|]. split.
    + split; [reflexivity|]. split; [reflexivity|]. cbn [e_destroyed]. rewrite Hx. now rewrite somes_map.
    + unfold somes. rewrite somes_map. destruct k as [|c k].
      * cbn [y_set fst]. assert (y_get tb [] = None) as ->. { unfold y_get. destruct Ht as (_ & _ & Hl). now rewrite <- Hl. } cbn. apply Permutation_app_comm.
      * exact (y_set_count (o_root s) tb (c :: k) (stored kd ctor d) Ht ltac:(discriminate)).
Qed.
Lemma w_step_shows kd ctor s tb o : owning kd -> covered kd o -> wshows s tb ->
  match o_step kd ctor s o, w_step kd ctor tb o with
  | Ok (s', e), Ok (tb', e', lost) => wshows s' tb' /\ same_values e e' /\ Permutation (y_vals tb' ++ somes (e_destroyed e') ++ lost) (given1 kd ctor o ++ y_vals tb)
  | UB, UB => True
  | _, _ => False
  end.
Proof.
  intros Ho Hc Hs. destruct Hs as (Ht & Hd). destruct o as [own k d|own k m d|own k|k|].
  - exact (w_set_shows kd ctor s tb own k d Ho (conj Ht Hd)).
  - destruct (Nat.leb_spec m (length k)) as [L|L].
    + rewrite (set_n_used kd ctor s tb own k m d (conj Ht Hd) L). cbn [w_step given1]. rewrite (proj2 (Nat.leb_le _ _) L). exact (w_set_shows kd ctor s tb own (w_key kd tb k m) d Ho (conj Ht Hd)).
    + cbn [o_step w_step]. unfold o_set. rewrite (proj2 (Nat.leb_gt _ _) L). exact I.
  - cbn [o_step w_step]. rewrite (live_live _ _ Hd), (get_oshows _ _ k Ht). cbn [bind]. split; [split; auto|]. split; [split; [reflexivity|split; reflexivity]|]. cbn. now rewrite app_nil_r.
  - cbn [o_step w_step]. rewrite (live_live _ _ Hd). pose proof (unset_oshows _ _ k Ht) as H. pose proof (own_unset_tree kd Ho (length k) true (o_root s) k) as T.
    destruct (own_unset kd (length k) true (o_root s) k) as [[h2 ev]| |] eqn:Eo; cbn [rmap bind] in T; rewrite <- T in H; destruct (y_unset tb k) as [tb'| |] eqn:Ey; cbn [bind fst snd] in *; try contradiction; [|exact I].
    assert (Hs' : wshows (mkO h2 (o_dead s)) tb') by (split; [exact H|exact Hd]). split; [exact Hs'|].
    pose proof (y_unset_count _ _ _ _ Ht Ey) as Hcnt. split.
    + split; [reflexivity|]. split; [reflexivity|]. cbn [e_destroyed]. rewrite somes_map. destruct (own_unset_full kd _ k h2 ev true Ho (proj1 Ht) Eo) as (_ & Hp).
      apply (Permutation_app_inv_l (y_vals tb')). rewrite Hcnt. rewrite <- (wshows_vals _ _ Hs'). cbn [o_root]. unfold somes in Hp. rewrite Hp. apply wshows_vals. split; auto.
    + cbn [e_destroyed given1]. unfold somes. rewrite somes_map, app_nil_r. exact Hcnt.
  - destruct Hc as [->|Hc]; [|congruence]. cbn [o_step w_step]. unfold o_clear. rewrite Hd. split; [split; [apply oshows_new|reflexivity]|]. split.
    + split; [reflexivity|]. split; [reflexivity|]. cbn [e_destroyed]. rewrite somes_map. fold (somes (list_destroy Objects (o_root s))). rewrite list_destroy_somes by discriminate. apply wshows_vals. split; auto.
    + cbn [e_destroyed given1]. unfold somes. rewrite somes_map, app_nil_r. reflexivity.
Qed.
Lemma w_run_shows kd ctor : owning kd -> forall os s tb, Forall (covered kd) os -> wshows s tb ->
  match o_run kd ctor s os, w_run kd ctor tb os with
  | Ok (s', es), Ok (tb', es', lost) => wshows s' tb' /\ Forall2 same_values es es' /\ Permutation (y_vals tb' ++ destroyed es ++ lost) (given kd ctor os ++ y_vals tb)
  | UB, UB => True
  | _, _ => False
  end.
Proof.
  intros Ho. induction os as [|o os IH]; intros s tb Hc Hs; cbn [o_run w_run].
  - split; [exact Hs|]. split; [constructor|]. cbn. now rewrite app_nil_r.
  - apply Forall_cons_iff in Hc. destruct Hc as [Hc1 Hc]. pose proof (w_step_shows kd ctor s tb o Ho Hc1 Hs) as H.
    destruct (o_step kd ctor s o) as [[s1 e]| |], (w_step kd ctor tb o) as [[[tb1 e'] lost]| |]; cbn [bind fst snd]; try contradiction; [|exact I]. destruct H as (Hs1 & He & Hp).
    specialize (IH s1 tb1 Hc Hs1). destruct (o_run kd ctor s1 os) as [[s2 es]| |], (w_run kd ctor tb1 os) as [[[tb2 es'] lost2]| |]; cbn [bind fst snd]; try contradiction; [|exact I].
    destruct IH as (Hs2 & Hes & Hp2). split; [exact Hs2|]. split; [now constructor|]. rewrite destroyed_cons. unfold given in *. cbn [flat_map].
    destruct He as (_ & _ & He). fold (somes (e_destroyed e)) in He. fold (somes (e_destroyed e')) in He. rewrite He.
    rewrite <- !app_assoc, (Permutation_app_swap_app (given1 kd ctor o)), <- Hp. rewrite (app_assoc _ (y_vals tb1)), <- Hp2, <- !app_assoc. apply Permutation_app_head.
    rewrite (Permutation_app_swap_app (somes (e_destroyed e'))). apply Permutation_app_head. rewrite (Permutation_app_swap_app lost2). apply Permutation_app_head. apply Permutation_app_comm.
Qed.
Lemma w_run_exact kd ctor (os : list (oop V)) : kd <> Plain false -> Forall (covered kd) os ->
  match o_run kd ctor o_create os, w_run kd ctor y_new os with
  | Ok (s, es), Ok (tb, es', lost) =>
      Forall2 same_values es es' /\
      exists ev, o_destroy kd s = Ok ev /\ Permutation (flat_map olist ev) (y_vals tb) /\ Permutation (destroyed es ++ flat_map olist ev ++ lost) (given kd ctor os)
  | UB, UB => True
  | _, _ => False
  end.
Proof.
  intros Ho Hc. pose proof (w_run_shows kd ctor Ho os o_create y_new Hc (conj oshows_new eq_refl)) as H.
  destruct (o_run kd ctor o_create os) as [[s es]| |], (w_run kd ctor y_new os) as [[[tb es'] lost]| |]; try exact H. destruct H as (Hs & He & Hp). split; [exact He|].
  exists (list_destroy kd (o_root s)). unfold o_destroy. rewrite (proj2 Hs). split; [reflexivity|]. fold (somes (list_destroy kd (o_root s))). rewrite list_destroy_somes by exact Ho.
  pose proof (wshows_vals _ _ Hs) as Hv. split; [exact Hv|]. rewrite Hv, Permutation_app_swap_app, Hp. unfold y_vals at 1. cbn. now rewrite app_nil_r.
Qed.
End Machine.
