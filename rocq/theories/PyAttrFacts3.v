(** Attributes of Python objects: counted memory against the specification, part 2:
    every operation. *)
From Verif Require Import CStr CStrFacts CountMem CountMemFacts PyAttrModel PyAttrSpec PyAttrFacts1 PyAttrFacts2.

Section Facts.
Context {V : Type}.
Variable blank : vtype -> V.
Notation mem := (mem (pbody V)).
Notation Inv := (Inv kids (@rank V)).
Implicit Types (m : mem) (g : list tag) (w : world V) (ca : list (kind * slots)) (s : state V).

Definition vfit g (x : option nat) (y : option ivar) : Prop :=
  match x, y with
  | None, None => True
  | Some a, Some (IVal t v) => nth_error g a = Some (GPy t v)
  | Some a, Some (IObj n) => nth_error g a = Some (GWrap n)
  | _, _ => False
  end.
Definition addrs (vs : list (option nat)) : list nat := flat_map oo vs.
Definition extra ca : list nat := flat_map (fun kc => opts (snd kc) (lostattrs (fst kc))) ca.
Record SimG s w g ca (A : list nat) : Prop := mkSim {
  g_len : length g = length (s_mem s);
  g_typ : Typed (at_ (s_mem s)) g w ca;
  g_inv : Inv (s_mem s) (addrs (s_vars s) ++ A ++ extra ca);
  g_var : Forall2 (vfit g) (s_vars s) (w_vars w);
  g_lost : length A = w_lost w;
  g_A : forall a, In a A -> exists t v, nth_error g a = Some (GPy t v) }.
Definition Sim s w : Prop := exists g ca A, SimG s w g ca A.

Lemma vfit_mono g e x y : vfit g x y -> vfit (g ++ e) x y.
Proof. destruct x, y as [[]|]; cbn; auto using (@nth_app_old tag). Qed.
Lemma vars_mono g e vs ws : Forall2 (vfit g) vs ws -> Forall2 (vfit (g ++ e)) vs ws.
Proof. induction 1; constructor; auto using vfit_mono. Qed.
Lemma A_mono g e A : (forall a, In a A -> exists t v, nth_error g a = Some (GPy t v)) -> forall a, In a A -> exists t v, nth_error (g ++ e) a = Some (GPy t v).
Proof. intros H a Ha. destruct (H a Ha) as (t & v & E). exists t, v. apply nth_app_old. exact E. Qed.
Lemma addrs_app vs x : addrs (vs ++ [x]) = addrs vs ++ oo x.
Proof. unfold addrs. rewrite flat_map_app. cbn. rewrite app_nil_r. reflexivity. Qed.
Lemma Forall2_snoc {A B} (P : A -> B -> Prop) l l' x y : Forall2 P l l' -> P x y -> Forall2 P (l ++ [x]) (l' ++ [y]).
Proof. intros H Hx. apply Forall2_app; [exact H|]. constructor; [exact Hx|constructor]. Qed.
Lemma F2_length {A B} (P : A -> B -> Prop) l l' : Forall2 P l l' -> length l = length l'.
Proof. induction 1; cbn; auto. Qed.
Lemma Sim_bind m vs a g w ca A iv : length g = length m -> Typed (at_ m) g w ca -> Inv m (a :: addrs vs ++ A ++ extra ca) ->
  Forall2 (vfit g) vs (w_vars w) -> length A = w_lost w -> (forall a, In a A -> exists t v, nth_error g a = Some (GPy t v)) ->
  vfit g (Some a) (Some iv) ->
  exists s', Ok (bind_var m vs a, OVar (length vs)) = Ok (s', snd (new_var w iv)) /\ Sim s' (fst (new_var w iv)).
Proof.
  intros Lg T I F LA HA Hv. exists (bind_var m vs a). split.
  - cbn. rewrite (F2_length _ _ _ F). reflexivity.
  - exists g, ca, A. constructor; cbn; auto.
    + apply (T_world _ g w); [reflexivity|reflexivity|reflexivity|exact T].
    + eapply Inv_perm; [|exact I]. intros q. rewrite addrs_app, occ_cons, !occ_app. cbn [oo]. rewrite occ_cons. cbn. lia.
    + apply Forall2_snoc; assumption.
Qed.
Lemma var_cases s w g ca A x : SimG s w g ca A ->
  (var s x = None /\ wvar w x = None) \/
  (exists a t v, var s x = Some a /\ wvar w x = Some (IVal t v) /\ nth_error g a = Some (GPy t v) /\ In a (addrs (s_vars s))) \/
  (exists a n, var s x = Some a /\ wvar w x = Some (IObj n) /\ nth_error g a = Some (GWrap n) /\ In a (addrs (s_vars s))).
Proof.
  intros G. pose proof (g_var _ _ _ _ _ G) as F. unfold var, wvar. revert x. induction F as [|y z ys zs Hyz F IH]; intros x.
  - left. destruct x; auto.
  - destruct x as [|x]; cbn.
    + destruct y as [a|], z as [[t v|n]|]; cbn in Hyz; try contradiction; cbn.
      * right. left. exists a, t, v. auto.
      * right. right. exists a, n. auto.
      * auto.
    + destruct (IH x) as [H|[(a & t & v & H1 & H2 & H3 & H4)|(a & n & H1 & H2 & H3 & H4)]]; [auto| |].
      * right. left. exists a, t, v. split; [exact H1|]. split; [exact H2|]. split; [exact H3|]. apply in_or_app. auto.
      * right. right. exists a, n. split; [exact H1|]. split; [exact H2|]. split; [exact H3|]. apply in_or_app. auto.
Qed.

(** ** What the addresses of a program hold *)
Lemma at_val m g w ca R a t v : Typed (at_ m) g w ca -> Inv m R -> In a R -> nth_error g a = Some (GPy t v) ->
  exists c x, at_ m a = Some (PyVal t c) /\ nth_error g c = Some (GVal v) /\ at_ m c = Some (CVal x) /\ nth_error (w_vals w) v = Some x.
Proof.
  intros T I Ha Hg. destruct (root_live _ _ _ _ _ I Ha) as [b Hb]. destruct (t_fit _ _ _ _ T _ _ Hb) as (t' & Ht & K).
  rewrite Hg in Ht. injection Ht as <-. cbn in K. destruct b as [| |t' c|]; try contradiction. destruct K as [-> Hc].
  destruct (kid_live _ _ _ _ _ _ c I Hb (or_introl eq_refl)) as [d Hd]. destruct (t_fit _ _ _ _ T _ _ Hd) as (t' & Ht & K).
  rewrite Hc in Ht. injection Ht as <-. cbn in K. destruct d as [x| | |]; try contradiction. eauto 8.
Qed.
Lemma at_obj m g w ca R a n : Typed (at_ m) g w ca -> Inv m R -> In a R -> nth_error g a = Some (GWrap n) ->
  exists k c cache o Rm f F, at_ m a = Some (PyObj k c cache) /\ nth_error (w_wraps w) n = Some (k, o, Rm) /\ nth_error ca n = Some (k, cache) /\
    same g is_py cache Rm /\ (is_comps k = false -> forall a, by_lang a = false -> cache a = None) /\
    nth_error g c = Some (GObj o) /\ at_ m c = Some (CObj k f) /\ nth_error (w_objs w) o = Some (k, F) /\ same g is_val f F /\ full k f.
Proof.
  intros T I Ha Hg. destruct (root_live _ _ _ _ _ I Ha) as [b Hb]. destruct (t_fit _ _ _ _ T _ _ Hb) as (t' & Ht & K).
  rewrite Hg in Ht. injection Ht as <-. cbn in K. destruct b as [| | |k c cache]; try contradiction. destruct K as (o & Rm & K1 & K2 & K3).
  destruct (t_rem _ _ _ _ T _ _ _ _ K1) as ((cache' & C1 & C2 & C3) & F' & Ho). rewrite K3 in C1. injection C1 as <-.
  destruct (kid_live _ _ _ _ _ _ c I Hb) as [d Hd]; [cbn; apply in_or_app; right; left; reflexivity|].
  destruct (t_fit _ _ _ _ T _ _ Hd) as (t' & Ht & K). rewrite K2 in Ht. injection Ht as <-. cbn in K. destruct d as [|k' f| |]; try contradiction.
  destruct K as (F & K4 & K5 & K6). assert (k' = k) by congruence. subst k'. exists k, c, cache, o, Rm, f, F. auto 12.
Qed.
Lemma in_opts (f : slots) a l x : In a l -> f a = Some x -> In x (opts f l).
Proof. intros Ha Hs. unfold opts. apply in_flat_map. exists a. split; [exact Ha|]. rewrite Hs. left. reflexivity. Qed.
Lemma at_field m g w ca R c k f F a y : Typed (at_ m) g w ca -> Inv m R -> at_ m c = Some (CObj k f) -> same g is_val f F -> In a (fields k) -> f a = Some y ->
  exists v x, F a = Some v /\ nth_error g y = Some (GVal v) /\ at_ m y = Some (CVal x).
Proof.
  intros T I Hc S Ha Hf. specialize (S a). rewrite Hf in S. destruct (F a) as [v|] eqn:E; [|contradiction].
  destruct (kid_live _ _ _ _ _ _ y I Hc) as [b Hb]; [cbn; eapply in_opts; eassumption|].
  destruct (t_fit _ _ _ _ T _ _ Hb) as (t & Ht & K). unfold is_val in S. rewrite S in Ht. injection Ht as <-. cbn in K. destruct b; try contradiction. eauto 6.
Qed.
Lemma extra_in ca n k cache x : nth_error ca n = Some (k, cache) -> In x (opts cache (lostattrs k)) -> In x (extra ca).
Proof. intros H K. unfold extra. apply in_flat_map. exists (k, cache). split; [eapply nth_error_In; exact H|exact K]. Qed.
Lemma extra_upd ca n k cache cache' q : nth_error ca n = Some (k, cache) ->
  occ q (extra (list_upd ca n (k, cache'))) + occ q (opts cache (lostattrs k)) = occ q (extra ca) + occ q (opts cache' (lostattrs k)).
Proof.
  unfold extra. revert n. induction ca as [|x ca IH]; intros [|n] H; cbn in H; try discriminate.
  - injection H as ->. cbn [list_upd flat_map fst snd]. rewrite !occ_app. lia.
  - cbn [list_upd flat_map]. rewrite !occ_app. specialize (IH _ H). lia.
Qed.
Lemma at_cache m g w ca R a k c cache Rm n b st p : Typed (at_ m) g w ca -> Inv m (R ++ extra ca) -> at_ m a = Some (PyObj k c cache) -> nth_error ca n = Some (k, cache) ->
  same g is_py cache Rm -> styleof k b = Some st -> cache b = Some p ->
  exists v l x, Rm b = Some v /\ nth_error g p = Some (GPy (atype b) v) /\ at_ m p = Some (PyVal (atype b) l) /\ at_ m l = Some (CVal x).
Proof.
  intros T I Ha Hn S Hst Hc. specialize (S b). rewrite Hc in S. destruct (Rm b) as [v|] eqn:E; [|contradiction]. unfold is_py in S.
  assert (L : exists d, at_ m p = Some d).
  { assert (C : In b (freed k) \/ In b (lostattrs k)) by (clear - Hst; destruct k, b; cbn in *; try discriminate; auto 8).
    destruct C as [C|C].
    - eapply kid_live; [exact I|exact Ha|]. cbn. apply in_or_app. left. eapply in_opts; eassumption.
    - eapply root_live; [exact I|]. apply in_or_app. right. eapply extra_in; [exact Hn|]. eapply in_opts; eassumption. }
  destruct L as [d Hd]. destruct (t_fit _ _ _ _ T _ _ Hd) as (t & Ht & K). rewrite S in Ht. injection Ht as <-. cbn in K. destruct d as [| |t l|]; try contradiction.
  destruct K as [-> Hl]. destruct (kid_live _ _ _ _ _ _ l I Hd (or_introl eq_refl)) as [d Hd']. destruct (t_fit _ _ _ _ T _ _ Hd') as (t & Ht & K).
  rewrite Hl in Ht. injection Ht as <-. cbn in K. destruct d as [x| | |]; try contradiction. eauto 10.
Qed.
Lemma find_style k a : find_attr a (table k) = match styleof k a with Some _ => Some (atype a) | None => None end.
Proof. destruct k, a; reflexivity. Qed.
Lemma style_by k a st : styleof k a = Some st -> match st with ByIds => is_comps k = false /\ by_lang a = false | ByDict => is_comps k = false /\ by_lang a = true | ByComps => is_comps k = true end.
Proof. destruct k, a; cbn; intros H; try discriminate; injection H as <-; auto. Qed.

(** ** Reading an attribute *)
Lemma get_sim s w g ca A x n k c cache o Rm f F a st : SimG s w g ca A -> nth_error g x = Some (GWrap n) -> In x (addrs (s_vars s)) ->
  at_ (s_mem s) x = Some (PyObj k c cache) -> nth_error (w_wraps w) n = Some (k, o, Rm) -> nth_error ca n = Some (k, cache) ->
  same g is_py cache Rm -> (is_comps k = false -> forall a, by_lang a = false -> cache a = None) ->
  nth_error g c = Some (GObj o) -> at_ (s_mem s) c = Some (CObj k f) -> nth_error (w_objs w) o = Some (k, F) -> same g is_val f F -> full k f ->
  styleof k a = Some st ->
  exists m' p e ca' w' v, get_attr blank (s_mem s) x k c cache a st = Ok (m', p) /\ look blank true w n a (atype a) = (w', v) /\
    length (g ++ e) = length m' /\ Typed (at_ m') (g ++ e) w' ca' /\ Inv m' (p :: addrs (s_vars s) ++ A ++ extra ca') /\
    nth_error (g ++ e) p = Some (GPy (atype a) v) /\ w_vars w' = w_vars w /\ w_lost w' = w_lost w.
Proof.
  intros G Gx Rx Hx Hw Hca Sc By Gc Hc Ho Sf Fu Hst.
  pose proof (g_typ _ _ _ _ _ G) as T. pose proof (g_inv _ _ _ _ _ G) as I. pose proof (g_len _ _ _ _ _ G) as Lg.
  set (R := addrs (s_vars s) ++ A ++ extra ca) in *. set (m := s_mem s) in *.
  pose proof (styled _ _ _ Hst) as Ha. pose proof (style_by _ _ _ Hst) as Hby.
  assert (Px : path m R x) by (apply path_root; unfold R; apply in_or_app; left; exact Rx).
  assert (Pc : path m R c) by (eapply path_kid; [exact Px|exact Hx|cbn; apply in_or_app; right; left; reflexivity]).
  unfold get_attr, look. rewrite Hw. cbn [is_comps].
  destruct (cache a) as [p|] eqn:Ec.
  - (* remembered *)
    destruct (at_cache m g w ca (addrs (s_vars s) ++ A) x k c cache Rm n a st p T) as (v & l & xl & Hv & Gp & Hp & Hl); try assumption.
    { rewrite <- app_assoc. exact I. }
    rewrite Hv. destruct (incr_ok kids rank m R p _ I Hp) as (m1 & E1 & I1 & L1 & A1). rewrite E1. cbn [bind].
    exists m1, p, [], ca, w, v. rewrite app_nil_r. split; [reflexivity|]. split; [reflexivity|]. split; [congruence|].
    split; [|split; [exact I1|split; [exact Gp|auto]]]. apply (T_sub (at_ m)); [|exact T]. intros q b. rewrite A1. auto.
  - assert (HR : Rm a = None). { specialize (Sc a). rewrite Ec in Sc. destruct (Rm a); [contradiction|reflexivity]. }
    rewrite HR, Ho.
    assert (Pk : peek_obj m c = Ok (k, f)).
    { unfold peek_obj. destruct (peek_at _ _ _ Hc) as (cc & -> & Hcc & _). cbn [bind]. rewrite Hcc. reflexivity. }
    rewrite Pk. cbn [bind snd fst].
    destruct st.
    + (* ByIds *)
      destruct Hby as [Hk _]. destruct (f a) as [l|] eqn:Ef; [|exfalso; exact (Fu Hk a Ha Ef)].
      destruct (at_field m g w ca R c k f F a l T I Hc Sf Ha Ef) as (v & xl & HF & Gl & Hl). rewrite HF, Hk.
      assert (Pl : path m R l) by (eapply path_kid; [exact Pc|exact Hc|cbn; eapply in_opts; eassumption]).
      destruct (wrap_ok blank m R (atype a) l xl I Pl Hl) as (m' & E & I' & L' & A'). rewrite E.
      exists m', (S (length m)), ([GTemp] ++ [GPy (atype a) v]), ca, w, v. split; [reflexivity|]. split; [reflexivity|].
      rewrite app_assoc. split; [rewrite !app_length; cbn; lia|].
      assert (Lt : length (g ++ [GTemp]) = S (length m)) by (rewrite app_length; cbn; lia).
      split; [|split; [exact I'|split; [rewrite <- Lt; apply nth_app_new|auto]]].
      apply (T_new_py (fun q => if Nat.eq_dec q (S (length m)) then None else at_ m' q) (at_ m') (g ++ [GTemp]) w ca).
      * apply (T_temp (at_ m) _ g w ca 1 T). intros q b Hq. destruct (Nat.eq_dec q (S (length m))) as [->|N]; [discriminate|].
        destruct (A' _ _ Hq) as [H|[->|[H _]]]; [auto|right; lia|congruence].
      * intros q b Hq. rewrite Lt. destruct (Nat.eq_dec q (S (length m))) as [->|N]; [|auto]. right. split; [reflexivity|].
        exists l. split; [|apply nth_app_old; exact Gl]. destruct (A' _ _ Hq) as [H|[H|[_ H]]]; [apply at_lt in H; lia|lia|exact H].
    + (* ByDict *)
      destruct Hby as [Hk _]. destruct (f a) as [l|] eqn:Ef; [|exfalso; exact (Fu Hk a Ha Ef)].
      destruct (at_field m g w ca R c k f F a l T I Hc Sf Ha Ef) as (v & xl & HF & Gl & Hl). rewrite HF, Hk.
      assert (Pl : path m R l) by (eapply path_kid; [exact Pc|exact Hc|cbn; eapply in_opts; eassumption]).
      destruct (wrap_ok blank m R (atype a) l xl I Pl Hl) as (m' & E & I' & L' & A'). rewrite E.
      exists m', (S (length m)), ([GTemp] ++ [GPy (atype a) v]), ca, w, v. split; [reflexivity|]. split; [reflexivity|].
      rewrite app_assoc. split; [rewrite !app_length; cbn; lia|].
      assert (Lt : length (g ++ [GTemp]) = S (length m)) by (rewrite app_length; cbn; lia).
      split; [|split; [exact I'|split; [rewrite <- Lt; apply nth_app_new|auto]]].
      apply (T_new_py (fun q => if Nat.eq_dec q (S (length m)) then None else at_ m' q) (at_ m') (g ++ [GTemp]) w ca).
      * apply (T_temp (at_ m) _ g w ca 1 T). intros q b Hq. destruct (Nat.eq_dec q (S (length m))) as [->|N]; [discriminate|].
        destruct (A' _ _ Hq) as [H|[->|[H _]]]; [auto|right; lia|congruence].
      * intros q b Hq. rewrite Lt. destruct (Nat.eq_dec q (S (length m))) as [->|N]; [|auto]. right. split; [reflexivity|].
        exists l. split; [|apply nth_app_old; exact Gl]. destruct (A' _ _ Hq) as [H|[H|[_ H]]]; [apply at_lt in H; lia|lia|exact H].
    + (* ByComps *)
      rewrite Hby. pose proof (at_lt _ _ _ Hx) as Lx. pose proof (at_lt _ _ _ Hc) as Lc.
      set (t := atype a) in *.
      pose proof (Inv_alloc kids rank m R (CVal (blank t)) I ltac:(intros ? ? [])) as I1.
      pose proof (at_alloc_new m (CVal (blank t))) as A1. pose proof (at_alloc_old m (CVal (blank t))) as O1. pose proof (at_alloc m (CVal (blank t))) as D1.
      unfold alloc at 1. change (m ++ [Some (mkC 1 (CVal (blank t)))]) with (fst (alloc m (CVal (blank t)))).
      assert (L1 : length (fst (alloc m (CVal (blank t)))) = S (length m)) by (unfold alloc; cbn; rewrite app_length; cbn; lia).
      set (m1 := fst (alloc m (CVal (blank t)))) in *. clearbody m1.
      assert (I2 : Inv (fst (alloc m1 (PyVal t (length m)))) (length m1 :: R)).
      { apply Inv_alloc; [exact I1|]. intros q b Hq Hb. cbn in Hq. destruct Hq as [<-|[]]. rewrite A1 in Hb. injection Hb as <-. cbn. lia. }
      pose proof (at_alloc_new m1 (PyVal t (length m))) as A2. pose proof (at_alloc_old m1 (PyVal t (length m))) as O2. pose proof (at_alloc m1 (PyVal t (length m))) as D2.
      assert (U2 : unpointed (fst (alloc m1 (PyVal t (length m)))) (length m1)).
      { intros q b Hp K. apply D2 in Hp. destruct Hp as [Hp|[-> ->]].
        - exact (proj1 (fresh_unpointed _ _ (CVal (blank t)) I1) _ _ Hp K).
        - cbn in K. destruct K as [K|[]]. lia. }
      unfold alloc at 1. change (m1 ++ [Some (mkC 1 (PyVal t (length m)))]) with (fst (alloc m1 (PyVal t (length m)))).
      assert (L2 : length (fst (alloc m1 (PyVal t (length m)))) = S (S (length m))) by (unfold alloc; cbn; rewrite app_length; cbn; lia).
      set (m2 := fst (alloc m1 (PyVal t (length m)))) in *. clearbody m2.
      assert (Old2 : forall q b, at_ m2 q = Some b -> q = length m1 /\ b = PyVal t (length m) \/ q = length m \/ at_ m q = Some b).
      { intros q b Hq. apply D2 in Hq. destruct Hq as [Hq|Hq]; [|auto]. apply D1 in Hq. destruct Hq as [Hq|[-> _]]; auto. }
      assert (New2 : forall q, q < length m -> at_ m2 q = at_ m q) by (intros q Hq; rewrite O2, O1 by lia; reflexivity).
      (* the list: an old one or a new one *)
      assert (X : exists m3 l xl e3 w3 f3 F3,
        match f a with
        | Some l => m2' <- incr m2 l ;; Ok (m2', l)
        | None => let (m2', l) := alloc m2 (CVal (blank t)) in
                  m3 <- put m2' c (CObj k (upd f a (Some l))) ;; m4 <- incr m3 l ;; Ok (m4, l)
        end = Ok (m3, l) /\
        match F a with
        | Some v => (w, v)
        | None => (set_obj (mkW (w_vals w ++ [blank t]) (w_objs w) (w_wraps w) (w_vars w) (w_lost w)) o (k, name F a (length (w_vals w))), length (w_vals w))
        end = (w3, e3) /\
        Inv m3 (l :: length m1 :: R) /\ at_ m3 (length m1) = Some (PyVal t (length m)) /\ at_ m3 (length m) = Some (CVal (blank t)) /\
        at_ m3 l = Some (CVal xl) /\ l <> length m1 /\ l <> length m /\ at_ m3 x = Some (PyObj k c cache) /\ at_ m3 c = Some (CObj k f3) /\
        unpointed m3 (length m1) /\
        (exists ge, let g3 := (g ++ [GTemp] ++ [GPy t e3]) ++ ge in length g3 = length m3 /\ nth_error g3 l = Some (GVal e3) /\
           Typed (fun q => if Nat.eq_dec q (length m1) then None else at_ m3 q) g3 w3 ca) /\
        nth_error (w_objs w3) o = Some (k, F3) /\ w_wraps w3 = w_wraps w /\ w_vars w3 = w_vars w /\ w_lost w3 = w_lost w).
      { destruct (f a) as [l|] eqn:Ef.
        - destruct (at_field m g w ca R c k f F a l T I Hc Sf Ha Ef) as (v & xl & HF & Gl & Hl). rewrite HF. pose proof (at_lt _ _ _ Hl) as Ll.
          assert (Hl2 : at_ m2 l = Some (CVal xl)) by (rewrite New2 by lia; exact Hl).
          destruct (incr_ok kids rank m2 _ l _ I2 Hl2) as (m3 & E3 & I3 & L3 & A3). rewrite E3. cbn [bind].
          exists m3, l, xl, v, w, f, F. split; [reflexivity|]. split; [reflexivity|]. split; [exact I3|].
          rewrite !A3. split; [exact A2|]. split; [rewrite O2 by lia; exact A1|]. split; [exact Hl2|]. split; [lia|]. split; [lia|].
          split; [rewrite New2 by lia; exact Hx|]. split; [rewrite New2 by lia; exact Hc|].
          split; [intros q b Hq; rewrite A3 in Hq; apply (U2 _ _ Hq)|].
          split; [|auto]. exists []. cbn zeta. rewrite app_nil_r. split; [rewrite !app_length; cbn; lia|]. split; [apply nth_app_old; exact Gl|].
          rewrite app_assoc. apply (T_new_py (fun q => if Nat.eq_dec q (length m1) then None else at_ m3 q)).
          + apply (T_temp (at_ m) _ g w ca 1 T). intros q b Hq. destruct (Nat.eq_dec q (length m1)); [discriminate|].
            rewrite A3 in Hq. destruct (Old2 _ _ Hq) as [[H _]|[H|H]]; [congruence|right; lia|auto].
          + intros q b Hq. auto.
        - assert (HF : F a = None). { specialize (Sf a). rewrite Ef in Sf. destruct (F a); [contradiction|reflexivity]. }
          rewrite HF.
          pose proof (Inv_alloc kids rank m2 _ (CVal (blank t)) I2 ltac:(intros ? ? [])) as I3.
          pose proof (at_alloc_new m2 (CVal (blank t))) as A3. pose proof (at_alloc_old m2 (CVal (blank t))) as O3. pose proof (at_alloc m2 (CVal (blank t))) as D3.
          unfold alloc at 1. change (m2 ++ [Some (mkC 1 (CVal (blank t)))]) with (fst (alloc m2 (CVal (blank t)))).
          assert (L3 : length (fst (alloc m2 (CVal (blank t)))) = S (S (S (length m)))) by (unfold alloc; cbn; rewrite app_length; cbn; lia).
          assert (U3 : unpointed (fst (alloc m2 (CVal (blank t)))) (length m1)).
          { intros q b Hq K. apply D3 in Hq. destruct Hq as [Hq|[_ ->]]; [exact (U2 _ _ Hq K)|destruct K]. }
          set (m3 := fst (alloc m2 (CVal (blank t)))) in *. clearbody m3.
          assert (Hc3 : at_ m3 c = Some (CObj k f)) by (rewrite O3, New2 by lia; exact Hc).
          destruct (field_put m3 _ c k f a (Some (length m2)) (upd f a (Some (length m2))) I3 Hc3 Ha) with (R' := length m1 :: R) as (m4 & E4 & I4 & L4 & A4).
          { intros y b Hy Hb. injection Hy as <-. rewrite A3 in Hb. injection Hb as <-. eauto. }
          { reflexivity. }
          { intros q. rewrite Ef. cbn [oo]. rewrite !occ_cons. cbn. lia. }
          rewrite E4. cbn [bind].
          assert (Hl4 : at_ m4 (length m2) = Some (CVal (blank t))) by (rewrite A4; destruct (Nat.eq_dec c (length m2)); [lia|exact A3]).
          destruct (incr_ok kids rank m4 _ (length m2) _ I4 Hl4) as (m5 & E5 & I5 & L5 & A5). rewrite E5. cbn [bind].
          assert (O5 : forall q, q <> c -> q <> length m2 -> q < length m2 -> at_ m5 q = at_ m2 q).
          { intros q N1 N2 Lq. rewrite A5, A4. destruct (Nat.eq_dec c q); [congruence|]. apply O3. exact Lq. }
          assert (Hc5 : at_ m5 c = Some (CObj k (upd f a (Some (length m2))))) by (rewrite A5, A4; destruct (Nat.eq_dec c c); congruence).
          assert (Nxc : x <> c) by congruence.
          exists m5, (length m2), (blank t), (length (w_vals w)), (set_obj (with_vals w (w_vals w ++ [blank t])) o (k, name F a (length (w_vals w)))), (upd f a (Some (length m2))), (name F a (length (w_vals w))).
          split; [reflexivity|]. split; [reflexivity|]. split; [exact I5|].
          split; [rewrite O5 by lia; exact A2|]. split; [rewrite O5 by lia; rewrite O2 by lia; exact A1|]. split; [rewrite A5; exact Hl4|].
          split; [lia|]. split; [lia|]. split; [rewrite O5 by lia; rewrite New2 by lia; exact Hx|]. split; [exact Hc5|].
          split.
          { intros q b Hq K. rewrite A5, A4 in Hq. destruct (Nat.eq_dec c q) as [<-|N]; [|exact (U3 _ _ Hq K)]. injection Hq as <-.
            cbn in K. unfold opts in K. apply in_flat_map in K. destruct K as (b & Hb & K). unfold upd in K. destruct (attr_eqb_ok a b) as [<-|Nb].
            - destruct K as [K|[]]. lia.
            - apply (U3 c (CObj k f) Hc3). cbn. unfold opts. apply in_flat_map. eauto. }
          split; [|split; [cbn; apply upd_same; apply nth_error_Some; rewrite Ho; discriminate|auto]].
          exists [GVal (length (w_vals w))]. cbn zeta.
          assert (Lt : length (g ++ [GTemp] ++ [GPy t (length (w_vals w))]) = length m2) by (rewrite !app_length; cbn; lia).
          split; [rewrite app_length, Lt; cbn; lia|]. split; [rewrite <- Lt; apply nth_app_new|].
          eapply (T_put_obj (fun q => if Nat.eq_dec q (length m1) then None else at_ m3 q) _ _ (with_vals w (w_vals w ++ [blank t])) ca c o k F (upd f a (Some (length m2)))).
          + apply (T_new_val (fun q => if Nat.eq_dec q (length m2) then None else if Nat.eq_dec q (length m1) then None else at_ m3 q)).
            * rewrite app_assoc. apply (T_new_py (fun q => if Nat.eq_dec q (length m2) then None else if Nat.eq_dec q (length m1) then None else at_ m3 q)); [|auto].
              apply (T_temp (at_ m) _ g w ca 1 T). intros q b Hq.
              destruct (Nat.eq_dec q (length m2)); [discriminate|]. destruct (Nat.eq_dec q (length m1)); [discriminate|].
              apply D3 in Hq. destruct Hq as [Hq|[-> _]]; [|congruence]. destruct (Old2 _ _ Hq) as [[H _]|[H|H]]; [congruence|right; lia|auto].
            * intros q b Hq. rewrite Lt. destruct (Nat.eq_dec q (length m2)) as [->|N]; [|auto]. right. split; [reflexivity|].
              destruct (Nat.eq_dec (length m2) (length m1)); [lia|]. congruence.
          + rewrite <- app_assoc. apply nth_app_old. exact Gc.
          + exact Ho.
          + intros q b Hq. destruct (Nat.eq_dec q (length m1)); [discriminate|].
            rewrite A5, A4 in Hq. destruct (Nat.eq_dec c q) as [<-|N]; [injection Hq as <-; auto|auto].
          + apply same_upd; [rewrite <- !app_assoc; apply same_mono; exact Sf|]. rewrite <- Lt. apply nth_app_new.
          + intros Hk. congruence. }
      destruct X as (m3 & l & xl & v & w3 & f3 & F3 & E3 & Ew3 & I3 & Hp3 & Hown3 & Hl3 & Nlp & Nlo & Hx3 & Hc3 & U3 & (ge & Lg3 & Gl3 & T3) & Ho3 & Ww3 & Wv3 & Wl3).
      rewrite E3. cbn [bind fst snd]. rewrite Ew3.
      (* the list it came with goes *)
      destruct (open_ok m3 (l :: length m1 :: R) (length m1) _ I3 Hp3 U3) as (h3 & J3 & Df3 & V3 & Lh3 & Ah3). cbn [kids app] in J3.
      destruct (under_rel (length m1) m3 h3 (length m) (l :: length m1 :: R) Df3 V3) as (m4 & h4 & E4 & Df4 & J4 & S4 & V4); [lia|exact J3|].
      rewrite E4. cbn [bind].
      assert (Old4 : forall q b, at_ h4 q = Some b -> q = length m1 /\ b = hole \/ q <> length m1 /\ at_ m3 q = Some b).
      { intros q b Hq. apply (proj2 S4) in Hq. rewrite Ah3 in Hq. destruct (Nat.eq_dec (length m1) q) as [<-|N]; [injection Hq as <-; auto|auto]. }
      assert (Hl4 : at_ h4 l = Some (CVal xl)).
      { destruct (root_live _ _ _ _ l J4 (or_introl eq_refl)) as [b Hb]. destruct (Old4 _ _ Hb) as [[-> _]|[_ H]]; [congruence|congruence]. }
      destruct (differ_at _ _ _ Df4) as [bx Hbx].
      assert (bx = hole) by (destruct (Old4 _ _ Hbx) as [[_ H]|[H _]]; [exact H|congruence]). subst bx.
      destruct (close_ok m4 h4 (length m1 :: R) (length m1) hole (PyVal t l) Df4 J4 Hbx eq_refl V4) as (m5 & E5 & J5 & L5 & A5).
      { intros q b Hq Hb. cbn in Hq. destruct Hq as [<-|[]]. split; [exact Nlp|]. rewrite Hl4 in Hb. injection Hb as <-. cbn. lia. }
      rewrite E5. cbn [bind].
      (* remembered *)
      assert (Rx5 : exists b, at_ m5 x = Some b).
      { eapply root_live; [exact J5|]. right. unfold R. apply in_or_app. left. exact Rx. }
      assert (Hx5 : at_ m5 x = Some (PyObj k c cache)).
      { destruct Rx5 as [b Hb]. rewrite Hb. rewrite A5 in Hb. destruct (Nat.eq_dec (length m1) x); [lia|]. destruct (Old4 _ _ Hb) as [[-> _]|[_ H]]; [lia|congruence]. }
      assert (Hp5 : at_ m5 (length m1) = Some (PyVal t l)) by (rewrite A5; destruct (Nat.eq_dec (length m1) (length m1)); congruence).
      set (R' := addrs (s_vars s) ++ A ++ extra (list_upd ca n (k, upd cache a (Some (length m1))))).
      assert (HR' : forall q, occ q (@kids V (PyObj k c (upd cache a (Some (length m1))))) + occ q R' = occ q (@kids V (PyObj k c cache)) + occ q (length m1 :: R)).
      { intros q. cbn [kids]. unfold R', R. rewrite ?occ_app, ?occ_cons, ?occ_app.
        pose proof (extra_upd ca n k cache (upd cache a (Some (length m1))) q Hca). pose proof (cache_upd k a ByComps cache (Some (length m1)) q Hst) as CU.
        rewrite Ec in CU. cbn [oo] in CU. rewrite (occ_cons q (length m1) []) in CU. cbn [occ count_occ] in CU. change (occ q []) with 0 in CU. lia. }
      destruct (put_ok kids rank m5 (length m1 :: R) R' x _ (PyObj k c (upd cache a (Some (length m1)))) J5 Hx5) as (m6 & E6 & J6 & L6 & A6); [exact HR'| |reflexivity|].
      { intros q b Hq Hb. cbn in Hq. apply in_app_or in Hq. destruct Hq as [Hq|[<-|[]]].
        - unfold opts in Hq. apply in_flat_map in Hq. destruct Hq as (b' & Hb' & Hq). unfold upd in Hq. destruct (attr_eqb_ok a b') as [<-|Nb].
          + destruct Hq as [<-|[]]. rewrite Hp5 in Hb. injection Hb as <-. cbn. lia.
          + apply (inv_rank _ _ _ _ J5 x q _ _ Hx5); [|exact Hb]. cbn. apply in_or_app. left. unfold opts. apply in_flat_map. eauto.
        - apply (inv_rank _ _ _ _ J5 x c _ _ Hx5); [|exact Hb]. cbn. apply in_or_app. right. left. reflexivity. }
      rewrite E6. cbn [bind].
      assert (Hp6 : at_ m6 (length m1) = Some (PyVal t l)) by (rewrite A6; destruct (Nat.eq_dec x (length m1)); [lia|exact Hp5]).
      destruct (incr_ok kids rank m6 R' (length m1) _ J6 Hp6) as (m7 & E7 & J7 & L7 & A7). rewrite E7. cbn [bind].
      exists m7, (length m1), (([GTemp] ++ [GPy t v]) ++ ge), (list_upd ca n (k, upd cache a (Some (length m1)))), (set_wrap w3 n (k, o, name Rm a v)), v.
      split; [reflexivity|]. split; [reflexivity|]. rewrite app_assoc. cbn zeta in *. rewrite app_assoc in *.
      assert (L7' : length m7 = length m3) by (rewrite L7, L6, L5, (proj1 S4); exact Lh3).
      split; [congruence|].
      assert (Gp : nth_error (((g ++ [GTemp]) ++ [GPy t v]) ++ ge) (length m1) = Some (GPy t v)).
      { apply nth_app_old. replace (length m1) with (length (g ++ [GTemp])) by (rewrite app_length; cbn; lia). apply nth_app_new. }
      split; [|split; [exact J7|split; [exact Gp|cbn; auto]]].
      eapply (T_put_wrap (fun q => if Nat.eq_dec q x then None else at_ m7 q) _ _ w3 ca x n k o Rm c (upd cache a (Some (length m1))) o (name Rm a v) F3).
      * eapply (T_put_py (fun q => if Nat.eq_dec q (length m1) then None else if Nat.eq_dec q x then None else at_ m7 q) _ _ _ _ (length m1) t v l); [|exact Gp|exact Gl3|].
        -- eapply T_sub; [|exact T3]. cbn beta. intros q b Hq. destruct (Nat.eq_dec q (length m1)); [discriminate|]. destruct (Nat.eq_dec q x); [discriminate|].
           rewrite A7, A6 in Hq. destruct (Nat.eq_dec x q); [congruence|]. rewrite A5 in Hq. destruct (Nat.eq_dec (length m1) q); [congruence|].
           destruct (Old4 _ _ Hq) as [[H _]|[_ H]]; [congruence|exact H].
        -- intros q b Hq. destruct (Nat.eq_dec q (length m1)) as [->|]; [|auto]. right. split; [reflexivity|]. destruct (Nat.eq_dec (length m1) x); [lia|]. rewrite A7, Hp6 in Hq. congruence.
      * rewrite <- !app_assoc. apply nth_app_old. exact Gx.
      * rewrite Ww3. exact Hw.
      * intros q b Hq. destruct (Nat.eq_dec x q) as [<-|N].
        -- right. split; [reflexivity|]. rewrite A7, A6 in Hq. destruct (Nat.eq_dec x x); congruence.
        -- left. split; [exact N|]. destruct (Nat.eq_dec q x); [congruence|exact Hq].
      * rewrite <- !app_assoc. apply nth_app_old. exact Gc.
      * exact Ho3.
      * apply same_upd; [rewrite <- !app_assoc; apply same_mono; exact Sc|exact Gp].
      * intros Hk. congruence.
Qed.
End Facts.
