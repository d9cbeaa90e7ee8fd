(** Attributes of Python objects: counted memory against the specification, part 3:
    assignment. *)
From Verif Require Import CStr CStrFacts CountMem CountMemFacts PyAttrModel PyAttrSpec PyAttrFacts1 PyAttrFacts2 PyAttrFacts3.

Section Facts.
Context {V : Type}.
Variable blank : vtype -> V.
Notation mem := (mem (pbody V)).
Notation Inv := (Inv kids (@rank V)).
Implicit Types (m : mem) (g : list tag) (w : world V) (ca : list (kind * slots)) (s : state V).

Lemma put_incr m x b y : y <> x -> (m1 <- put m x b ;; incr m1 y) = (m1 <- incr m y ;; put m1 x b).
Proof.
  intros N. unfold put, incr, peek.
  destruct (nth_error m x) as [[cx|]|] eqn:Ex, (nth_error m y) as [[cy|]|] eqn:Ey; cbn; rewrite ?upd_other by congruence; rewrite ?Ex, ?Ey; cbn; try reflexivity.
  f_equal. apply upd_comm. congruence.
Qed.
Lemma cache_rank m R x k c cache a y t l b0 c0 : Inv m R -> at_ m x = Some (PyObj k c cache) -> at_ m y = Some (PyVal t l) ->
  In b0 (@kids V (PyObj k c (upd cache a (Some y)))) -> at_ m b0 = Some c0 -> b0 <> x /\ rank c0 < 2.
Proof.
  intros I Hx Hy Hq Hb.
  assert (L : rank c0 < 2).
  { cbn in Hq. apply in_app_or in Hq. destruct Hq as [Hq|[<-|[]]].
    - unfold opts in Hq. apply in_flat_map in Hq. destruct Hq as (b' & Hb' & Hq). unfold upd in Hq. destruct (attr_eqb_ok a b') as [<-|Nb].
      + destruct Hq as [<-|[]]. rewrite Hy in Hb. injection Hb as <-. cbn. lia.
      + apply (inv_rank _ _ _ _ I x b0 _ _ Hx); [|exact Hb]. cbn. apply in_or_app. left. unfold opts. apply in_flat_map. eauto.
    - apply (inv_rank _ _ _ _ I x c _ _ Hx); [|exact Hb]. cbn. apply in_or_app. right. left. reflexivity. }
  split; [|exact L]. intros ->. rewrite Hx in Hb. injection Hb as <-. cbn in L. lia.
Qed.

Lemma set_sim s w g ca A x n k c cache o Rm f F a st y v l : SimG s w g ca A -> nth_error g x = Some (GWrap n) -> In x (addrs (s_vars s)) ->
  at_ (s_mem s) x = Some (PyObj k c cache) -> nth_error (w_wraps w) n = Some (k, o, Rm) -> nth_error ca n = Some (k, cache) ->
  same g is_py cache Rm -> (is_comps k = false -> forall a, by_lang a = false -> cache a = None) ->
  nth_error g c = Some (GObj o) -> at_ (s_mem s) c = Some (CObj k f) -> nth_error (w_objs w) o = Some (k, F) -> same g is_val f F -> full k f ->
  styleof k a = Some st ->
  nth_error g y = Some (GPy (atype a) v) -> In y (addrs (s_vars s)) -> at_ (s_mem s) y = Some (PyVal (atype a) l) -> nth_error g l = Some (GVal v) ->
  exists m' ca' A', set_attr (s_mem s) x k c cache a st y l = Ok m' /\ length m' = length (s_mem s) /\ Typed (at_ m') g (store w n a v) ca' /\
    Inv m' (addrs (s_vars s) ++ A' ++ extra ca') /\ w_vars (store w n a v) = w_vars w /\ length A' = w_lost (store w n a v) /\
    (forall a, In a A' -> exists t v, nth_error g a = Some (GPy t v)).
Proof.
  intros G Gx Rx Hx Hw Hca Sc By Gc Hc Ho Sf Fu Hst Gy Ry Hy Gl.
  pose proof (g_typ _ _ _ _ _ G) as T. pose proof (g_inv _ _ _ _ _ G) as I. pose proof (g_len _ _ _ _ _ G) as Lg.
  set (Q := addrs (s_vars s) ++ A).
  assert (IQ : Inv (s_mem s) (Q ++ extra ca)) by (unfold Q; rewrite <- app_assoc; exact I). clear I.
  set (m := s_mem s) in *.
  assert (RxQ : In x Q) by (unfold Q; apply in_or_app; left; exact Rx). assert (RyQ : In y Q) by (unfold Q; apply in_or_app; left; exact Ry).
  pose proof (styled _ _ _ Hst) as Ha. pose proof (style_by _ _ _ Hst) as Hby.
  assert (Hl : exists xl, at_ m l = Some (CVal xl)).
  { destruct (kid_live _ _ _ _ _ _ l IQ Hy (or_introl eq_refl)) as [d Hd]. destruct (t_fit _ _ _ _ T _ _ Hd) as (t & Ht & K).
    rewrite Gl in Ht. injection Ht as <-. cbn in K. destruct d as [xl| | |]; try contradiction. eauto. }
  destruct Hl as [xl Hl].
  assert (Hold : forall z, f a = Some z -> exists u, at_ m z = Some (CVal u)).
  { intros z Hz. destruct (at_field m g w ca _ c k f F a z T IQ Hc Sf Ha Hz) as (u & xz & _ & _ & Hz'). eauto. }
  assert (Nlc : l <> c) by congruence. assert (Nyx : y <> x) by congruence. assert (Nxc : x <> c) by congruence. assert (Nyc : y <> c) by congruence. assert (Nlx : l <> x) by congruence.
  assert (Keep : forall m' R, Inv m' R -> In y R -> (forall p b, at_ m' p = Some b -> p <> c -> at_ m p = Some b) -> at_ m' y = Some (PyVal (atype a) l) /\ at_ m' l = Some (CVal xl)).
  { intros m' R I' Hr Hp. destruct (root_live _ _ _ _ _ I' Hr) as [b Hb]. pose proof (Hp _ _ Hb Nyc) as Hb'. assert (b = PyVal (atype a) l) by congruence. subst b.
    split; [exact Hb|]. destruct (kid_live _ _ _ _ _ _ l I' Hb (or_introl eq_refl)) as [d Hd]. pose proof (Hp _ _ Hd Nlc) as Hd'. congruence. }
  assert (SfF : same g is_val (upd f a (Some l)) (name F a v)) by (apply same_upd; [exact Sf|exact Gl]).
  assert (FuF : full k (upd f a (Some l))).
  { intros Hk b Hb. unfold upd. destruct (attr_eqb_ok a b); [discriminate|]. apply Fu; assumption. }
  assert (ScC : same g is_py (upd cache a (Some y)) (name Rm a v)) by (apply same_upd; [exact Sc|exact Gy]).
  assert (Occ : forall q z, occ q (opts (upd cache a z) (freed k)) + occ q (extra (list_upd ca n (k, upd cache a z))) + occ q (oo (cache a)) =
                           occ q (opts cache (freed k)) + occ q (extra ca) + occ q (oo z)).
  { intros q z. pose proof (extra_upd ca n k cache (upd cache a z) q Hca). pose proof (cache_upd k a st cache z q Hst). lia. }
  unfold set_attr, store. rewrite Hw, Ho.
  assert (Pk : peek_obj m c = Ok (k, f)).
  { unfold peek_obj. destruct (peek_at _ _ _ Hc) as (cc & -> & Hcc & _). cbn [bind]. rewrite Hcc. reflexivity. }
  rewrite Pk. cbn [bind snd fst].
  assert (Tset : forall h', (forall q b, h' q = Some b -> c <> q /\ at_ m q = Some b \/ c = q /\ b = CObj k (upd f a (Some l))) -> Typed h' g (set_obj w o (k, name F a v)) ca).
  { intros h' H. eapply (T_put_obj (at_ m) h' g w ca c o k F); eassumption. }
  destruct st.
  - (* ByIds *)
    destruct Hby as [Hk Hb]. rewrite Hk, Hb. cbn [orb].
    destruct (swap_field1 m (Q ++ extra ca) c k f a l xl IQ Hc Ha Hold Nlc) as (m1 & m2 & m3 & E1 & E2 & E3 & I3 & O3).
    { intros m' I' Hp. apply (Keep m' _ I'); [apply in_or_app; left; exact RyQ|exact Hp]. }
    rewrite E1. cbn [bind]. rewrite E2. cbn [bind]. rewrite E3. cbn [bind]. rewrite (By Hk a Hb). cbn [rel_opt bind].
    assert (Hy3 : exists b, at_ m3 y = Some b) by (eapply root_live; [exact I3|apply in_or_app; left; exact RyQ]).
    destruct Hy3 as [by3 Hy3]. destruct (incr_ok kids rank m3 _ y _ I3 Hy3) as (m4 & E4 & I4 & L4 & A4). rewrite E4.
    exists m4, ca, (y :: A). split; [reflexivity|]. split; [rewrite L4; apply O3|]. split; [|split; [|split; [reflexivity|split]]].
    + apply (T_world _ g (set_obj w o (k, name F a v))); [reflexivity|reflexivity|reflexivity|]. apply Tset. intros q b Hq. rewrite A4 in Hq. apply O3. exact Hq.
    + eapply Inv_perm; [|exact I4]. intros q. unfold Q. rewrite ?occ_app, ?occ_cons, ?occ_app. rewrite ?occ_cons. cbn. lia.
    + cbn. rewrite (g_lost _ _ _ _ _ G). reflexivity.
    + intros b [<-|Hb']; [eauto|apply (g_A _ _ _ _ _ G); exact Hb'].
  - (* ByDict *)
    destruct Hby as [Hk Hb]. rewrite Hk, Hb. cbn [orb].
    destruct (swap_field1 m (Q ++ extra ca) c k f a l xl IQ Hc Ha Hold Nlc) as (m1 & m2 & m3 & E1 & E2 & E3 & I3 & O3).
    { intros m' I' Hp. apply (Keep m' _ I'); [apply in_or_app; left; exact RyQ|exact Hp]. }
    rewrite E1. cbn [bind]. rewrite E2. cbn [bind]. rewrite E3. cbn [bind].
    assert (Hx3 : at_ m3 x = Some (PyObj k c cache)).
    { destruct (root_live _ _ _ _ x I3) as [b Hb3]; [apply in_or_app; left; exact RxQ|]. rewrite Hb3. apply O3 in Hb3. destruct Hb3 as [[_ H]|[H _]]; congruence. }
    destruct (open_ok m3 _ x _ I3 Hx3 (top_unpointed _ _ _ _ _ _ I3 Hx3)) as (h3 & J3 & D3 & U3 & Lh3 & Ah3).
    set (R4 := opts (upd cache a None) (freed k) ++ [c] ++ Q ++ extra (list_upd ca n (k, upd cache a None))).
    assert (J3' : Inv h3 (oo (cache a) ++ R4)).
    { eapply Inv_perm; [|exact J3]. intros q. unfold R4. cbn [kids]. rewrite ?occ_app. specialize (Occ q None). cbn [oo] in Occ. change (occ q []) with 0 in Occ. lia. }
    destruct (under_rel_opt x m3 h3 (cache a) R4 D3 U3) as (m4 & h4 & E4 & D4 & J4 & S4 & U4); [|exact J3'|].
    { intros Hp. destruct (at_cache m g w ca Q x k c cache Rm n a ByDict x T IQ Hx Hca Sc Hst Hp) as (? & ? & ? & _ & Gp & _). congruence. }
    rewrite E4. cbn [bind].
    assert (A4 : forall q b, at_ h4 q = Some b -> q <> x -> at_ m3 q = Some b).
    { intros q b Hq N. apply (proj2 S4) in Hq. rewrite Ah3 in Hq. destruct (Nat.eq_dec x q); [congruence|exact Hq]. }
    assert (Hy4 : at_ h4 y = Some (PyVal (atype a) l)).
    { destruct (root_live _ _ _ _ y J4) as [b Hb4]; [unfold R4; apply in_or_app; right; apply in_or_app; right; apply in_or_app; left; exact RyQ|].
      rewrite Hb4. apply A4 in Hb4; [|exact Nyx]. apply O3 in Hb4. destruct Hb4 as [[_ H]|[H _]]; congruence. }
    destruct (under_incr x m4 h4 y _ R4 D4 U4 Nyx J4 Hy4) as (m5 & h5 & E5 & D5 & J5 & U5 & L5 & A5). rewrite E5. cbn [bind].
    destruct (differ_at _ _ _ D5) as [bx Hbx].
    assert (bx = hole). { rewrite A5 in Hbx. apply (proj2 S4) in Hbx. rewrite Ah3 in Hbx. destruct (Nat.eq_dec x x); congruence. } subst bx.
    set (ca' := list_upd ca n (k, upd cache a (Some y))).
    assert (J5' : Inv h5 (@kids V (PyObj k c (upd cache a (Some y))) ++ Q ++ extra ca')).
    { eapply Inv_perm; [|exact J5]. intros q. unfold R4. cbn [kids]. rewrite ?occ_cons, ?occ_app.
      pose proof (Occ q None) as O1. pose proof (Occ q (Some y)) as O2. cbn [oo] in O1, O2. rewrite (occ_cons q y []) in O2. change (occ q []) with 0 in O1, O2. fold ca' in O2. lia. }
    destruct (close_ok m5 h5 (Q ++ extra ca') x hole (PyObj k c (upd cache a (Some y))) D5 J5' Hbx eq_refl U5) as (m6 & E6 & J6 & L6 & A6).
    { intros q b Hq Hb'. rewrite A5 in Hb'. assert (Nq : q <> x).
      { intros ->. cbn in Hq. apply in_app_or in Hq. destruct Hq as [Hq|[<-|[]]]; [|congruence].
        unfold opts in Hq. apply in_flat_map in Hq. destruct Hq as (b' & Hb1 & Hq). unfold upd in Hq. destruct (attr_eqb_ok a b') as [<-|Nb].
        - destruct Hq as [Hq|[]]. congruence.
        - apply (top_unpointed _ _ _ _ _ _ I3 Hx3 x _ Hx3). cbn. apply in_or_app. left. unfold opts. apply in_flat_map. eauto. }
      split; [exact Nq|]. apply A4 in Hb'; [|exact Nq]. change (rank b < 2).
      eapply (cache_rank m3 _ x k c cache a y); [exact I3|exact Hx3| |exact Hq|exact Hb']. apply A4 in Hy4; [exact Hy4|exact Nyx]. }
    rewrite E6. exists m6, ca', A. split; [reflexivity|].
    split; [rewrite L6, L5, (proj1 S4), Lh3; apply O3|]. split; [|split; [|split; [reflexivity|split; [apply (g_lost _ _ _ _ _ G)|apply (g_A _ _ _ _ _ G)]]]].
    + eapply (T_put_wrap (fun q => if Nat.eq_dec x q then None else at_ m6 q) _ g (set_obj w o (k, name F a v)) ca x n k o Rm c _ o _ (name F a v)).
      * apply Tset. intros q b Hq. destruct (Nat.eq_dec x q); [discriminate|]. rewrite A6 in Hq. destruct (Nat.eq_dec x q); [congruence|]. rewrite A5 in Hq.
        apply A4 in Hq; [|congruence]. apply O3. exact Hq.
      * exact Gx.
      * exact Hw.
      * intros q b Hq. destruct (Nat.eq_dec x q) as [<-|N]; [|auto]. right. split; [reflexivity|]. rewrite A6 in Hq. destruct (Nat.eq_dec x x); congruence.
      * exact Gc.
      * cbn. apply upd_same. apply nth_error_Some. rewrite Ho. discriminate.
      * exact ScC.
      * intros _ b Hb'. rewrite upd_neq by congruence. apply By; assumption.
    + unfold Q in J6. rewrite <- app_assoc in J6. exact J6.
  - (* ByComps *)
    rewrite Hby. cbn [orb].
    destruct (open_ok m _ x _ IQ Hx (top_unpointed _ _ _ _ _ _ IQ Hx)) as (h0 & J0 & D0 & U0 & Lh0 & Ah0).
    set (R1 := opts (upd cache a None) (freed k) ++ [c] ++ Q ++ extra (list_upd ca n (k, upd cache a None))).
    assert (J0' : Inv h0 (oo (cache a) ++ R1)).
    { eapply Inv_perm; [|exact J0]. intros q. unfold R1. cbn [kids]. rewrite ?occ_app. specialize (Occ q None). cbn [oo] in Occ. change (occ q []) with 0 in Occ. lia. }
    destruct (under_rel_opt x m h0 (cache a) R1 D0 U0) as (m1 & h1 & E1 & D1 & J1 & S1 & U1); [|exact J0'|].
    { intros Hp. destruct (at_cache m g w ca Q x k c cache Rm n a ByComps x T IQ Hx Hca Sc Hst Hp) as (? & ? & ? & _ & Gp & _). congruence. }
    rewrite E1. cbn [bind].
    assert (A1 : forall q b, at_ h1 q = Some b -> q <> x -> at_ m q = Some b).
    { intros q b Hq N. apply (proj2 S1) in Hq. rewrite Ah0 in Hq. destruct (Nat.eq_dec x q); [congruence|exact Hq]. }
    assert (Ry1 : In y R1) by (unfold R1; apply in_or_app; right; apply in_or_app; right; apply in_or_app; left; exact RyQ).
    assert (Rc1 : In c R1) by (unfold R1; apply in_or_app; right; left; reflexivity).
    assert (Hc1 : at_ h1 c = Some (CObj k f)).
    { destruct (root_live _ _ _ _ c J1 Rc1) as [b Hb]. rewrite Hb. apply A1 in Hb; congruence. }
    assert (Keep1 : forall m' R, Inv m' R -> In y R -> (forall p b, at_ m' p = Some b -> p <> c -> at_ h1 p = Some b) -> at_ m' y = Some (PyVal (atype a) l) /\ at_ m' l = Some (CVal xl)).
    { intros m' R I' Hr Hp. destruct (root_live _ _ _ _ _ I' Hr) as [b Hb]. pose proof (A1 _ _ (Hp _ _ Hb Nyc) Nyx) as Hb'. assert (b = PyVal (atype a) l) by congruence. subst b.
      split; [exact Hb|]. destruct (kid_live _ _ _ _ _ _ l I' Hb (or_introl eq_refl)) as [d Hd]. pose proof (A1 _ _ (Hp _ _ Hd Nlc) Nlx) as Hd'. congruence. }
    destruct (swap_field2 h1 R1 c k f a l xl J1 Hc1 Ha) as (h2 & h3 & h4 & F2 & F3 & F4 & J4 & O4).
    { intros z Hz. destruct (kid_live _ _ _ _ _ _ z J1 Hc1) as [b Hb]; [cbn; eapply in_opts; eassumption|]. destruct (Hold _ Hz) as [u Hu].
      assert (Nz : z <> x) by congruence. pose proof (A1 _ _ Hb Nz). exists u. congruence. }
    { apply (Keep1 h1 R1 J1 Ry1). auto. }
    { intros m' I' Hp. apply (Keep1 m' _ I'); [right; exact Ry1|exact Hp]. }
    destruct (differ_incr x m1 h1 l h2 D1 Nlx F2) as (m2 & E2 & D2). rewrite E2. cbn [bind].
    assert (U2 : unpointed h2 x).
    { destruct (incr_ok kids rank h1 R1 l _ J1 (proj2 (Keep1 h1 R1 J1 Ry1 ltac:(auto)))) as (h2' & F2' & _ & _ & A2). rewrite F2 in F2'. injection F2' as <-.
      intros p b Hp. rewrite A2 in Hp. apply (U1 _ _ Hp). }
    assert (X3 : exists m3, rel_opt m2 (f a) = Ok m3 /\ differ x m3 h3 /\ unpointed h3 x).
    { destruct (f a) as [z|] eqn:Ef; cbn [rel_opt] in *.
      - destruct (Hold _ eq_refl) as [u Hu]. assert (Nz : z <> x) by congruence.
        destruct (differ_release kids 3 (fun q => q <> x) x m2 h2 z h3 D2 Nz) with (3 := F3) as (m3 & E3 & D3).
        + tauto.
        + intros p b q _ Hp Hq ->. exact (U2 _ _ Hp Hq).
        + exists m3. split; [exact E3|]. split; [exact D3|]. eapply shrinks_unpointed; [eapply release_at; exact F3|exact U2].
      - injection F3 as <-. eauto. }
    destruct X3 as (m3 & E3 & D3 & U3). rewrite E3. cbn [bind].
    destruct (differ_put_other x m3 h3 c _ h4 D3 (not_eq_sym Nxc) F4) as (m4 & E4 & D4). rewrite E4. cbn [bind].
    rewrite put_incr by exact Nyx.
    assert (U4 : unpointed h4 x).
    { intros p b Hp Hk. apply O4 in Hp. destruct Hp as [[_ Hp]|[<- ->]]; [exact (U1 _ _ Hp Hk)|]. cbn in Hk. unfold opts in Hk. apply in_flat_map in Hk.
      destruct Hk as (b & Hb & Hk). unfold upd in Hk. destruct (attr_eqb_ok a b) as [<-|Nb]; [destruct Hk as [Hk|[]]; congruence|].
      apply (U1 c (CObj k f) Hc1). cbn. unfold opts. apply in_flat_map. eauto. }
    assert (Hy4 : at_ h4 y = Some (PyVal (atype a) l)).
    { destruct (root_live _ _ _ _ y J4 Ry1) as [b Hb]. rewrite Hb. apply O4 in Hb. destruct Hb as [[_ Hb]|[Hb _]]; [|congruence]. apply A1 in Hb; congruence. }
    destruct (under_incr x m4 h4 y _ R1 D4 U4 Nyx J4 Hy4) as (m5 & h5 & E5 & D5 & J5 & U5 & L5 & A5). rewrite E5. cbn [bind].
    destruct (differ_at _ _ _ D5) as [bx Hbx].
    assert (bx = hole).
    { rewrite A5 in Hbx. apply O4 in Hbx. destruct Hbx as [[_ Hbx]|[H _]]; [|congruence]. apply (proj2 S1) in Hbx. rewrite Ah0 in Hbx. destruct (Nat.eq_dec x x); congruence. } subst bx.
    set (ca' := list_upd ca n (k, upd cache a (Some y))).
    assert (J5' : Inv h5 (@kids V (PyObj k c (upd cache a (Some y))) ++ Q ++ extra ca')).
    { eapply Inv_perm; [|exact J5]. intros q. unfold R1. cbn [kids]. rewrite ?occ_cons, ?occ_app.
      pose proof (Occ q None) as O1. pose proof (Occ q (Some y)) as O2. cbn [oo] in O1, O2. rewrite (occ_cons q y []) in O2. change (occ q []) with 0 in O1, O2. fold ca' in O2. lia. }
    destruct (close_ok m5 h5 (Q ++ extra ca') x hole (PyObj k c (upd cache a (Some y))) D5 J5' Hbx eq_refl U5) as (m6 & E6 & J6 & L6 & A6).
    { intros q b Hq Hb'. rewrite A5 in Hb'. assert (Nq : q <> x).
      { intros ->. cbn in Hq. apply in_app_or in Hq. destruct Hq as [Hq|[<-|[]]]; [|congruence].
        unfold opts in Hq. apply in_flat_map in Hq. destruct Hq as (b' & Hb1 & Hq). unfold upd in Hq. destruct (attr_eqb_ok a b') as [<-|Nb].
        - destruct Hq as [Hq|[]]. congruence.
        - apply (top_unpointed _ _ _ _ _ _ IQ Hx x _ Hx). cbn. apply in_or_app. left. unfold opts. apply in_flat_map. eauto. }
      split; [exact Nq|]. change (rank b < 2). apply O4 in Hb'. destruct Hb' as [[_ Hb']|[_ ->]]; [|cbn; lia]. apply A1 in Hb'; [|exact Nq].
      eapply (cache_rank m _ x k c cache a y); [exact IQ|exact Hx|exact Hy|exact Hq|exact Hb']. }
    rewrite E6. exists m6, ca', A. split; [reflexivity|].
    split; [rewrite L6, L5, (proj1 O4), (proj1 S1), Lh0; reflexivity|]. split; [|split; [|split; [reflexivity|split; [apply (g_lost _ _ _ _ _ G)|apply (g_A _ _ _ _ _ G)]]]].
    + eapply (T_put_wrap (fun q => if Nat.eq_dec x q then None else at_ m6 q) _ g (set_obj w o (k, name F a v)) ca x n k o Rm c _ o _ (name F a v)).
      * apply Tset. intros q b Hq. destruct (Nat.eq_dec x q); [discriminate|]. rewrite A6 in Hq. destruct (Nat.eq_dec x q); [congruence|]. rewrite A5 in Hq.
        apply O4 in Hq. destruct Hq as [[N' Hq]|Hq]; [left; split; [exact N'|apply A1; congruence]|auto].
      * exact Gx.
      * exact Hw.
      * intros q b Hq. destruct (Nat.eq_dec x q) as [<-|N]; [|auto]. right. split; [reflexivity|]. rewrite A6 in Hq. destruct (Nat.eq_dec x x); congruence.
      * exact Gc.
      * cbn. apply upd_same. apply nth_error_Some. rewrite Ho. discriminate.
      * exact ScC.
      * intros Hk. congruence.
    + unfold Q in J6. rewrite <- app_assoc in J6. exact J6.
Qed.
End Facts.
