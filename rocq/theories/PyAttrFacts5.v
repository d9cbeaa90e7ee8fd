(** Attributes of Python objects: counted memory against the specification, part 4:
    every operation, every program, the end of a program. *)
From Verif Require Import CStr CStrFacts CountMem CountMemFacts PyAttrModel PyAttrSpec PyAttrFacts1 PyAttrFacts2 PyAttrFacts3 PyAttrFacts4.

Section Facts.
Context {V : Type}.
Variable blank : vtype -> V.
Notation mem := (mem (pbody V)).
Notation Inv := (Inv kids (@rank V)).
Implicit Types (m : mem) (g : list tag) (w : world V) (ca : list (kind * slots)) (s : state V).

Definition agrees s (r : option (world V * out V)) (x : res (state V * out V)) : Prop :=
  match r with None => x = UB | Some (w', o) => exists s', x = Ok (s', o) /\ Sim s' w' end.
Lemma agrees_err s w e : Sim s w -> agrees s (ierr w e) (fail s e).
Proof. intros H. exists s. split; [reflexivity|exact H]. Qed.
Lemma agrees_bind s w m vs a g ca A iv : length g = length m -> Typed (at_ m) g w ca -> Inv m (a :: addrs vs ++ A ++ extra ca) ->
  Forall2 (vfit g) vs (w_vars w) -> length A = w_lost w -> (forall a, In a A -> exists t v, nth_error g a = Some (GPy t v)) ->
  vfit g (Some a) (Some iv) -> agrees s (Some (new_var w iv)) (Ok (bind_var m vs a, OVar (length vs))).
Proof.
  intros. destruct (Sim_bind m vs a g w ca A iv) as (s' & E & S); try assumption. cbn in E |- *. exists s'. split; [exact E|exact S].
Qed.
Lemma peek_body m a b : at_ m a = Some b -> exists c, peek m a = Ok c /\ body c = b.
Proof. intros H. destruct (peek_at _ _ _ H) as (c & H1 & H2 & _). eauto. Qed.
Lemma extra_snoc ca k : extra (ca ++ [(k, empty_slots)]) = extra ca.
Proof. unfold extra. rewrite flat_map_app. cbn. rewrite opts_empty, !app_nil_r. reflexivity. Qed.
Lemma make_obj_frame w k c : w_wraps (make_obj blank w k c) = w_wraps w /\ w_vars (make_obj blank w k c) = w_vars w /\ w_lost (make_obj blank w k c) = w_lost w.
Proof. unfold make_obj. destruct (make_parts blank (w_vals w) k c (table k)). auto. Qed.

Lemma sim_new s w k c : Sim s w -> agrees s (istep blank true w (PNew k c)) (step blank s (PNew k c)).
Proof.
  intros (g & ca & A & G). pose proof (g_typ _ _ _ _ _ G) as T. pose proof (g_inv _ _ _ _ _ G) as I. pose proof (g_len _ _ _ _ _ G) as Lg.
  cbn [istep step]. destruct (new_obj_inv blank _ _ k c I) as (m1 & o & f & E & I1 & Lo & L1 & A1 & Ho). rewrite E.
  destruct (T_make_obj blank k c _ g w ca _ T Lg _ _ E) as (e & F & Le & Go & Eo & _ & Typ). destruct (make_obj_frame w k c) as (Mw & Mv & Ml).
  assert (I2 : Inv (fst (alloc m1 (PyObj k o empty_slots))) (length m1 :: addrs (s_vars s) ++ A ++ extra ca)).
  { apply Inv_alloc; [cbn [kids]; rewrite opts_empty; exact I1|]. intros q b Hq Hb. cbn in Hq. rewrite opts_empty in Hq. destruct Hq as [<-|[]]. rewrite Ho in Hb. injection Hb as <-. cbn. lia. }
  pose proof (at_alloc m1 (PyObj k o empty_slots)) as D2. unfold alloc at 1. change (m1 ++ [Some (mkC 1 (PyObj k o empty_slots))]) with (fst (alloc m1 (PyObj k o empty_slots))).
  assert (L2 : length (fst (alloc m1 (PyObj k o empty_slots))) = S (length m1)) by (unfold alloc; cbn; rewrite app_length; cbn; lia).
  set (m2 := fst (alloc m1 (PyObj k o empty_slots))) in *. clearbody m2.
  eapply (agrees_bind s _ m2 (s_vars s) (length m1) ((g ++ e) ++ [GWrap (length (w_wraps w))]) (ca ++ [(k, empty_slots)]) A).
  - rewrite app_length, Le. cbn. lia.
  - rewrite <- Mw. apply (T_new_wrap (at_ m1) (at_ m2) (g ++ e) (make_obj blank w k c) ca k o (length (w_objs w)) F).
    + apply Typ. intros q b Hq. destruct (Nat.lt_ge_cases q (length (s_mem s))) as [Lq|Lq]; [left; rewrite <- A1 by exact Lq; exact Hq|auto].
    + intros q b Hq. rewrite Le. apply D2. exact Hq.
    + exact Go.
    + rewrite Eo. apply nth_app_new.
  - rewrite extra_snoc. exact I2.
  - cbn. rewrite Mv. rewrite <- app_assoc. apply vars_mono. apply (g_var _ _ _ _ _ G).
  - cbn. rewrite Ml. apply (g_lost _ _ _ _ _ G).
  - rewrite <- app_assoc. apply A_mono. apply (g_A _ _ _ _ _ G).
  - cbn. rewrite <- Le. apply nth_app_new.
Qed.
Lemma sim_make s w t v : Sim s w -> agrees s (istep blank true w (PMake t v)) (step blank s (PMake t v)).
Proof.
  intros (g & ca & A & G). pose proof (g_typ _ _ _ _ _ G) as T. pose proof (g_inv _ _ _ _ _ G) as I. pose proof (g_len _ _ _ _ _ G) as Lg.
  cbn [istep step]. unfold new_val. set (m := s_mem s) in *.
  pose proof (Inv_alloc kids rank m _ (CVal v) I ltac:(intros ? ? [])) as I1.
  pose proof (at_alloc_new m (CVal v)) as A1. pose proof (at_alloc m (CVal v)) as D1.
  unfold alloc at 1. change (m ++ [Some (mkC 1 (CVal v))]) with (fst (alloc m (CVal v))).
  assert (L1 : length (fst (alloc m (CVal v))) = S (length m)) by (unfold alloc; cbn; rewrite app_length; cbn; lia).
  set (m1 := fst (alloc m (CVal v))) in *. clearbody m1.
  assert (I2 : Inv (fst (alloc m1 (PyVal t (length m)))) (length m1 :: addrs (s_vars s) ++ A ++ extra ca)).
  { apply Inv_alloc; [exact I1|]. intros q b Hq Hb. cbn in Hq. destruct Hq as [<-|[]]. rewrite A1 in Hb. injection Hb as <-. cbn. lia. }
  pose proof (at_alloc m1 (PyVal t (length m))) as D2.
  unfold alloc at 1. change (m1 ++ [Some (mkC 1 (PyVal t (length m)))]) with (fst (alloc m1 (PyVal t (length m)))).
  assert (L2 : length (fst (alloc m1 (PyVal t (length m)))) = S (S (length m))) by (unfold alloc; cbn; rewrite app_length; cbn; lia).
  set (m2 := fst (alloc m1 (PyVal t (length m)))) in *. clearbody m2.
  assert (Lt : length (g ++ [GVal (length (w_vals w))]) = length m1) by (rewrite app_length; cbn; lia).
  eapply (agrees_bind s _ m2 (s_vars s) (length m1) ((g ++ [GVal (length (w_vals w))]) ++ [GPy t (length (w_vals w))]) ca A).
  - rewrite app_length, Lt. cbn. lia.
  - apply (T_new_py (at_ m1)).
    + apply (T_new_val (at_ m)); [exact T|]. intros q b Hq. rewrite Lg. apply D1. exact Hq.
    + intros q b Hq. rewrite Lt. destruct (D2 _ _ Hq) as [H|[-> ->]]; [auto|]. right. split; [reflexivity|]. exists (length m). split; [reflexivity|]. rewrite <- Lg. apply nth_app_new.
  - exact I2.
  - rewrite <- app_assoc. apply vars_mono. apply (g_var _ _ _ _ _ G).
  - apply (g_lost _ _ _ _ _ G).
  - rewrite <- app_assoc. apply A_mono. apply (g_A _ _ _ _ _ G).
  - cbn. rewrite <- Lt. apply nth_app_new.
Qed.
Lemma sim_dup s w x : Sim s w -> agrees s (istep blank true w (PDup x)) (step blank s (PDup x)).
Proof.
  intros HS. pose proof HS as (g & ca & A & G). pose proof (g_typ _ _ _ _ _ G) as T. pose proof (g_inv _ _ _ _ _ G) as I. pose proof (g_len _ _ _ _ _ G) as Lg.
  cbn [istep step]. assert (Go : forall a iv, var s x = Some a -> wvar w x = Some iv -> vfit g (Some a) (Some iv) -> In a (addrs (s_vars s)) ->
    agrees s (Some (new_var w iv)) (m1 <- incr (s_mem s) a ;; Ok (bind_var m1 (s_vars s) a, OVar (length (s_vars s))))).
  { intros a iv _ _ Hv Ha. destruct (root_live _ _ _ _ a I) as [b Hb]; [apply in_or_app; left; exact Ha|].
    destruct (incr_ok kids rank _ _ a b I Hb) as (m1 & E1 & I1 & L1 & A1). rewrite E1. cbn [bind].
    eapply (agrees_bind s w m1 (s_vars s) a g ca A); try assumption.
    - congruence.
    - apply (T_sub (at_ (s_mem s))); [|exact T]. intros q c. rewrite A1. auto.
    - apply (g_var _ _ _ _ _ G).
    - apply (g_lost _ _ _ _ _ G).
    - apply (g_A _ _ _ _ _ G). }
  destruct (var_cases s w g ca A x G) as [[H1 H2]|[(a & t & v & H1 & H2 & H3 & H4)|(a & n & H1 & H2 & H3 & H4)]]; rewrite H1, H2.
  - apply agrees_err. exact HS.
  - apply Go; assumption.
  - apply Go; assumption.
Qed.
Lemma addrs_drop vs x a : nth_error vs x = Some (Some a) -> forall q, occ q (addrs vs) = occ q (a :: addrs (list_upd vs x None)).
Proof.
  unfold addrs. revert x. induction vs as [|y vs IH]; intros [|x] H q; cbn in H; try discriminate.
  - injection H as ->. reflexivity.
  - cbn [list_upd flat_map]. rewrite occ_app, (IH _ H q), !occ_cons, occ_app. lia.
Qed.
Lemma F2_upd {A B} (P : A -> B -> Prop) l l' x a b : Forall2 P l l' -> P a b -> Forall2 P (list_upd l x a) (list_upd l' x b).
Proof. intros H Hab. revert x. induction H as [|u u' l l' Hu Hl IH]; intros x; [constructor|]. destruct x as [|x]; cbn; constructor; auto. Qed.
Lemma sim_drop s w x : Sim s w -> agrees s (istep blank true w (PDrop x)) (step blank s (PDrop x)).
Proof.
  intros HS. pose proof HS as (g & ca & A & G). pose proof (g_typ _ _ _ _ _ G) as T. pose proof (g_inv _ _ _ _ _ G) as I. pose proof (g_len _ _ _ _ _ G) as Lg.
  cbn [istep step]. assert (Go : forall a, var s x = Some a ->
    agrees s (Some (mkW (w_vals w) (w_objs w) (w_wraps w) (list_upd (w_vars w) x None) (w_lost w), ONone)) (m1 <- rel (s_mem s) a ;; Ok (mkS m1 (list_upd (s_vars s) x None), ONone))).
  { intros a Hv. assert (N : nth_error (s_vars s) x = Some (Some a)). { unfold var in Hv. destruct (nth_error (s_vars s) x) as [[b|]|]; congruence. }
    destruct (rel_ok (s_mem s) a (addrs (list_upd (s_vars s) x None) ++ A ++ extra ca)) as (m1 & E1 & I1 & S1).
    { eapply Inv_perm; [|exact I]. intros q. pose proof (addrs_drop _ _ _ N q) as P. rewrite occ_cons in P. rewrite ?occ_cons, !occ_app. lia. }
    rewrite E1. cbn [bind]. eexists. split; [reflexivity|]. exists g, ca, A. constructor; cbn; auto.
    - rewrite (proj1 S1). exact Lg.
    - apply (T_world _ g w); [reflexivity|reflexivity|reflexivity|]. apply (T_sub (at_ (s_mem s))); [apply S1|exact T].
    - apply F2_upd; [apply (g_var _ _ _ _ _ G)|exact Logic.I].
    - apply (g_lost _ _ _ _ _ G).
    - apply (g_A _ _ _ _ _ G). }
  destruct (var_cases s w g ca A x G) as [[H1 H2]|[(a & t & v & H1 & H2 & H3 & H4)|(a & n & H1 & H2 & H3 & H4)]]; rewrite H1, H2.
  - apply agrees_err. exact HS.
  - apply Go. exact H1.
  - apply Go. exact H1.
Qed.
Lemma sim_edit s w x c : Sim s w -> agrees s (istep blank true w (PEdit x c)) (step blank s (PEdit x c)).
Proof.
  intros HS. pose proof HS as (g & ca & A & G). pose proof (g_typ _ _ _ _ _ G) as T. pose proof (g_inv _ _ _ _ _ G) as I. pose proof (g_len _ _ _ _ _ G) as Lg.
  cbn [istep step]. destruct (var_cases s w g ca A x G) as [[H1 H2]|[(a & t & v & H1 & H2 & H3 & H4)|(a & n & H1 & H2 & H3 & H4)]]; rewrite H1, H2.
  - apply agrees_err. exact HS.
  - destruct (at_val _ g w ca _ a t v T I) as (l & xl & Ha & Gl & Hl & Hv); [apply in_or_app; left; exact H4|exact H3|].
    destruct (peek_body _ _ _ Ha) as (ba & -> & Eqba). cbn [bind]. rewrite Eqba. destruct (peek_body _ _ _ Hl) as (bl & -> & Eqbl). cbn [bind]. rewrite Eqbl.
    destruct (put_ok kids rank _ _ _ l _ (CVal c) I Hl (fun q => eq_refl)) as (m1 & E1 & I1 & L1 & A1); [intros ? ? []|reflexivity|].
    rewrite E1. cbn [bind]. eexists. split; [reflexivity|]. exists g, ca, A. constructor; cbn; auto.
    + congruence.
    + apply (T_put_val (at_ (s_mem s)) (at_ m1) g w ca l v c T Gl). intros q b Hq. rewrite A1 in Hq. destruct (Nat.eq_dec l q) as [<-|N]; [injection Hq as <-; auto|auto].
    + apply (g_var _ _ _ _ _ G).
    + apply (g_lost _ _ _ _ _ G).
    + apply (g_A _ _ _ _ _ G).
  - destruct (at_obj _ g w ca _ a n T I) as (k & c0 & cache & o & Rm & f & F & Ha & _); [apply in_or_app; left; exact H4|exact H3|].
    destruct (peek_body _ _ _ Ha) as (ba & -> & Eqba). cbn [bind]. rewrite Eqba. apply agrees_err. exact HS.
Qed.
Lemma sim_read s w x : Sim s w -> agrees s (istep blank true w (PRead x)) (step blank s (PRead x)).
Proof.
  intros HS. pose proof HS as (g & ca & A & G). pose proof (g_typ _ _ _ _ _ G) as T. pose proof (g_inv _ _ _ _ _ G) as I. pose proof (g_len _ _ _ _ _ G) as Lg.
  cbn [istep step]. destruct (var_cases s w g ca A x G) as [[H1 H2]|[(a & t & v & H1 & H2 & H3 & H4)|(a & n & H1 & H2 & H3 & H4)]]; rewrite H1, H2.
  - apply agrees_err. exact HS.
  - destruct (at_val _ g w ca _ a t v T I) as (l & xl & Ha & Gl & Hl & Hv); [apply in_or_app; left; exact H4|exact H3|].
    destruct (peek_body _ _ _ Ha) as (ba & -> & Eqba). cbn [bind]. rewrite Eqba. destruct (peek_body _ _ _ Hl) as (bl & -> & Eqbl). cbn [bind]. rewrite Eqbl. rewrite Hv.
    eexists. split; [reflexivity|exact HS].
  - destruct (at_obj _ g w ca _ a n T I) as (k & c0 & cache & o & Rm & f & F & Ha & _); [apply in_or_app; left; exact H4|exact H3|].
    destruct (peek_body _ _ _ Ha) as (ba & -> & Eqba). cbn [bind]. rewrite Eqba. apply agrees_err. exact HS.
Qed.
Lemma sim_get s w x a : Sim s w -> agrees s (istep blank true w (PGet x a)) (step blank s (PGet x a)).
Proof.
  intros HS. pose proof HS as (g & ca & A & G). pose proof (g_typ _ _ _ _ _ G) as T. pose proof (g_inv _ _ _ _ _ G) as I. pose proof (g_len _ _ _ _ _ G) as Lg.
  cbn [istep step]. destruct (var_cases s w g ca A x G) as [[H1 H2]|[(b & t & v & H1 & H2 & H3 & H4)|(b & n & H1 & H2 & H3 & H4)]]; rewrite H1, H2.
  - apply agrees_err. exact HS.
  - destruct (at_val _ g w ca _ b t v T I) as (l & xl & Ha & _); [apply in_or_app; left; exact H4|exact H3|].
    destruct (peek_body _ _ _ Ha) as (ba & -> & Eqba). cbn [bind]. rewrite Eqba. apply agrees_err. exact HS.
  - destruct (at_obj _ g w ca _ b n T I) as (k & c & cache & o & Rm & f & F & Ha & Hw & Hca & Sc & By & Gc & Hc & Ho & Sf & Fu); [apply in_or_app; left; exact H4|exact H3|].
    destruct (peek_body _ _ _ Ha) as (ba & -> & Eqba). cbn [bind]. rewrite Eqba. rewrite Hw, find_style.
    destruct (styleof k a) as [st|] eqn:Hst; [|apply agrees_err; exact HS].
    destruct (get_sim blank s w g ca A b n k c cache o Rm f F a st G H3 H4 Ha Hw Hca Sc By Gc Hc Ho Sf Fu Hst)
      as (m' & p & e & ca' & w' & v & E & EL & Le & T' & I' & Gp & Wv & Wl).
    rewrite E, EL. cbn [bind fst snd].
    eapply (agrees_bind s w' m' (s_vars s) p (g ++ e) ca' A); try assumption.
    + rewrite Wv. apply vars_mono. apply (g_var _ _ _ _ _ G).
    + rewrite Wl. apply (g_lost _ _ _ _ _ G).
    + apply A_mono. apply (g_A _ _ _ _ _ G).
Qed.
Lemma sim_set s w x a y : Sim s w -> agrees s (istep blank true w (PSet x a y)) (step blank s (PSet x a y)).
Proof.
  intros HS. pose proof HS as (g & ca & A & G). pose proof (g_typ _ _ _ _ _ G) as T. pose proof (g_inv _ _ _ _ _ G) as I. pose proof (g_len _ _ _ _ _ G) as Lg.
  cbn [istep step]. destruct (var_cases s w g ca A x G) as [[H1 H2]|[(b & t & v & H1 & H2 & H3 & H4)|(b & n & H1 & H2 & H3 & H4)]]; rewrite H1, H2.
  - apply agrees_err. exact HS.
  - destruct (at_val _ g w ca _ b t v T I) as (l & xl & Ha & _); [apply in_or_app; left; exact H4|exact H3|].
    destruct (peek_body _ _ _ Ha) as (ba & -> & Eqba). cbn [bind]. rewrite Eqba. apply agrees_err. exact HS.
  - destruct (at_obj _ g w ca _ b n T I) as (k & c & cache & o & Rm & f & F & Ha & Hw & Hca & Sc & By & Gc & Hc & Ho & Sf & Fu); [apply in_or_app; left; exact H4|exact H3|].
    destruct (peek_body _ _ _ Ha) as (ba & -> & Eqba). cbn [bind]. rewrite Eqba. rewrite Hw, find_style.
    destruct (styleof k a) as [st|] eqn:Hst; [|apply agrees_err; exact HS].
    destruct y as [z| |].
    + destruct (var_cases s w g ca A z G) as [[Z1 Z2]|[(y & t & v & Z1 & Z2 & Z3 & Z4)|(y & n' & Z1 & Z2 & Z3 & Z4)]]; rewrite Z1, Z2.
      * apply agrees_err. exact HS.
      * destruct (at_val _ g w ca _ y t v T I) as (l & xl & Hy & Gl & Hl & Hv); [apply in_or_app; left; exact Z4|exact Z3|].
        destruct (peek_body _ _ _ Hy) as (by_ & -> & Eqby_). cbn [bind]. rewrite Eqby_.
        destruct (vtype_eqb_ok t (atype a)) as [->|N]; [|apply agrees_err; exact HS].
        destruct (set_sim s w g ca A b n k c cache o Rm f F a st y v l G H3 H4 Ha Hw Hca Sc By Gc Hc Ho Sf Fu Hst Z3 Z4 Hy Gl)
          as (m' & ca' & A' & E & L' & T' & I' & Wv & Wl & HA').
        rewrite E. cbn [bind]. eexists. split; [reflexivity|]. exists g, ca', A'. constructor; cbn; auto.
        -- congruence.
        -- rewrite Wv. apply (g_var _ _ _ _ _ G).
      * destruct (at_obj _ g w ca _ y n' T I) as (k' & c' & cache' & o' & Rm' & f' & F' & Hy & _); [apply in_or_app; left; exact Z4|exact Z3|].
        destruct (peek_body _ _ _ Hy) as (by_ & -> & Eqby_). cbn [bind]. rewrite Eqby_. apply agrees_err. exact HS.
    + apply agrees_err. exact HS.
    + pose proof (style_by _ _ _ Hst) as B. destruct st; [destruct B as [-> _]|destruct B as [-> _]|rewrite B].
      * apply agrees_err. exact HS.
      * apply agrees_err. exact HS.
      * reflexivity.
Qed.
Lemma sim_again s w x : Sim s w -> agrees s (istep blank true w (PAgain x)) (step blank s (PAgain x)).
Proof.
  intros HS. pose proof HS as (g & ca & A & G). pose proof (g_typ _ _ _ _ _ G) as T. pose proof (g_inv _ _ _ _ _ G) as I. pose proof (g_len _ _ _ _ _ G) as Lg.
  cbn [istep step]. destruct (var_cases s w g ca A x G) as [[H1 H2]|[(b & t & v & H1 & H2 & H3 & H4)|(b & n & H1 & H2 & H3 & H4)]]; rewrite H1, H2.
  - apply agrees_err. exact HS.
  - destruct (at_val _ g w ca _ b t v T I) as (l & xl & Ha & _); [apply in_or_app; left; exact H4|exact H3|].
    destruct (peek_body _ _ _ Ha) as (ba & -> & Eqba). cbn [bind]. rewrite Eqba. apply agrees_err. exact HS.
  - destruct (at_obj _ g w ca _ b n T I) as (k & c & cache & o & Rm & f & F & Ha & Hw & Hca & Sc & By & Gc & Hc & Ho & Sf & Fu); [apply in_or_app; left; exact H4|exact H3|].
    destruct (peek_body _ _ _ Ha) as (ba & -> & Eqba). cbn [bind]. rewrite Eqba. rewrite Hw.
    assert (Go : is_comps k = false -> agrees s (Some (new_var (add_wrap w k o) (IObj (length (w_wraps w)))))
      (m1 <- incr (s_mem s) c ;; let (m2, o') := new_obj blank m1 k (fun _ => None) in let (m3, x') := alloc m2 (PyObj k o' empty_slots) in
       m4 <- rel m3 o' ;; m5 <- put m4 x' (PyObj k c empty_slots) ;; Ok (bind_var m5 (s_vars s) x', OVar (length (s_vars s))))).
    { intros Hk. set (R := addrs (s_vars s) ++ A ++ extra ca) in *. set (m := s_mem s) in *. pose proof (at_lt _ _ _ Hc) as Lc.
      destruct (incr_ok kids rank m R c _ I Hc) as (m1 & E1 & I1 & L1 & A1). rewrite E1. cbn [bind].
      destruct (new_obj_inv blank m1 _ k (fun _ => None) I1) as (m2 & o' & f' & E2 & I2 & Lo & L2 & A2 & Ho2). rewrite E2.
      assert (I3 : Inv (fst (alloc m2 (PyObj k o' empty_slots))) (length m2 :: c :: R)).
      { apply Inv_alloc; [cbn [kids]; rewrite opts_empty; exact I2|]. intros q d Hq Hd. cbn in Hq. rewrite opts_empty in Hq. destruct Hq as [<-|[]]. rewrite Ho2 in Hd. injection Hd as <-. cbn. lia. }
      pose proof (at_alloc_new m2 (PyObj k o' empty_slots)) as N3. pose proof (at_alloc_old m2 (PyObj k o' empty_slots)) as O3. pose proof (at_alloc m2 (PyObj k o' empty_slots)) as D3.
      unfold alloc at 1. change (m2 ++ [Some (mkC 1 (PyObj k o' empty_slots))]) with (fst (alloc m2 (PyObj k o' empty_slots))).
      assert (L3 : length (fst (alloc m2 (PyObj k o' empty_slots))) = S (length m2)) by (unfold alloc; cbn; rewrite app_length; cbn; lia).
      set (m3 := fst (alloc m2 (PyObj k o' empty_slots))) in *. clearbody m3.
      destruct (open_ok m3 _ (length m2) _ I3 N3 (top_unpointed _ _ _ _ _ _ I3 N3)) as (h3 & J3 & Df3 & U3 & Lh3 & Ah3).
      cbn [kids] in J3. rewrite opts_empty in J3. cbn [app] in J3.
      destruct (under_rel (length m2) m3 h3 o' (length m2 :: c :: R) Df3 U3) as (m4 & h4 & E4 & Df4 & J4 & S4 & U4); [lia|exact J3|].
      rewrite E4. cbn [bind].
      assert (A4 : forall q d, at_ h4 q = Some d -> q <> length m2 -> q < length m /\ at_ m q = Some d \/ length m <= q < length m2).
      { intros q d Hq N. apply (proj2 S4) in Hq. rewrite Ah3 in Hq. destruct (Nat.eq_dec (length m2) q); [congruence|]. apply D3 in Hq. destruct Hq as [Hq|[Hq _]]; [|congruence].
        pose proof (at_lt _ _ _ Hq). destruct (Nat.lt_ge_cases q (length m)) as [Lq|Lq]; [left|right; lia]. split; [exact Lq|]. rewrite A2 in Hq by lia. rewrite A1 in Hq. exact Hq. }
      destruct (differ_at _ _ _ Df4) as [bx Hbx].
      assert (bx = hole). { apply (proj2 S4) in Hbx. rewrite Ah3 in Hbx. destruct (Nat.eq_dec (length m2) (length m2)); congruence. } subst bx.
      destruct (close_ok m4 h4 (length m2 :: R) (length m2) hole (PyObj k c empty_slots) Df4) as (m5 & E5 & J5 & L5 & A5); [|exact Hbx|reflexivity|exact U4| |].
      { cbn [kids]. rewrite opts_empty. eapply Inv_perm; [|exact J4]. intros q. cbn [app]. rewrite !occ_cons. lia. }
      { intros q d Hq Hd. cbn in Hq. rewrite opts_empty in Hq. destruct Hq as [<-|[]]. split; [lia|]. destruct (A4 _ _ Hd) as [[_ H]|H]; [lia| |lia]. rewrite Hc in H. injection H as <-. cbn. lia. }
      rewrite E5. cbn [bind].
      assert (Lt : length (g ++ repeat GTemp (length m2 - length m)) = length m2) by (rewrite app_length, repeat_length; lia).
      eapply (agrees_bind s _ m5 (s_vars s) (length m2) ((g ++ repeat GTemp (length m2 - length m)) ++ [GWrap (length (w_wraps w))]) (ca ++ [(k, empty_slots)]) A).
      - rewrite app_length, Lt, L5, (proj1 S4), Lh3, L3. cbn. lia.
      - apply (T_new_wrap (fun q => if Nat.eq_dec q (length m2) then None else at_ m5 q) (at_ m5) _ w ca k c o F).
        + apply (T_temp (at_ m)); [exact T|]. intros q d Hq. destruct (Nat.eq_dec q (length m2)); [discriminate|]. rewrite A5 in Hq. destruct (Nat.eq_dec (length m2) q); [congruence|].
          destruct (A4 _ _ Hq) as [[_ H]|H]; [assumption|auto|right; lia].
        + intros q d Hq. rewrite Lt. destruct (Nat.eq_dec q (length m2)) as [->|]; [|auto]. right. split; [reflexivity|]. rewrite A5 in Hq. destruct (Nat.eq_dec (length m2) (length m2)); congruence.
        + apply nth_app_old. exact Gc.
        + exact Ho.
      - rewrite extra_snoc. exact J5.
      - cbn. rewrite <- app_assoc. apply vars_mono. apply (g_var _ _ _ _ _ G).
      - apply (g_lost _ _ _ _ _ G).
      - rewrite <- app_assoc. apply A_mono. apply (g_A _ _ _ _ _ G).
      - pose proof (nth_app_new (g ++ repeat GTemp (length m2 - length m)) (GWrap (length (w_wraps w)))) as X. rewrite Lt in X. exact X. }
    destruct k; cbn [is_comps]; [apply Go; reflexivity|apply Go; reflexivity|apply Go; reflexivity|apply agrees_err; exact HS].
Qed.
Lemma new_fields_cells k c l : forall m m' f, new_fields blank m k c l = (m', f) -> length m <= length m' /\ forall q b, at_ m' q = Some b -> at_ m q = Some b \/ exists v, b = CVal v.
Proof.
  induction l as [|a l IH]; intros m m' f E; cbn [new_fields] in E; [injection E as <- <-; auto|].
  destruct (new_fields blank m k c l) as [m1 f1] eqn:E1. destruct (IH _ _ _ E1) as [L H].
  assert (D : forall v, (let (m2, x) := alloc m1 (CVal v) in (m2, upd f1 a (Some x))) = (m', f) -> length m <= length m' /\ forall q b, at_ m' q = Some b -> at_ m q = Some b \/ exists v, b = CVal v).
  { intros v Ev. pose proof (at_alloc m1 (CVal v)) as Da. unfold alloc in Ev, Da. injection Ev as <- <-. split; [rewrite app_length; lia|].
    intros q b Hq. destruct (Da _ _ Hq) as [K|[_ ->]]; eauto. }
  destruct (c a), k; eauto. injection E as <- <-. auto.
Qed.
Lemma new_obj_unpointed m k c m' o x : new_obj blank m k c = (m', o) -> forall R, Inv m' R -> unpointed m x -> at_ m' x = Some hole -> unpointed m' x.
Proof.
  unfold new_obj. destruct (new_fields blank m k c (fields k)) as [m1 f] eqn:E. intros E2 R I U Hx p b Hp K.
  destruct (new_fields_cells _ _ _ _ _ _ E) as [_ H]. pose proof (at_alloc m1 (CObj k f)) as D. unfold alloc in E2, D. injection E2 as <- <-. cbn [fst] in D.
  destruct (D _ _ Hp) as [Hp'|[_ ->]].
  - destruct (H _ _ Hp') as [Hq|[v ->]]; [exact (U _ _ Hq K)|destruct K].
  - pose proof (inv_rank _ _ _ _ I _ _ _ _ Hp K Hx) as L. cbn in L. lia.
Qed.
Lemma wrap_rank m R x k c cache q d : Inv m R -> at_ m x = Some (PyObj k c cache) -> In q (@kids V (PyObj k c cache)) -> at_ m q = Some d -> q <> x /\ rank d < 2.
Proof.
  intros I Hx Hq Hd. pose proof (inv_rank _ _ _ _ I _ _ _ _ Hx Hq Hd) as L. cbn in L. split; [|exact L]. intros ->. rewrite Hx in Hd. injection Hd as <-. cbn in L. lia.
Qed.

Lemma clear_sim s w g ca A x n c cache o Rm f : SimG s w g ca A -> nth_error g x = Some (GWrap n) -> In x (addrs (s_vars s)) ->
  at_ (s_mem s) x = Some (PyObj KComps c cache) -> nth_error (w_wraps w) n = Some (KComps, o, Rm) -> nth_error ca n = Some (KComps, cache) ->
  same g is_py cache Rm -> at_ (s_mem s) c = Some (CObj KComps f) ->
  agrees s (Some (set_wrap (make_obj blank w KComps (fun _ => None)) n (KComps, length (w_objs w), Rm), ONone))
    (m1 <- rel (s_mem s) c ;; let (m2, o) := new_obj blank m1 KComps (fun _ => None) in
     m3 <- put m2 x (PyObj KComps o cache) ;; Ok (mkS m3 (s_vars s), ONone)).
Proof.
  intros G Gx Rx Hx Hw Hca Sc Hc. pose proof (g_typ _ _ _ _ _ G) as T. pose proof (g_inv _ _ _ _ _ G) as I. pose proof (g_len _ _ _ _ _ G) as Lg.
  set (R := addrs (s_vars s) ++ A ++ extra ca) in *. set (m := s_mem s) in *. set (K := KComps) in *.
  assert (Ncx : c <> x) by congruence.
  destruct (open_ok m R x _ I Hx (top_unpointed _ _ _ _ _ _ I Hx)) as (h1 & J1 & Df1 & U1 & Lh1 & Ah1).
  destruct (under_rel x m h1 c (opts cache (freed K) ++ R) Df1 U1 Ncx) as (m1 & h2 & E1 & Df2 & J2 & S2 & U2).
  { eapply Inv_perm; [|exact J1]. intros q. cbn [kids]. rewrite ?occ_cons, ?occ_app, ?occ_cons, ?occ_app. change (occ q []) with 0. lia. }
  rewrite E1. cbn [bind].
  destruct (new_obj_app blank m1 K (fun _ => None)) as (e & o' & E2 & E2h). rewrite E2.
  assert (L12 : length h2 = length m1) by (apply (proj1 Df2)).
  destruct (new_obj_inv blank h2 _ K (fun _ => None) J2) as (h3 & o3 & f3 & E3 & J3 & Lo & L3 & A3 & Ho3).
  rewrite (E2h h2 L12) in E3. injection E3 as <- <-.
  assert (Lh2 : length h2 = length m) by (rewrite (proj1 S2); exact Lh1). pose proof (at_lt _ _ _ Hx) as Lx.
  assert (Hx2 : at_ h2 x = Some hole).
  { destruct (differ_at _ _ _ Df2) as [bx Hbx]. rewrite Hbx. apply (proj2 S2) in Hbx. rewrite Ah1 in Hbx. destruct (Nat.eq_dec x x); congruence. }
  assert (Hx3 : at_ (h2 ++ e) x = Some hole) by (rewrite A3 by lia; exact Hx2).
  pose proof (new_obj_unpointed _ _ _ _ _ x (E2h h2 L12) _ J3 U2 Hx3) as U3.
  assert (Old : forall q d, at_ h2 q = Some d -> q <> x -> at_ m q = Some d).
  { intros q d Hq N. apply (proj2 S2) in Hq. rewrite Ah1 in Hq. destruct (Nat.eq_dec x q); congruence. }
  destruct (close_ok (m1 ++ e) (h2 ++ e) R x hole (PyObj K o' cache) (differ_app _ _ _ _ Df2)) as (m3 & E4 & J4 & L4 & A4); [|exact Hx3|reflexivity|exact U3| |].
  { eapply Inv_perm; [|exact J3]. intros q. cbn [kids]. rewrite ?occ_cons, ?occ_app, ?occ_cons, ?occ_app. change (occ q []) with 0. lia. }
  { intros q d Hq Hd. cbn [kids] in Hq. apply in_app_or in Hq. destruct Hq as [Hq|[<-|[]]].
    - assert (Hq' : In q (@kids V (PyObj K c cache))) by (cbn [kids]; apply in_or_app; auto).
      destruct (kid_live _ _ _ _ _ _ _ I Hx Hq') as [d0 Hd0]. pose proof (at_lt _ _ _ Hd0) as Lq. rewrite A3 in Hd by lia.
      destruct (wrap_rank _ _ _ _ _ _ _ _ I Hx Hq' Hd0) as [Nq Lr]. split; [exact Nq|]. pose proof (Old _ _ Hd Nq) as Q. assert (d = d0) by congruence. subst d. exact Lr.
    - split; [lia|]. rewrite Ho3 in Hd. injection Hd as <-. cbn. lia. }
  rewrite E4. cbn [bind]. eexists. split; [reflexivity|].
  destruct (T_make_obj blank K (fun _ => None) h2 g w ca _ T) with (m' := h2 ++ e) (o := o') as (e' & F' & Le & Go & Eo & _ & Typ); [congruence|apply E2h; exact L12|].
  destruct (make_obj_frame w K (fun _ => None)) as (Mw & Mv & Ml).
  exists (g ++ e'), (list_upd ca n (K, cache)), A. constructor; cbn [s_mem s_vars].
  - rewrite L4. exact Le.
  - apply (T_put_wrap (fun q => if Nat.eq_dec q x then None else at_ m3 q) (at_ m3) (g ++ e') (make_obj blank w K (fun _ => None)) ca x n K o Rm o' cache (length (w_objs w)) Rm F').
    + apply Typ. intros q d Hq. destruct (Nat.eq_dec q x) as [|N]; [discriminate|]. rewrite A4 in Hq. destruct (Nat.eq_dec x q); [congruence|].
      destruct (Nat.lt_ge_cases q (length h2)) as [Lq|Lq]; [left|right; auto]. rewrite A3 in Hq by lia. apply Old; assumption.
    + apply nth_app_old. exact Gx.
    + rewrite Mw. exact Hw.
    + intros q d Hq. destruct (Nat.eq_dec q x) as [->|N]; [right|left; auto]. rewrite A4 in Hq. destruct (Nat.eq_dec x x); [|congruence]. injection Hq as <-. auto.
    + exact Go.
    + rewrite Eo. apply nth_app_new.
    + apply same_mono. exact Sc.
    + intros H. discriminate H.
  - eapply Inv_perm; [|exact J4]. intros q. unfold R. rewrite !occ_app. pose proof (extra_upd ca n K cache cache q Hca). lia.
  - unfold set_wrap. cbn [w_vars]. rewrite Mv. apply vars_mono. apply (g_var _ _ _ _ _ G).
  - unfold set_wrap. cbn [w_lost]. rewrite Ml. apply (g_lost _ _ _ _ _ G).
  - apply A_mono. apply (g_A _ _ _ _ _ G).
Qed.
Lemma load_sim s w g ca A x n c cache o Rm f cc : SimG s w g ca A -> nth_error g x = Some (GWrap n) -> In x (addrs (s_vars s)) ->
  at_ (s_mem s) x = Some (PyObj KComps c cache) -> nth_error (w_wraps w) n = Some (KComps, o, Rm) -> nth_error ca n = Some (KComps, cache) ->
  at_ (s_mem s) c = Some (CObj KComps f) ->
  agrees s (Some (set_wrap (make_obj blank w KComps cc) n (KComps, length (w_objs w), no_names), ONone))
    (let (m0, o) := new_obj blank (s_mem s) KComps cc in
     m1 <- put m0 x (PyObj KComps c empty_slots) ;; m2 <- rel_all m1 (opts cache (fields KComps)) ;; m3 <- rel m2 c ;;
     m4 <- put m3 x (PyObj KComps o empty_slots) ;; Ok (mkS m4 (s_vars s), ONone)).
Proof.
  intros G Gx Rx Hx Hw Hca Hc. pose proof (g_typ _ _ _ _ _ G) as T. pose proof (g_inv _ _ _ _ _ G) as I. pose proof (g_len _ _ _ _ _ G) as Lg.
  set (ca' := list_upd ca n (KComps, empty_slots)). set (R := addrs (s_vars s) ++ A ++ extra ca'). set (m := s_mem s) in *.
  set (K := KComps) in *. pose proof (at_lt _ _ _ Hx) as Lx. pose proof (at_lt _ _ _ Hc) as Lc. assert (Ncx : c <> x) by congruence.
  destruct (new_obj_inv blank m _ K cc I) as (m0 & o' & f0 & E0 & I0 & Lo & L0 & A0 & Ho0). rewrite E0.
  assert (Hx0 : at_ m0 x = Some (PyObj K c cache)) by (rewrite A0 by exact Lx; exact Hx).
  destruct (put_ok2 kids rank m0 _ (opts cache (fields K) ++ o' :: R) x _ (PyObj K c empty_slots) I0 Hx0) as (m1 & E1 & I1 & L1 & A1).
  { intros q. pose proof (cache_all K cache q) as P. pose proof (extra_upd ca n K cache empty_slots q Hca) as P2. rewrite opts_empty in P2. cbn [kids]. rewrite opts_empty. change (occ q []) with 0 in P2. unfold R, ca'. rewrite ?occ_cons, ?occ_app, ?occ_cons, ?occ_app. change (occ q []) with 0. unfold K in *. lia. }
  { intros q d Hq Hd. cbn [kids] in Hq. rewrite opts_empty in Hq. apply (wrap_rank m0 _ x K c cache q d I0 Hx0); [|exact Hd]. cbn [kids]. apply in_or_app. right. exact Hq. }
  { intros p bp Hp Hk. exfalso. exact (top_unpointed _ _ _ _ _ _ I0 Hx0 _ _ Hp Hk). }
  rewrite E1. cbn [bind].
  destruct (rel_all_ok (opts cache (fields K)) m1 (o' :: R) I1) as (m2 & E2 & I2 & S2). rewrite E2. cbn [bind].
  assert (Hx2 : at_ m2 x = Some (PyObj K c empty_slots)).
  { destruct (root_live _ _ _ _ x I2) as [b Hb]; [right; unfold R; apply in_or_app; left; exact Rx|]. rewrite Hb. apply (proj2 S2) in Hb. rewrite A1 in Hb. destruct (Nat.eq_dec x x); congruence. }
  destruct (open_ok m2 _ x _ I2 Hx2 (top_unpointed _ _ _ _ _ _ I2 Hx2)) as (h2 & J2 & Df2 & U2 & Lh2 & Ah2). cbn [kids] in J2. rewrite opts_empty in J2. cbn [app] in J2.
  destruct (under_rel x m2 h2 c (o' :: R) Df2 U2 Ncx J2) as (m3 & h3 & E3 & Df3 & J3 & S3 & U3). rewrite E3. cbn [bind].
  assert (Old : forall q d, at_ h3 q = Some d -> q <> x -> at_ m0 q = Some d).
  { intros q d Hq N. apply (proj2 S3) in Hq. rewrite Ah2 in Hq. destruct (Nat.eq_dec x q); [congruence|]. apply (proj2 S2) in Hq. rewrite A1 in Hq. destruct (Nat.eq_dec x q); congruence. }
  assert (Hx3 : at_ h3 x = Some hole).
  { destruct (differ_at _ _ _ Df3) as [bx Hbx]. rewrite Hbx. apply (proj2 S3) in Hbx. rewrite Ah2 in Hbx. destruct (Nat.eq_dec x x); congruence. }
  destruct (close_ok m3 h3 R x hole (PyObj K o' empty_slots) Df3) as (m4 & E4 & J4 & L4 & A4); [|exact Hx3|reflexivity|exact U3| |].
  { cbn [kids]. rewrite opts_empty. exact J3. }
  { intros q d Hq Hd. cbn [kids] in Hq. rewrite opts_empty in Hq. destruct Hq as [<-|[]]. split; [lia|]. apply Old in Hd; [|lia]. rewrite Ho0 in Hd. injection Hd as <-. cbn. lia. }
  rewrite E4. cbn [bind]. eexists. split; [reflexivity|].
  destruct (T_make_obj blank K cc m g w ca _ T Lg _ _ E0) as (e' & F' & Le & Go & Eo & _ & Typ).
  destruct (make_obj_frame w K cc) as (Mw & Mv & Ml).
  exists (g ++ e'), ca', A. constructor; cbn [s_mem s_vars].
  - rewrite L4, (proj1 S3), Lh2, (proj1 S2), L1. exact Le.
  - apply (T_put_wrap (fun q => if Nat.eq_dec q x then None else at_ m4 q) (at_ m4) (g ++ e') (make_obj blank w K cc) ca x n K o Rm o' empty_slots (length (w_objs w)) no_names F').
    + apply Typ. intros q d Hq. destruct (Nat.eq_dec q x) as [|N]; [discriminate|]. rewrite A4 in Hq. destruct (Nat.eq_dec x q); [congruence|]. apply Old in Hq; [|assumption].
      destruct (Nat.lt_ge_cases q (length m)) as [Lq|Lq]; [left|right; auto]. rewrite A0 in Hq by exact Lq. exact Hq.
    + apply nth_app_old. exact Gx.
    + rewrite Mw. exact Hw.
    + intros q d Hq. destruct (Nat.eq_dec q x) as [->|N]; [right|left; auto]. rewrite A4 in Hq. destruct (Nat.eq_dec x x); [|congruence]. injection Hq as <-. auto.
    + exact Go.
    + rewrite Eo. apply nth_app_new.
    + apply same_empty.
    + intros H. discriminate H.
  - exact J4.
  - unfold set_wrap. cbn [w_vars]. rewrite Mv. apply vars_mono. apply (g_var _ _ _ _ _ G).
  - unfold set_wrap. cbn [w_lost]. rewrite Ml. apply (g_lost _ _ _ _ _ G).
  - apply A_mono. apply (g_A _ _ _ _ _ G).
Qed.
Lemma step_sim s w p : Sim s w -> agrees s (istep blank true w p) (step blank s p).
Proof.
  intros HS. destruct p; try solve [auto using sim_new, sim_make, sim_again, sim_dup, sim_drop, sim_get, sim_set, sim_edit, sim_read].
  - pose proof HS as (g & ca & A & G). pose proof (g_typ _ _ _ _ _ G) as T. pose proof (g_inv _ _ _ _ _ G) as I.
    cbn [istep step]. destruct (var_cases s w g ca A x G) as [[H1 H2]|[(b & t & v & H1 & H2 & H3 & H4)|(b & n & H1 & H2 & H3 & H4)]]; rewrite H1, H2.
    + apply agrees_err. exact HS.
    + destruct (at_val _ g w ca _ b t v T I) as (l & xl & Ha & _); [apply in_or_app; left; exact H4|exact H3|].
      destruct (peek_body _ _ _ Ha) as (ba & -> & Eba). cbn [bind]. rewrite Eba. apply agrees_err. exact HS.
    + destruct (at_obj _ g w ca _ b n T I) as (k & c0 & cache & o & Rm & f & F & Ha & Hw & Hca & Sc & By & Gc & Hc & Ho & Sf & Fu); [apply in_or_app; left; exact H4|exact H3|].
      destruct (peek_body _ _ _ Ha) as (ba & -> & Eba). cbn [bind]. rewrite Eba, Hw. destruct k; cbn [is_comps]; try (apply agrees_err; exact HS).
      eapply clear_sim; eassumption.
  - pose proof HS as (g & ca & A & G). pose proof (g_typ _ _ _ _ _ G) as T. pose proof (g_inv _ _ _ _ _ G) as I.
    cbn [istep step]. destruct (var_cases s w g ca A x G) as [[H1 H2]|[(b & t & v & H1 & H2 & H3 & H4)|(b & n & H1 & H2 & H3 & H4)]]; rewrite H1, H2.
    + apply agrees_err. exact HS.
    + destruct (at_val _ g w ca _ b t v T I) as (l & xl & Ha & _); [apply in_or_app; left; exact H4|exact H3|].
      destruct (peek_body _ _ _ Ha) as (ba & -> & Eba). cbn [bind]. rewrite Eba. apply agrees_err. exact HS.
    + destruct (at_obj _ g w ca _ b n T I) as (k & c0 & cache & o & Rm & f & F & Ha & Hw & Hca & Sc & By & Gc & Hc & Ho & Sf & Fu); [apply in_or_app; left; exact H4|exact H3|].
      destruct (peek_body _ _ _ Ha) as (ba & -> & Eba). cbn [bind]. rewrite Eba, Hw. destruct k; cbn [is_comps]; try (apply agrees_err; exact HS).
      eapply load_sim; eassumption.
Qed.
Lemma Sim_start : Sim start (@empty_world V).
Proof.
  exists [], [], []. constructor; cbn; try reflexivity.
  - constructor; cbn; try reflexivity.
    + intros a b H. unfold at_ in H. destruct a; discriminate.
    + intros v a a' H. destruct a; discriminate.
    + intros v a a' H. destruct a; discriminate.
    + intros v a a' H. destruct a; discriminate.
    + intros v a H. destruct a; discriminate.
    + intros v a H. destruct a; discriminate.
    + intros v a H. destruct a; discriminate.
    + intros n k o R H. destruct n; discriminate.
  - apply Inv_nil.
  - constructor.
  - intros a [].
Qed.
Lemma run_sim l : forall s w, Sim s w -> match irun blank true w l with None => run blank s l = UB | Some (w', os) => exists s', run blank s l = Ok (s', os) /\ Sim s' w' end.
Proof.
  induction l as [|p l IH]; intros s w H; cbn [irun run].
  - exists s. auto.
  - pose proof (step_sim s w p H) as A. unfold agrees in A. destruct (istep blank true w p) as [[w1 o]|].
    + destruct A as (s1 & -> & S1). cbn [bind fst snd]. specialize (IH s1 w1 S1). destruct (irun blank true w1 l) as [[w2 os]|].
      * destruct IH as (s2 & -> & S2). cbn [bind]. exists s2. auto.
      * rewrite IH. reflexivity.
    + rewrite A. reflexivity.
Qed.
End Facts.
