(** Facts about the Python document object: independence of documents, histories
    of well-formed values. *)
From Coq Require Import Lia.
From Verif Require Import CStr CStrFacts HSListModel HSListFacts SetModel SetFacts
  RTreeModel RTreeFacts RTreeFacts2 RTreeFacts3 RTreeFacts4 MRTreeModel MRTreeFacts MRTreeFacts2
  SpecA SpecB ObjModel ObjFacts ObjFacts2 SpecC DocModel DocFacts DocFacts2 SpecD SpecD2
  ParseModel ParseFacts SpecF SpecF2 SpecF3 SpecF4 XmlModel ValidateModel PyObjModel PyDictModel PyDocModel
  PyDocFacts PyDocFacts2 PyDocFacts3.

(** * Independence *)
(** The locations a document reaches through its part or its attribute. *)
Definition owns (ws : list (ptype * nat)) (x : pydoc) (p : part) (l : nat) : Prop :=
  pd_objs x p = Some l \/ exists wr t, pd_cache x p = Some wr /\ nth_error ws wr = Some (t, l).
(** No location reached through one part belongs to another part. *)
Definition sep (w : world) : Prop :=
  forall d x p l d' x' p', nth_error (w_docs w) d = Some x -> owns (w_wraps w) x p l ->
    nth_error (w_docs w) d' = Some x' -> pd_objs x' p' = Some l -> d = d' /\ p = p'.
Lemma owned_lt w d x p l : inv w -> nth_error (w_docs w) d = Some x -> owns (w_wraps w) x p l -> l < length (w_heap w).
Proof.
  intros I X [O|(wr & t & C & R)].
  - destruct (proj1 (good_at _ _ _ I X) p l O) as (v & V & _). exact (nth_lt _ _ _ V).
  - destruct I as [_ W]. destruct (W _ _ _ R) as (v & V & _). exact (nth_lt _ _ _ V).
Qed.
Lemma sep_one w w' d x' : inv w -> sep w -> longer (w_wraps w) (w_wraps w') ->
  (forall i, i <> d -> nth_error (w_docs w') i = nth_error (w_docs w) i) -> nth_error (w_docs w') d = Some x' ->
  (forall p l, pd_objs x' p = Some l -> (exists x, nth_error (w_docs w) d = Some x /\ pd_objs x p = Some l) \/ length (w_heap w) <= l) ->
  (forall p q l, length (w_heap w) <= l -> pd_objs x' p = Some l -> pd_objs x' q = Some l -> p = q) ->
  (forall p wr, pd_cache x' p = Some wr -> (exists x, nth_error (w_docs w) d = Some x /\ pd_cache x p = Some wr) \/
                                           exists t l, nth_error (w_wraps w') wr = Some (t, l) /\ pd_objs x' p = Some l) ->
  sep w'.
Proof.
  intros I S Lw Ho Hd Ha Hb Hc.
  assert (K : forall d1 x1 p l, nth_error (w_docs w') d1 = Some x1 -> owns (w_wraps w') x1 p l ->
            (exists y, nth_error (w_docs w) d1 = Some y /\ owns (w_wraps w) y p l) \/
            (d1 = d /\ x1 = x' /\ pd_objs x' p = Some l /\ length (w_heap w) <= l)).
  { intros d1 x1 p l X1 O. destruct (Nat.eq_dec d1 d) as [->|n].
    - replace x1 with x' in * by congruence.
      assert (Obj : pd_objs x' p = Some l -> (exists y, nth_error (w_docs w) d = Some y /\ owns (w_wraps w) y p l) \/
                    (d = d /\ x' = x' /\ pd_objs x' p = Some l /\ length (w_heap w) <= l)).
      { intros Op. destruct (Ha p l Op) as [(y & Y & Oy)|G]; [left; exists y; split; [exact Y|now left]|right; auto]. }
      destruct O as [O|(wr & t & C & R)]; [exact (Obj O)|].
      destruct (Hc p wr C) as [(y & Y & Cy)|(t' & l' & R' & O')].
      + left. exists y. split; [exact Y|]. right. exists wr, t. split; [exact Cy|].
        destruct (proj2 (good_at _ _ _ I Y) p wr Cy) as (l0 & R0). pose proof (Lw _ _ R0). congruence.
      + replace l' with l in O' by congruence. exact (Obj O').
    - rewrite Ho in X1 by exact n. left. exists x1. split; [exact X1|].
      destruct O as [O|(wr & t & C & R)]; [now left|]. right. exists wr, t. split; [exact C|].
      destruct (proj2 (good_at _ _ _ I X1) p wr C) as (l0 & R0). pose proof (Lw _ _ R0). congruence. }
  intros d1 x1 p l d2 x2 q X1 O1 X2 O2.
  destruct (K _ _ _ _ X1 O1) as [(y1 & Y1 & P1)|(-> & -> & P1 & G1)].
  - destruct (Nat.eq_dec d2 d) as [->|n].
    + replace x2 with x' in * by congruence. destruct (Ha q l O2) as [(y & Y & Oy)|G].
      * exact (S _ _ _ _ _ _ _ Y1 P1 Y Oy).
      * pose proof (owned_lt _ _ _ _ _ I Y1 P1). lia.
    + rewrite Ho in X2 by exact n. exact (S _ _ _ _ _ _ _ Y1 P1 X2 O2).
  - destruct (Nat.eq_dec d2 d) as [->|n].
    + replace x2 with x' in * by congruence. split; [reflexivity|]. exact (Hb _ _ _ G1 P1 O2).
    + rewrite Ho in X2 by exact n. pose proof (owned_lt _ _ _ _ l I X2 (or_introl O2)). lia.
Qed.
Lemma sep_same w w' : inv w -> sep w -> longer (w_wraps w) (w_wraps w') -> w_docs w' = w_docs w -> sep w'.
Proof.
  intros I S L E d x p l d' x' p' X O X' O'. rewrite E in X, X'. refine (S d x p l d' x' p' X _ X' O').
  destruct O as [O|(wr & t & C & R)]; [now left|]. right. exists wr, t. split; [exact C|].
  destruct (proj2 (good_at _ _ _ I X) p wr C) as (l0 & R0). pose proof (L _ _ R0). congruence.
Qed.
Lemma sep_snoc w n lg h x x' : inv w -> sep w -> adopt (w_heap w) n lg = Ok (h, x) ->
  pd_objs x' = pd_objs x -> pd_cache x' = pd_cache x -> sep (mkWorld h (w_wraps w) (w_docs w ++ [x'])).
Proof.
  intros I S A Eo Ec. destruct (adopt_all _ _ _ _ _ A) as (_ & P & J & C & _).
  apply (sep_one w _ (length (w_docs w)) x'); auto; cbn.
  - apply longer_refl.
  - intros i n'. destruct (Nat.lt_ge_cases i (length (w_docs w))) as [L|G]; [now apply nth_error_app1|].
    rewrite (proj2 (nth_error_None (w_docs w) i) G). apply nth_error_None. rewrite app_length. cbn. lia.
  - apply nth_snoc.
  - intros p l. rewrite Eo. intros O. right. specialize (P p). destruct (look _ _); [|congruence].
    destruct P as (l' & E & G & _). replace l with l' by congruence. exact G.
  - intros p q l _. rewrite Eo. apply J.
  - intros p wr. rewrite Ec, C. discriminate.
Qed.
Lemma sep_put w n lg h x x' x0 d : inv w -> sep w -> adopt (w_heap w) n lg = Ok (h, x) -> nth_error (w_docs w) d = Some x0 ->
  pd_objs x' = pd_objs x -> (pd_cache x' = pd_cache x \/ pd_cache x' = pd_cache x0) ->
  sep (with_pd (mkWorld h (w_wraps w) (w_docs w)) d x').
Proof.
  intros I S A X0 Eo Ec. destruct (adopt_all _ _ _ _ _ A) as (_ & P & J & C & _).
  apply (sep_one w _ d x'); auto; cbn.
  - apply longer_refl.
  - intros i n'. apply set_at_other. congruence.
  - apply set_at_same, nth_lt with x0, X0.
  - intros p l. rewrite Eo. intros O. right. specialize (P p). destruct (look _ _); [|congruence].
    destruct P as (l' & E & G & _). replace l with l' by congruence. exact G.
  - intros p q l _. rewrite Eo. apply J.
  - intros p wr. destruct Ec as [->|Ec]; [rewrite C; discriminate|]. rewrite Ec. intros H. left. eauto.
Qed.
Lemma sep_relog w d x0 x' : inv w -> sep w -> nth_error (w_docs w) d = Some x0 -> pd_objs x' = pd_objs x0 -> pd_cache x' = pd_cache x0 ->
  sep (with_pd w d x').
Proof.
  intros I S X0 Eo Ec. apply (sep_one w _ d x'); auto; cbn.
  - apply longer_refl.
  - intros i n'. apply set_at_other. congruence.
  - apply set_at_same, nth_lt with x0, X0.
  - intros p l. rewrite Eo. intros O. left. eauto.
  - intros p q l G. rewrite Eo. intros O _. pose proof (owned_lt w d x0 p l I X0 (or_introl O)). lia.
  - intros p wr. rewrite Ec. intros H. left. eauto.
Qed.
Lemma sep_touch w d p w' l : inv w -> sep w -> touch w d p = Ok (w', l) -> sep w'.
Proof.
  intros I S E. unfold touch in E. destruct (at_ (w_docs w) d) as [x| |] eqn:X; cbn [bind] in E; try discriminate. apply at_ok in X.
  destruct (pd_objs x p) as [l0|] eqn:P; [injection E as <- _; exact S|]. injection E as <- _.
  apply (sep_one w _ d (with_objs_pd x (upd (pd_objs x) p (Some (length (w_heap w)))))); auto; cbn.
  - apply longer_refl.
  - intros i n'. apply set_at_other. congruence.
  - apply set_at_same, nth_lt with x, X.
  - intros q l'. destruct (part_dec p q) as [<-|n]; [rewrite upd_same; intros [= <-]; now right|].
    rewrite upd_other by exact n. intros O. left. eauto.
  - assert (K : forall q l', length (w_heap w) <= l' -> upd (pd_objs x) p (Some (length (w_heap w))) q = Some l' -> q = p).
    { intros q l' G. destruct (part_dec p q) as [<-|n]; [auto|]. rewrite upd_other by exact n. intros O.
      pose proof (owned_lt w d x q l' I X (or_introl O)). lia. }
    intros q r l' G O1 O2. rewrite (K q l' G O1), (K r l' G O2). reflexivity.
  - intros q wr H. left. eauto.
Qed.
Lemma sep_get w d p w' wr : inv w -> sep w -> get_attr w d p = Ok (w', wr) -> sep w'.
Proof.
  intros I S E. unfold get_attr in E. destruct (at_ (w_docs w) d) as [x| |] eqn:X; cbn [bind] in E; try discriminate.
  destruct (pd_cache x p) as [c|] eqn:C; [injection E as <- _; exact S|].
  destruct (touch w d p) as [[w1 l]| |] eqn:T; cbn [bind fst snd] in E; try discriminate.
  destruct (touch_inv _ _ _ _ _ I T) as (I1 & _ & _ & x0 & x1 & X0 & X1 & _ & O1 & _). pose proof (sep_touch _ _ _ _ _ I S T) as S1.
  unfold at_ in E. rewrite X1 in E. cbn [bind] in E.
  assert (E' : w' = with_pd (mkWorld (w_heap w1) (w_wraps w1 ++ [(part_type p, l)]) (w_docs w1)) d
            (with_cache x1 (upd (pd_cache x1) p (Some (length (w_wraps w1)))))) by congruence. subst w'.
  apply (sep_one w1 _ d (with_cache x1 (upd (pd_cache x1) p (Some (length (w_wraps w1)))))); auto; cbn.
  - apply longer_app.
  - intros i n'. apply set_at_other. congruence.
  - apply set_at_same, nth_lt with x1, X1.
  - intros q l' O. left. eauto.
  - intros q r l' G O _. pose proof (owned_lt w1 d x1 q l' I1 X1 (or_introl O)). lia.
  - intros q c. destruct (part_dec p q) as [<-|n].
    + rewrite upd_same. intros [= <-]. right. exists (part_type p), l. split; [apply nth_snoc|exact O1].
    + rewrite upd_other by exact n. intros H. left. eauto.
Qed.
Definition is_set (op : dop) : bool := match op with OSet _ _ _ => true | _ => false end.

Section Histories.
Variable strict : bool.
Variable accepts : list (call * bool) -> call -> bool.
Variable text : logitem -> str.
Notation step := (step_doc strict accepts text).
Notation run := (run_docs strict accepts text).
Lemma sep_wrap w n w' r : inv w -> sep w -> wrap_doc w n = Ok (w', r) -> sep w'.
Proof.
  intros I S E. unfold wrap_doc in E. destruct (adopt (w_heap w) n []) as [[h x]| |] eqn:A; cbn in E; try discriminate.
  injection E as <- _. exact (sep_snoc _ _ _ _ _ _ I S A eq_refl eq_refl).
Qed.
Lemma sep_replace w d st w' x0 : inv w -> sep w -> nth_error (w_docs w) d = Some x0 -> replace_doc w d st = Ok w' -> sep w'.
Proof.
  intros I S X0 E. unfold replace_doc in E.
  match type of E with (bind ?m _) = _ => destruct m as [n| |] eqn:M end; cbn [bind] in E; try discriminate.
  destruct (adopt (w_heap w) n (map FromParser (ps_log st))) as [[h x]| |] eqn:A; cbn [bind fst snd] in E; try discriminate.
  assert (w' = with_pd (mkWorld h (w_wraps w) (w_docs w)) d x) as -> by congruence.
  exact (sep_put _ _ _ _ _ _ _ _ I S A X0 eq_refl (or_introl eq_refl)).
Qed.
Lemma step_sep w op w' r : inv w -> sep w -> is_set op = false -> step w op = Ok (w', r) -> sep w'.
Proof.
  intros I S N E. destruct op; cbn [step_doc is_set] in *; try discriminate.
  - unfold new_doc in E. cbn [doc_create bind] in E.
    match type of E with context [adopt ?h ?n ?l] => destruct (adopt h n l) as [[h' x]| |] eqn:A end; cbn [bind fst snd] in E; try discriminate.
    injection E as <- _. apply (sep_snoc _ _ _ _ _ _ I S A); reflexivity.
  - destruct (has_type t v); [|discriminate]. injection E as <- _. apply (sep_same w _ I S); [apply longer_app|reflexivity].
  - destruct (edit_docs strict accepts text _ _ _ _ _ E) as [E1 E2]. apply (sep_same w w' I S); [rewrite E2; apply longer_refl|exact E1].
  - destruct (touch w d p) as [[w1 l]| |] eqn:T; cbn [bind fst snd] in E; try discriminate. injection E as <- _. exact (sep_touch _ _ _ _ _ I S T).
  - destruct (get_attr w d p) as [[w1 c]| |] eqn:G; cbn [bind fst snd] in E; try discriminate. injection E as <- _. exact (sep_get _ _ _ _ _ I S G).
  - unfold clear in E. destruct (at_ (w_docs w) d) as [x0| |] eqn:X; cbn [bind] in E; try discriminate.
    apply at_ok in X. cbn [doc_create bind] in E. set (n := mkDoc _ _ _ _ _) in E.
    destruct (adopt (w_heap w) n []) as [[h x]| |] eqn:A; cbn [bind fst snd] in E; try discriminate.
    assert (w' = with_pd (mkWorld h (w_wraps w) (w_docs w)) d (with_cache (with_enc x (pd_enc x0)) (pd_cache x0))) as -> by congruence.
    apply (sep_put _ _ _ _ _ _ _ _ I S A X); [reflexivity|right; reflexivity].
  - unfold load_str in E. destruct (at_ (w_docs w) d) as [x| |] eqn:X; cbn [bind] in E; try discriminate. apply at_ok in X.
    destruct (def_arg o) as [[df pending]|]; [|injection E as <- _; exact S].
    destruct (parse_str strict (parsed_init (Some utf8_name)) f df) as [[st z]| |]; cbn [bind fst snd] in E; try discriminate.
    destruct (z =? -1)%Z; [injection E as <- _; exact S|].
    destruct (replace_doc w d st) as [w1| |] eqn:R; cbn [bind] in E; try discriminate. injection E as <- _. exact (sep_replace _ _ _ _ _ I S X R).
  - unfold load_file in E. destruct (at_ (w_docs w) d) as [x| |] eqn:X; cbn [bind] in E; try discriminate. apply at_ok in X.
    destruct (def_arg o) as [[df pending]|]; [|injection E as <- _; exact S].
    destruct f as [fs|]; [|injection E as <- _; exact S].
    destruct (parse_file strict (parsed_init (Some utf8_name)) (Some fs) df) as [[st z]| |]; cbn [bind fst snd] in E; try discriminate.
    destruct (replace_doc w d st) as [w1| |] eqn:R; cbn [bind] in E; try discriminate. injection E as <- _. exact (sep_replace _ _ _ _ _ I S X R).
  - unfold save_file in E. destruct (at_ (w_docs w) d) as [y| |] eqn:X; cbn [bind] in E; try discriminate. apply at_ok in X.
    destruct (xml_arg x) as [xo|]; [|injection E as <- _; exact S].
    destruct (def_arg o) as [[df pending]|]; [|injection E as <- _; exact S].
    destruct (view w _) as [v| |]; cbn [bind] in E; try discriminate.
    match type of E with bind ?m _ = _ => destruct m as [[ws g]| |] end; cbn [bind fst snd] in E; try discriminate.
    match type of E with bind ?m _ = _ => destruct m as [ts| |] end; cbn [bind] in E; try discriminate.
    injection E as <- _. apply (sep_relog _ _ _ _ I S X); reflexivity.
  - unfold save_str in E. destruct (at_ (w_docs w) d) as [y| |] eqn:X; cbn [bind] in E; try discriminate. apply at_ok in X.
    destruct (xml_arg x) as [xo|]; [|injection E as <- _; exact S].
    destruct (def_arg o) as [[df pending]|]; [|injection E as <- _; exact S].
    destruct (view w y) as [v| |]; cbn [bind] in E; try discriminate.
    match type of E with bind ?m _ = _ => destruct m as [[ws g]| |] end; cbn [bind fst snd] in E; try discriminate.
    injection E as <- _. apply (sep_relog _ _ _ _ I S X); reflexivity.
  - unfold union in E. destruct (at_ (w_docs w) d) as [x| |]; cbn [bind] in E; try discriminate.
    destruct (at_ (w_docs w) e) as [y| |]; cbn [bind] in E; try discriminate.
    destruct (view w x) as [a| |]; cbn [bind] in E; try discriminate. destruct (view w y) as [b| |]; cbn [bind] in E; try discriminate.
    destruct (doc_union a b) as [n| |]; cbn [bind] in E; try discriminate. exact (sep_wrap _ _ _ _ I S E).
  - unfold filter_arches in E. destruct (at_ (w_docs w) d) as [x| |]; cbn [bind] in E; try discriminate.
    destruct (view w x) as [a| |]; cbn [bind] in E; try discriminate.
    destruct (doc_arch_filter a arches) as [n| |]; cbn [bind] in E; try discriminate. exact (sep_wrap _ _ _ _ I S E).
Qed.
Lemma run_sep ops : forall w w' outs, inv w -> sep w -> (forall op, In op ops -> is_set op = false) -> run w ops = Ok (w', outs) -> inv w' /\ sep w'.
Proof.
  induction ops as [|op ops IH]; intros w w' outs I S N E; cbn [run_docs] in E; [injection E as <- _; auto|].
  destruct (step w op) as [[w1 r]| |] eqn:St; cbn [bind fst snd] in E; try discriminate.
  destruct (run w1 ops) as [[w2 rs]| |] eqn:R; cbn [bind fst snd] in E; try discriminate.
  injection E as <- _. refine (IH w1 w2 rs _ _ _ R).
  - exact (proj1 (step_inv _ _ _ _ _ _ _ I St)).
  - exact (step_sep _ _ _ _ I S (N op (or_introl eq_refl)) St).
  - intros o H. apply N. now right.
Qed.
Lemma sep_start : sep start.
Proof. intros d x p l d' x' p' X. destruct d; discriminate. Qed.
(** A change made through an attribute changes nothing but that part. *)
Theorem edits_private ops w outs d p w1 wr u w2 r : run start ops = Ok (w, outs) -> (forall op, In op ops -> is_set op = false) ->
  get_attr w d p = Ok (w1, wr) -> step w1 (OEdit wr u) = Ok (w2, r) ->
  forall d' q v, d' <> d \/ q <> p -> (doc_shows w2 d' q v <-> doc_shows w d' q v).
Proof.
  intros R N G E d' q v D. destruct (run_sep _ _ _ _ inv_start sep_start N R) as [I S].
  pose proof (sep_get _ _ _ _ _ I S G) as S1. destruct (get_attr_inv _ _ _ _ _ I G) as (I1 & _ & x & X & C).
  destruct (proj2 (good_at _ _ _ I1 X) p wr C) as (l & Rw).
  rewrite <- (get_attr_shows _ _ _ _ _ I G d' q v).
  destruct (nth_error (w_docs w1) d') as [y|] eqn:Y.
  - rewrite (edit_shows _ _ _ _ _ _ _ _ _ _ I1 E Rw d' y q v Y).
    destruct (pd_objs y q) as [l'|] eqn:O; [|reflexivity]. destruct (Nat.eqb_spec l' l) as [->|_]; [|reflexivity].
    exfalso. destruct (S1 d x p l d' y q X) as [-> ->]; [right; eauto|exact Y|exact O|]. destruct D; congruence.
  - destruct (edit_docs _ _ _ _ _ _ _ _ E) as [Ed _]. split; intros H; exfalso; revert H; apply shows_nodoc; [rewrite Ed; exact Y|exact Y].
Qed.
End Histories.
