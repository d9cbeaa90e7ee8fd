(** Facts about the Python document object, continued. *)
From Coq Require Import Lia.
From Verif Require Import CStr CStrFacts HSListModel HSListFacts SetModel SetFacts
  RTreeModel RTreeFacts RTreeFacts2 RTreeFacts3 RTreeFacts4 MRTreeModel MRTreeFacts MRTreeFacts2
  SpecA SpecB ObjModel ObjFacts ObjFacts2 SpecC DocModel DocFacts DocFacts2
  ParseModel XmlModel ValidateModel PyObjModel PyDictModel PyDocModel PyDocFacts.

(** * What is seen *)
(** The value behind a Python object. *)
Definition content (w : world) (wr : nat) : option dval :=
  match nth_error (w_wraps w) wr with Some (_, l) => nth_error (w_heap w) l | None => None end.
(** A part of the document of a Comps object, as the library sees it. *)
Definition doc_shows (w : world) (d : nat) (p : part) (v : dval) : Prop :=
  exists x n, nth_error (w_docs w) d = Some x /\ view w x = Ok n /\ doc_part n p = Ok v.
Lemma doc_shows_held w d x p : inv w -> nth_error (w_docs w) d = Some x ->
  doc_shows w d p (match held w x p with Some v => v | None => empty_of (part_type p) end).
Proof.
  intros I X. destruct (view_spec w x (proj1 (good_at _ _ _ I X))) as (n & V & _ & H & _).
  exists x, n. split; [exact X|]. split; [exact V|]. unfold doc_part. rewrite rt_get_look. cbn [bind]. now rewrite H.
Qed.
Lemma doc_shows_fun w d p v v' : doc_shows w d p v -> doc_shows w d p v' -> v = v'.
Proof. intros (x & n & A & B & C) (x' & n' & A' & B' & C'). congruence. Qed.
Lemma doc_shows_iff w d x p v : inv w -> nth_error (w_docs w) d = Some x ->
  doc_shows w d p v <-> v = match held w x p with Some u => u | None => empty_of (part_type p) end.
Proof.
  intros I X. pose proof (doc_shows_held w d x p I X) as H. split.
  - intros K. exact (doc_shows_fun _ _ _ _ _ K H).
  - intros ->. exact H.
Qed.

Section Seen.
Variable strict : bool.
Variable accepts : list (call * bool) -> call -> bool.
Variable text : logitem -> str.
Notation step := (step_doc strict accepts text).
Notation run := (run_docs strict accepts text).

Lemma get_attr_ok w d p : inv w -> d < length (w_docs w) -> exists w' wr, get_attr w d p = Ok (w', wr).
Proof.
  intros I L. unfold get_attr, at_. destruct (nth_error (w_docs w) d) as [x|] eqn:X; [|apply nth_error_None in X; lia].
  cbn [bind]. destruct (pd_cache x p); [eauto|].
  assert (exists w1 l, touch w d p = Ok (w1, l)) as (w1 & l & T).
  { unfold touch, at_. rewrite X. cbn [bind]. destruct (pd_objs x p); eauto. }
  rewrite T. cbn [bind fst snd]. destruct (touch_inv _ _ _ _ _ I T) as (_ & _ & _ & x0 & x1 & _ & X1 & _).
  rewrite X1. cbn [bind]. eauto.
Qed.
(** Reading an attribute changes no document. *)
Lemma get_attr_held w d p w' wr : inv w -> get_attr w d p = Ok (w', wr) ->
  forall d' x, nth_error (w_docs w) d' = Some x -> exists x', nth_error (w_docs w') d' = Some x' /\
    (forall q, match held w' x' q with Some v => v | None => empty_of (part_type q) end
               = match held w x q with Some v => v | None => empty_of (part_type q) end) /\
    pd_enc x' = pd_enc x /\ pd_name x' = pd_name x /\ pd_sysid x' = pd_sysid x /\ pd_pubid x' = pd_pubid x /\ pd_log x' = pd_log x.
Proof.
  intros I E d' x' X'. unfold get_attr in E. destruct (at_ (w_docs w) d) as [x| |] eqn:X; cbn [bind] in E; try discriminate.
  apply at_ok in X. destruct (pd_cache x p) as [c|] eqn:C.
  - injection E as <- <-. exists x'. split; [exact X'|]. split; [reflexivity|]. tauto.
  - destruct (touch w d p) as [[w1 l]| |] eqn:T; cbn [bind fst snd] in E; try discriminate.
    destruct (touch_inv _ _ _ _ _ I T) as (I1 & _ & _ & x0 & x1 & X0 & X1 & _ & O1 & (v & V & _ & Ev) & Ed & Oq & (e & Eh) & B1 & B2 & B3 & B4 & B5).
    unfold at_ in E. rewrite X1 in E. cbn [bind] in E. injection E as <- <-. cbn.
    assert (K : forall y q, located_h (w_heap w) y -> held w1 y q = held w y q).
    { intros y q G. unfold held. destruct (pd_objs y q) as [l'|] eqn:Q; [|reflexivity]. destruct (G q l' Q) as (u & U & _).
      rewrite U, Eh. now apply nth_app_l. }
    destruct (Nat.eq_dec d d') as [<-|n].
    + rewrite set_at_same by (apply nth_lt with x1; exact X1). eexists. split; [reflexivity|]. replace x' with x0 by congruence.
      replace x with x0 in * by congruence. split; [|cbn; auto].
      intros q. unfold held. cbn. destruct (part_dec q p) as [->|n].
      * rewrite O1, V. exact Ev.
      * rewrite (Oq q n). change (match held w1 x0 q with Some v0 => v0 | None => empty_of (part_type q) end =
          match held w x0 q with Some v0 => v0 | None => empty_of (part_type q) end). rewrite K; [reflexivity|]. apply (good_at _ _ _ I X0).
    + rewrite set_at_other by exact n. rewrite Ed, set_at_other by exact n. exists x'. split; [exact X'|]. split; [|tauto].
      intros q. change (match held w1 x' q with Some v0 => v0 | None => empty_of (part_type q) end =
          match held w x' q with Some v0 => v0 | None => empty_of (part_type q) end). rewrite K; [reflexivity|]. apply (good_at _ _ _ I X').
Qed.
Lemma get_attr_shows w d p w' wr : inv w -> get_attr w d p = Ok (w', wr) ->
  forall d' q v, doc_shows w' d' q v <-> doc_shows w d' q v.
Proof.
  intros I E d' q v. destruct (get_attr_inv _ _ _ _ _ I E) as (I' & _ & _).
  destruct (nth_error (w_docs w) d') as [x|] eqn:X.
  - destruct (get_attr_held _ _ _ _ _ I E d' x X) as (x' & X' & H & _).
    rewrite (doc_shows_iff _ _ _ _ _ I' X'), (doc_shows_iff _ _ _ _ _ I X). now rewrite H.
  - assert (length (w_docs w') = length (w_docs w)) as L.
    { unfold get_attr in E. destruct (at_ (w_docs w) d) as [x| |]; cbn [bind] in E; try discriminate.
      destruct (pd_cache x p); [congruence|]. destruct (touch w d p) as [[w1 l]| |] eqn:T; cbn [bind fst snd] in E; try discriminate.
      destruct (touch_inv _ _ _ _ _ I T) as (_ & _ & _ & x0 & x1 & _ & _ & _ & _ & _ & Ed & _).
      destruct (at_ (w_docs w1) d) as [y| |]; cbn [bind] in E; try discriminate.
      injection E as <- _.
      cbn. rewrite set_at_length, Ed. apply set_at_length. }
    assert (X' : nth_error (w_docs w') d' = None). { apply nth_error_None. rewrite L. now apply nth_error_None. }
    split; intros (y & n & Y & _); congruence.
Qed.

(** A change made through a Python object: what it reaches. *)
Lemma edit_held w wr v w' r t l x p : step w (OEdit wr v) = Ok (w', r) -> nth_error (w_wraps w) wr = Some (t, l) ->
  inv w -> held w' x p = match pd_objs x p with
                | Some l' => if l' =? l then Some v else nth_error (w_heap w) l'
                | None => None
                end.
Proof.
  intros E R [_ W]. cbn [step_doc] in E. unfold at_ in E. rewrite R in E. cbn [bind fst snd] in E.
  destruct (has_type t v) eqn:T; [|discriminate]. injection E as <- _. unfold held. cbn.
  destruct (pd_objs x p) as [l'|]; [|reflexivity]. destruct (W _ _ _ R) as (u & U & _).
  destruct (Nat.eqb_spec l' l) as [->|n]; [apply set_at_same; apply nth_lt with u; exact U|].
  apply set_at_other. congruence.
Qed.
Lemma edit_docs w wr v w' r : step w (OEdit wr v) = Ok (w', r) -> w_docs w' = w_docs w /\ w_wraps w' = w_wraps w.
Proof.
  intros E. cbn [step_doc] in E. destruct (at_ (w_wraps w) wr) as [[t l]| |]; cbn [bind fst snd] in E; try discriminate.
  destruct (has_type t v); [|discriminate]. injection E as <- _. auto.
Qed.
Lemma edit_ok w wr v t l : nth_error (w_wraps w) wr = Some (t, l) -> has_type t v = true -> exists w', step w (OEdit wr v) = Ok (w', DRet VNone).
Proof. intros R T. cbn [step_doc]. unfold at_. rewrite R. cbn [bind fst snd]. rewrite T. eauto. Qed.
Lemma edit_shows w wr v w' r t l : inv w -> step w (OEdit wr v) = Ok (w', r) -> nth_error (w_wraps w) wr = Some (t, l) ->
  forall d x p u, nth_error (w_docs w) d = Some x ->
  (doc_shows w' d p u <-> if (match pd_objs x p with Some l' => l' =? l | None => false end) then u = v else doc_shows w d p u).
Proof.
  intros I E R d x p u X. destruct (step_inv strict accepts text _ _ _ _ I E) as [I' _].
  destruct (edit_docs _ _ _ _ _ E) as [Ed _]. rewrite (doc_shows_iff w' d x p u I') by (rewrite Ed; exact X).
  rewrite (edit_held _ _ _ _ _ _ _ _ _ E R I). pose proof (doc_shows_iff w d x p u I X) as K. unfold held in K.
  destruct (pd_objs x p) as [l'|]; [|symmetry; exact K]. destruct (l' =? l); [reflexivity|symmetry; exact K].
Qed.

(** ** Attributes and the document *)
Lemma attr_attached w d p w' wr s : inv w -> link w d p s -> s <> Detached -> get_attr w d p = Ok (w', wr) ->
  exists v l x', nth_error (w_wraps w') wr = Some (part_type p, l) /\ nth_error (w_docs w') d = Some x' /\ pd_objs x' p = Some l /\
    content w' wr = Some v /\ doc_shows w d p v /\ has_type (part_type p) v = true.
Proof.
  intros I L Ns E. destruct (get_attr_inv _ _ _ _ _ I E) as (I' & L' & x' & X' & C').
  specialize (L' d p s L). unfold st_step in L'. cbn [fst snd] in L'. rewrite same_attr_true in L'.
  assert (link w' d p Attached) as K by (destruct s; try exact L'; congruence). clear L'.
  unfold link in K. rewrite X' in K. destruct K as (c & l & K1 & K2 & K3). replace c with wr in * by congruence.
  destruct (proj1 (good_at _ _ _ I' X') p l K3) as (v & V & T). exists v, l, x'.
  split; [exact K2|]. split; [exact X'|]. split; [exact K3|]. split; [unfold content; now rewrite K2|]. split; [|exact T].
  apply (get_attr_shows _ _ _ _ _ I E). apply (doc_shows_iff _ _ _ _ _ I' X'). unfold held. rewrite K3, V. reflexivity.
Qed.
(** The attribute shows the document's part, and a change made through it is a
    change of the document. *)
Theorem attr_reads ops w outs d p : run start ops = Ok (w, outs) -> d < length (w_docs w) -> st_run d p ops outs <> Detached ->
  exists w' wr v, get_attr w d p = Ok (w', wr) /\ content w' wr = Some v /\ doc_shows w d p v /\
    (forall d' q u, doc_shows w' d' q u <-> doc_shows w d' q u) /\
    forall u, has_type (part_type p) u = true -> exists w'', step w' (OEdit wr u) = Ok (w'', DRet VNone) /\
      content w'' wr = Some u /\ doc_shows w'' d p u.
Proof.
  intros R Ld Ns. destruct (history strict accepts text _ _ _ R) as [I L].
  destruct (get_attr_ok w d p I Ld) as (w' & wr & E). exists w', wr.
  destruct (attr_attached _ _ _ _ _ _ I (L d p) Ns E) as (v & l & x' & K1 & K2 & K3 & K4 & K5 & K6). exists v.
  split; [exact E|]. split; [exact K4|]. split; [exact K5|]. split; [exact (get_attr_shows _ _ _ _ _ I E)|].
  intros u T. destruct (edit_ok w' wr u _ _ K1 T) as (w'' & S). exists w''. split; [exact S|].
  destruct (get_attr_inv _ _ _ _ _ I E) as (I' & _). destruct (edit_docs _ _ _ _ _ S) as [_ Ew]. split.
  - unfold content. rewrite Ew, K1. pose proof (edit_held _ _ _ _ _ _ _ x' p S K1 I') as H. unfold held in H.
    rewrite K3 in H. rewrite Nat.eqb_refl in H. exact H.
  - apply (edit_shows _ _ _ _ _ _ _ I' S K1 d x' p u K2). rewrite K3, Nat.eqb_refl. reflexivity.
Qed.
(** A detached attribute: changes made through it are lost. *)
Theorem attr_detached ops w outs d p : run start ops = Ok (w, outs) -> st_run d p ops outs = Detached ->
  exists wr, get_attr w d p = Ok (w, wr) /\
    forall u w'', step w (OEdit wr u) = Ok (w'', DRet VNone) -> content w'' wr = Some u /\ forall v, doc_shows w'' d p v <-> doc_shows w d p v.
Proof.
  intros R Ns. destruct (history strict accepts text _ _ _ R) as [I L]. specialize (L d p). rewrite Ns in L. unfold link in L.
  destruct (nth_error (w_docs w) d) as [x|] eqn:X; [|discriminate]. destruct L as (wr & l & K1 & K2 & K3). exists wr. split.
  - unfold get_attr, at_. rewrite X. cbn [bind]. now rewrite K1.
  - intros u w'' S. destruct (edit_docs _ _ _ _ _ S) as [_ Ew]. split.
    + unfold content. rewrite Ew, K2. cbn [step_doc] in S. unfold at_ in S. rewrite K2 in S. cbn [bind fst snd] in S.
      destruct (has_type (part_type p) u); [|discriminate]. injection S as <-. cbn. destruct I as [_ W].
      destruct (W _ _ _ K2) as (u0 & U & _). apply set_at_same. apply nth_lt with u0. exact U.
    + intros v. rewrite (edit_shows _ _ _ _ _ _ _ I S K2 d x p v X).
      destruct (pd_objs x p) as [l'|] eqn:P; [|reflexivity]. destruct (Nat.eqb_spec l' l) as [->|_]; [congruence|reflexivity].
Qed.
(** Without clear no attribute is ever detached. *)
Definition is_clear (op : dop) : bool := match op with OClear _ => true | _ => false end.
Lemma no_clear_attached d p es : forall s, s <> Detached -> (forall e, In e es -> is_clear (fst e) = false) ->
  fold_left (st_step d p) es s <> Detached.
Proof.
  induction es as [|e es IH]; intros s Ns H; cbn [fold_left]; [exact Ns|]. apply IH.
  - pose proof (H e (or_introl eq_refl)) as C. destruct e as [op r]. destruct op; cbn in *; try exact Ns; try discriminate;
      repeat match goal with |- context [if ?b then _ else _] => destruct b | |- context [match ?r with _ => _ end] => destruct r end; congruence.
  - intros e' H'. apply H. now right.
Qed.
Lemma no_clear_st ops outs d p : (forall op, In op ops -> is_clear op = false) -> st_run d p ops outs <> Detached.
Proof.
  intros H. apply no_clear_attached; [discriminate|]. intros [op r] Hin. apply H. exact (in_combine_l _ _ _ _ Hin).
Qed.
End Seen.
