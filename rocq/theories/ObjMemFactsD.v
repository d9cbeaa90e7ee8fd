(** Facts about the memory of the document objects: what copying leaves. *)
From Verif Require Import CStr CStrFacts ObjMemModel ObjMemFacts1 ObjMemFacts2 ObjMemFacts3 ObjMemFacts4 ObjMemFactsA ObjMemFactsB SpecX SpecX2 ObjMemFactsC.

(** As [alike], with members of the copy not yet written, and everything in the copy at
    or beyond [m]. *)
Definition slot_like (A : addr -> addr -> Prop) (s t : str * slot) : Prop :=
  fst s = fst t /\ match snd t with Hole => True | Ptr None => snd s = Ptr None | Ptr (Some y) => exists x, snd s = Ptr (Some x) /\ A x y end.
Fixpoint like (m n : nat) (h h' : mem) (a b : addr) : Prop :=
  match n with
  | O => False
  | S n' => m <= b /\ exists c d, at_ h a c /\ at_ h' b d /\ kind c = kind d /\ Forall2 (slot_like (like m n' h h')) (slots c) (slots d)
  end.
Lemma slot_like_mono (A B : addr -> addr -> Prop) l1 l2 : (forall x y, A x y -> B x y) -> Forall2 (slot_like A) l1 l2 -> Forall2 (slot_like B) l1 l2.
Proof.
  intros H F. induction F as [|s t l1 l2 [E S] F IH]; constructor; [|exact IH]. split; [exact E|]. destruct (snd t) as [|[y|]]; auto. destruct S as (x & Ex & Ax). eauto.
Qed.
Lemma like_mono m m' n h h' g' : m' <= m -> (forall x c, m <= x -> at_ h' x c -> at_ g' x c) -> forall a b, like m n h h' a b -> like m' n h g' a b.
Proof.
  intros L Hh. induction n as [|n IH]; intros a b H; [exact H|]. destruct H as (Hb & c & d & Hc & Hd & K & F). split; [lia|]. exists c, d.
  split; [exact Hc|]. split; [exact (Hh b d Hb Hd)|]. split; [exact K|]. eapply slot_like_mono; [|exact F]. intros x y. apply IH.
Qed.
Definition closed (h : mem) : Prop := forall a c f b, at_ h a c -> In (f, Ptr (Some b)) (slots c) -> b < length h.
Lemma like_back m n h more h' : closed h -> forall a b, a < length h -> like m n (h ++ more) h' a b -> like m n h h' a b.
Proof.
  intros C. induction n as [|n IH]; intros a b La H; [exact H|]. destruct H as (Hb & c & d & Hc & Hd & K & F). split; [exact Hb|]. exists c, d.
  unfold at_ in Hc. rewrite nth_error_app1 in Hc by exact La. split; [exact Hc|]. split; [exact Hd|]. split; [exact K|].
  assert (P : forall f x, In (f, Ptr (Some x)) (slots c) -> x < length h) by (intros f x; apply (C a c f x Hc)). clear Hc K Hd.
  induction F as [|s t l1 l2 [E S] F IHF]; constructor.
  - split; [exact E|]. destruct s as [f s]. cbn in *. destruct (snd t) as [|[y|]]; auto. destruct S as (x & Ex & Ax). exists x. split; [exact Ex|]. apply IH; [|exact Ax]. apply (P f). left. congruence.
  - apply IHF. intros f x Hx. apply (P f). now right.
Qed.
(** What a call of [copy] leaves. *)
Definition left_by (depth : nat) (h : mem) (r : ref) (h' : mem) (r' : ref) : Prop :=
  closed h' /\ (exists more, h' = h ++ more) /\
  match r, r' with None, None => True | Some a, Some b => b < length h' /\ like (length h) depth h h' a b | _, _ => False end.
Lemma at_app h more a c : at_ h a c -> at_ (h ++ more) a c.
Proof. intros H. unfold at_. rewrite nth_error_app1; [exact H|]. apply nth_error_Some. unfold at_ in H. congruence. Qed.
Lemma empty_no s f b : ~ In (f, Ptr (Some b)) (empty_slots s).
Proof. unfold empty_slots. intros H. apply in_map_iff in H as (x & E & _). discriminate. Qed.
Lemma Forall2_snoc {A B} (R : A -> B -> Prop) l1 l2 x y : Forall2 R l1 l2 -> R x y -> Forall2 R (l1 ++ [x]) (l2 ++ [y]).
Proof. intros F H. apply Forall2_app; [exact F|]. constructor; [exact H|constructor]. Qed.

Lemma poke_mid h x rest y : poke (h ++ x :: rest) (length h) y = h ++ y :: rest.
Proof. unfold poke. induction h as [|z h IH]; [reflexivity|]. cbn [app length]. cbn. f_equal. exact IH. Qed.

Section Slots.
Variable depth : nat.
Variable cp : ref -> M ref.
Variable h : mem.
Variable skip : str -> bool.
Hypothesis Hcp : forall g r g' r', closed g -> (forall a, r = Some a -> a < length g) -> cp r g = Ok (g', r') -> left_by depth g r g' r'.
Hypothesis Ch : closed h.
Notation n := (length h).
Lemma copy_slots_ok k todo : forall done0 done mid g', closed (h ++ Some (mkC 0 k (done ++ empty_slots todo)) :: mid) ->
  (forall f x, In (f, Ptr (Some x)) todo -> x < n) ->
  Forall2 (slot_like (like (S n) depth h (h ++ Some (mkC 0 k (done ++ empty_slots todo)) :: mid))) done0 done ->
  forall u, copy_slots cp n skip done todo (h ++ Some (mkC 0 k (done ++ empty_slots todo)) :: mid) = Ok (g', u) ->
  exists done' mid', g' = h ++ Some (mkC 0 k done') :: mid' /\ closed g' /\ Forall2 (slot_like (like (S n) depth h g')) (done0 ++ todo) done'.
Proof.
  induction todo as [|[f s] todo IH]; intros done0 done mid g' C P F u E.
  - cbn in E. injection E as <- _. exists (done ++ []), mid. split; [reflexivity|]. split; [exact C|]. rewrite !app_nil_r. cbn in F. now rewrite app_nil_r in F.
  - cbn [copy_slots] in E. destruct (skip f).
    + assert (Eq : done ++ empty_slots ((f, s) :: todo) = (done ++ [(f, Hole)]) ++ empty_slots todo) by (rewrite <- app_assoc; reflexivity). rewrite Eq in *.
      destruct (IH (done0 ++ [(f, s)]) (done ++ [(f, Hole)]) mid g' C) with (u := u) as (done' & mid' & Eg & C' & F'); [intros f' x Hx; apply (P f'); now right| |exact E|].
      * apply Forall2_snoc; [exact F|]. split; [reflexivity|exact Logic.I].
      * exists done', mid'. rewrite <- app_assoc in F'. auto.
    + destruct s as [|r]; [discriminate E|]. unfold mbind in E.
      destruct (cp r (h ++ Some (mkC 0 k (done ++ empty_slots ((f, Ptr r) :: todo))) :: mid)) as [[g2 r']| |] eqn:E2; try discriminate E. cbn [bind fst snd] in E.
      assert (Lr : forall a, r = Some a -> a < length (h ++ Some (mkC 0 k (done ++ empty_slots ((f, Ptr r) :: todo))) :: mid)).
      { intros a ->. rewrite app_length. pose proof (P f a (or_introl eq_refl)). lia. }
      destruct (Hcp _ _ _ _ C Lr E2) as (C2 & (more & ->) & L).
      rewrite <- app_assoc in E, C2, L. cbn [app] in E, C2, L. unfold rewrite_slots in E. unfold peek in E. rewrite nth_error_app2 in E by lia. rewrite Nat.sub_diag in E. cbn [nth_error bind refc kind fst snd] in E.
      rewrite poke_mid in E.
      set (g3 := h ++ Some (mkC 0 k (done ++ (f, Ptr r') :: empty_slots todo)) :: mid ++ more) in *.
      assert (Eq : done ++ (f, Ptr r') :: empty_slots todo = (done ++ [(f, Ptr r')]) ++ empty_slots todo) by (rewrite <- app_assoc; reflexivity).
      assert (Keep : forall x c, S n <= x -> at_ (h ++ Some (mkC 0 k (done ++ empty_slots ((f, Ptr r) :: todo))) :: mid ++ more) x c -> at_ g3 x c).
      { intros x c Hx H. unfold g3, at_ in *. rewrite nth_error_app2 in * by lia. destruct (x - n) as [|y] eqn:Ey; [lia|]. exact H. }
      assert (Lg : length g3 = length (h ++ Some (mkC 0 k (done ++ empty_slots ((f, Ptr r) :: todo))) :: mid ++ more)) by (unfold g3; now rewrite !app_length).
      assert (C3 : closed g3).
      { intros a c f' b Ha Hb. rewrite Lg. destruct (Nat.eq_dec a n) as [->|Ne].
        - unfold g3, at_ in Ha. rewrite nth_error_app2, Nat.sub_diag in Ha by lia. cbn in Ha. injection Ha as <-. cbn [slots] in Hb. apply in_app_or in Hb as [Hb|[Hb|Hb]].
          + eapply (C2 n); [unfold at_; rewrite nth_error_app2, Nat.sub_diag by lia; reflexivity|]. cbn [slots]. apply in_or_app. left. exact Hb.
          + injection Hb as <- ->. destruct r as [a0|]; [|contradiction]. exact (proj1 L).
          + now apply empty_no in Hb.
        - eapply (C2 a c f' b); [|exact Hb]. unfold g3, at_ in *. destruct (Nat.lt_ge_cases a n) as [La|La].
          + rewrite nth_error_app1 in * by exact La. exact Ha.
          + rewrite nth_error_app2 in * by exact La. destruct (a - n) as [|y] eqn:Ey; [lia|]. exact Ha. }
      assert (F3 : Forall2 (slot_like (like (S n) depth h g3)) (done0 ++ [(f, Ptr r)]) (done ++ [(f, Ptr r')])).
      { apply Forall2_snoc.
        - eapply slot_like_mono; [|exact F]. intros x y. apply like_mono; [lia|]. intros z c Hz H. apply Keep; [exact Hz|]. apply (at_app _ more) in H. rewrite <- app_assoc in H. exact H.
        - split; [reflexivity|]. cbn [snd]. destruct r as [a|], r' as [b|]; try contradiction; [|reflexivity]. exists a. split; [reflexivity|]. destruct L as [_ L].
          apply (like_back (S n) depth h (Some (mkC 0 k (done ++ empty_slots ((f, Ptr (Some a)) :: todo))) :: mid) g3 Ch a b); [exact (P f a (or_introl eq_refl))|].
          eapply like_mono; [| |exact L].
          + rewrite app_length. cbn [length]. lia.
          + intros x c Hx H. apply Keep; [|exact H]. rewrite app_length in Hx. cbn [length] in Hx. lia. }
      unfold g3 in *. rewrite Eq in *. destruct (IH (done0 ++ [(f, Ptr r)]) (done ++ [(f, Ptr r')]) (mid ++ more) g' C3) with (u := u) as (done' & mid' & Eg & C' & F'); [intros f' x Hx; apply (P f'); now right|exact F3|exact E|].
      exists done', mid'. rewrite <- app_assoc in F'. auto.
Qed.
End Slots.
Lemma copy_ok depth : forall h r h' r', closed h -> (forall a, r = Some a -> a < length h) -> copy depth r h = Ok (h', r') -> left_by depth h r h' r'.
Proof.
  induction depth as [|depth IH]; intros h [a|] h' r' C La E; cbn [copy] in E.
  - discriminate E.
  - injection E as <- <-. split; [exact C|]. split; [exists []; now rewrite app_nil_r|exact Logic.I].
  - unfold mbind, look in E. destruct (peek h a) as [c| |] eqn:Pa; try discriminate E. cbn [bind fst snd] in E.
    assert (Ha : at_ h a c) by (unfold peek in Pa; unfold at_; destruct (nth_error h a) as [[c'|]|]; congruence).
    destruct (kind c) eqn:K; try discriminate E; cbn [new bind fst snd] in E;
    (match type of E with context [copy_slots ?cp ?n ?sk [] ?sl ?g] => destruct (copy_slots cp n sk [] sl g) as [[g' u]| |] eqn:Es; try discriminate E; cbn [bind fst snd ret] in E; injection E as <- <-;
       destruct (copy_slots_ok depth cp h sk IH C (kind c) sl [] [] [] g') with (u := u) as (done' & mid' & -> & C' & F);
       [ intros x cx f b Hx Hb; rewrite app_length; cbn [length]; destruct (Nat.lt_ge_cases x (length h)) as [Lx|Lx];
         [ unfold at_ in Hx; rewrite nth_error_app1 in Hx by exact Lx; pose proof (C x cx f b Hx Hb); lia
         | unfold at_ in Hx; rewrite nth_error_app2 in Hx by exact Lx; destruct (x - length h) as [|y]; [|destruct y; discriminate Hx]; cbn in Hx; injection Hx as <-; cbn [slots app] in Hb; now apply empty_no in Hb ]
       | intros f x Hx; exact (C a c f x Ha Hx)
       | constructor
       | rewrite K; exact Es
       | split; [exact C'|]; split; [eexists; reflexivity|]; split; [rewrite app_length; cbn [length]; lia|]; split; [lia|];
         exists c, (mkC 0 (kind c) done'); split; [exact Ha|]; split; [unfold at_; rewrite nth_error_app2, Nat.sub_diag by lia; reflexivity|]; split; [reflexivity|];
         cbn [app] in F; eapply slot_like_mono; [|exact F]; intros x y; apply like_mono; [lia|auto] ]
     end).
  - injection E as <- <-. split; [exact C|]. split; [exists []; now rewrite app_nil_r|exact Logic.I].
Qed.
Lemma G_closed h e : G [] h e -> closed h.
Proof.
  intros I a c f b H Hb. destruct (proj1 (proj2 (G_sound h e I)) a f b) as (cb & Hc); [exists c; auto|]. apply nth_error_Some. unfold at_ in Hc. congruence.
Qed.
Lemma like_alike m n h h' : (forall b d f, at_ h' b d -> ~ In (f, Hole) (slots d)) -> forall a b, like m n h h' a b -> alike n h h' a b.
Proof.
  intros N. induction n as [|n IH]; intros a b H; [exact H|]. destruct H as (_ & c & d & Hc & Hd & K & F). exists c, d. split; [exact Hc|]. split; [exact Hd|]. split; [exact K|].
  assert (Nd : forall f, ~ In (f, Hole) (slots d)) by (intros f; exact (N b d f Hd)). clear Hc Hd K. induction F as [|[f s] [g t] l1 l2 [E S] F IHF]; constructor.
  - split; [exact E|]. cbn [snd fst] in *. destruct t as [|[y|]].
    + exfalso. apply (Nd g). now left.
    + destruct S as (x & -> & A). apply IH. exact A.
    + rewrite S. exact Logic.I.
  - apply IHF. intros f' Hf. apply (Nd f'). now right.
Qed.
Lemma like_fresh m n h h' a b : like m n h h' a b -> forall x, from h' [b] x -> m <= x.
Proof.
  intros L x F. assert (H : exists k y, like m k h h' y x).
  { induction F as [x [<-|[]]|x f y F IH (d & Hd & Hy)]; [eauto|]. destruct IH as (k & z & Lk). destruct k as [|k]; [destruct Lk|].
    destruct Lk as (_ & c & d' & _ & Hd' & _ & F2). unfold at_ in *. assert (d' = d) by congruence. subst d'. clear - F2 Hy.
    induction F2 as [|s t l1 l2 [E S] F2 IHF]; [destruct Hy|]. destruct Hy as [->|Hy]; [|exact (IHF Hy)]. cbn in S. destruct S as (w & _ & A). eauto. }
  destruct H as (k & y & Lk). destruct k; [destruct Lk|]. exact (proj1 Lk).
Qed.
Lemma copy_obj_ok h a h' b : closed h -> a < length h -> copy_obj a h = Ok (h', b) -> (exists more, h' = h ++ more) /\ exists n, like (length h) n h h' a b.
Proof.
  intros C La. unfold copy_obj. generalize room. intros depth. unfold mbind. destruct (copy depth (Some a) h) as [[h1 r]| |] eqn:E; cbn [bind fst snd]; intros R; try discriminate R.
  assert (Lr : forall x, Some a = Some x -> x < length h) by (intros x [= <-]; exact La).
  destruct (copy_ok depth h (Some a) h1 r C Lr E) as (_ & (more & En) & L). destruct r as [b'|]; [|contradiction]. cbn in R. injection R as <- <-. split; [eauto|]. exists depth. exact (proj2 L).
Qed.
Lemma gives_inv (m : M addr) h h' got : gives m h = Ok (h', got) -> exists b, m h = Ok (h', b) /\ got = [b].
Proof. unfold gives, mbind. destruct (m h) as [[h1 b]| |]; cbn; intros E; try discriminate E. injection E as <- <-. eauto. Qed.
Lemma run_copy oracle matches a : run oracle matches (CCopy a) = gives (copy_obj a).
Proof. reflexivity. Qed.
Lemma history_copy oracle matches t h held a k : history oracle matches t h held -> usable h held a k -> copyable k ->
  exists h' b n, run oracle matches (CCopy a) h = Ok (h', [b]) /\ alike n h h' a b /\
    (forall x c, at_ h x c -> at_ h' x c) /\ (forall x, from h' [b] x -> ~ alloc h x).
Proof.
  intros H U C. destruct (hist_G _ _ _ _ _ H) as (lost & I & _).
  destruct (run_ok oracle matches h held lost (CCopy a) held I) as (h' & got & R & more & I' & _); [reflexivity|exists k; auto|].
  assert (La : a < length h). { destruct U as [_ (c & Hc & _)]. apply nth_error_Some. unfold at_ in Hc. congruence. }
  pose proof R as R'. rewrite run_copy in R'. destruct (gives_inv _ _ _ _ R') as (b & R2 & Eb). subst got. destruct (copy_obj_ok h a h' b (G_closed _ _ I) La R2) as ((new & En) & n & L).
  exists h', b, n. split; [exact R|]. split; [|split].
  - eapply like_alike; [|exact L]. exact (proj2 (proj2 (G_sound _ _ I'))).
  - intros x c Hx. subst h'. now apply at_app.
  - intros x Fx (c & Hc). pose proof (like_fresh _ _ _ _ _ _ L x Fx) as Lx. unfold at_ in Hc. apply (proj2 (nth_error_None h x)) in Lx. congruence.
Qed.
