(** Facts about iterators of dictionaries that change. *)
From Verif Require Import CStr CStrFacts PyDictIterModel.

Section Spec.
Context (txt : nat -> str) (outside : nat -> bool) (kind : itkind).

(** Says nothing of entries or objects' lives: the keys touched since the
    iterator was made, [None] when all were. *)
Definition touch (o : dop) (t : option (list str)) : option (list str) :=
  match o, t with
  | (DSet k | DDel k), Some ks => Some (k :: ks)
  | (DClear | DDrop), _ => None
  | _, _ => t
  end.
Definition touched (t : option (list str)) (k : str) : Prop :=
  match t with Some ks => In k ks | None => True end.

(** What the iterator gives for an entry. *)
Definition shows (e : str * nat) : option str * option str :=
  match kind with
  | ItKeys => (Some (fst e), None)
  | ItValues => (None, Some (txt (snd e)))
  | ItItems => (Some (fst e), Some (txt (snd e)))
  end.

(** Given the entries ahead and the touched keys: the answers to a history. *)
Inductive answers : list (str * nat) -> option (list str) -> list dop ->
    res (list (option (option str * option str))) -> Prop :=
| An_nil : forall a t, answers a t [] (Ok [])
| An_op : forall a t o os r, o <> DNext -> answers a (touch o t) os r -> answers a t (o :: os) r
| An_end : forall t os r, answers [] t os r ->
    answers [] t (DNext :: os) (match r with Ok l => Ok (None :: l) | x => x end)
| An_give : forall e a t os r, kind = ItKeys \/ ~ touched t (fst e) \/ outside (snd e) = true ->
    answers a t os r ->
    answers (e :: a) t (DNext :: os) (match r with Ok l => Ok (Some (shows e) :: l) | x => x end)
| An_lost : forall e a t os, kind <> ItKeys -> touched t (fst e) -> outside (snd e) = false ->
    answers (e :: a) t (DNext :: os) UB.

(** The objects of the first entries [l0] are in the dictionary exactly under
    the keys not touched; newer objects have numbers not below [n]. *)
Definition inv (l0 : list (str * nat)) (n : nat) (s : dst) (t : option (list str)) : Prop :=
  (forall e, In e (ahead s) -> In e l0) /\ n <= nextobj s /\
  (forall e, In e l0 -> ~ touched t (fst e) -> In e (ents s)) /\
  (forall e, In e (ents s) -> (In e l0 /\ ~ touched t (fst e)) \/ n <= snd e).

Lemma in_without k e l : In e (without k l) <-> In e l /\ fst e <> k.
Proof.
  unfold without. rewrite filter_In. destruct (streq_spec (fst e) k) as [E|E]; cbn; intuition congruence.
Qed.

Lemma inv_step l0 n s t o s' out : inv l0 n s t -> o <> DNext -> dstep txt outside kind s o = Ok (s', out) ->
  inv l0 n s' (touch o t) /\ out = [] /\ ahead s' = ahead s.
Proof.
  intros (Ha & Hn & H1 & H2) No E. destruct o as [k|k| | |]; cbn [dstep] in E; try congruence; injection E as <- <-;
    (split; [|auto]); (split; [exact Ha|]); cbn [nextobj ents ahead touch].
  - split; [lia|]. split.
    + intros e He Ht. right. apply in_without. destruct t as [ks|]; cbn in Ht; [|contradiction Ht; exact I].
      split; [apply H1; [exact He|cbn; tauto]|]. intros Hk. apply Ht. left. congruence.
    + intros e [<-|He]; [right; exact Hn|]. apply in_without in He as [He Hk].
      destruct (H2 e He) as [[Hi Ht]|Hi]; [|right; exact Hi]. left. split; [exact Hi|].
      destruct t as [ks|]; cbn in *; [|exact Ht]. intros [X|X]; [congruence|contradiction].
  - split; [lia|]. split.
    + intros e He Ht. apply in_without. destruct t as [ks|]; cbn in Ht; [|contradiction Ht; exact I].
      split; [apply H1; [exact He|cbn; tauto]|]. intros Hk. apply Ht. left. congruence.
    + intros e He. apply in_without in He as [He Hk].
      destruct (H2 e He) as [[Hi Ht]|Hi]; [|right; exact Hi]. left. split; [exact Hi|].
      destruct t as [ks|]; cbn in *; [|exact Ht]. intros [X|X]; [congruence|contradiction].
  - split; [lia|]. split; [|intros e []]. intros e _ Ht. destruct t; contradiction Ht; exact I.
  - split; [lia|]. split; [|intros e []]. intros e _ Ht. destruct t; contradiction Ht; exact I.
Qed.

Lemma touched_dec t k : {touched t k} + {~ touched t k}.
Proof.
  destruct t as [ks|]; cbn; [|left; exact I]. apply in_dec. intros a b.
  destruct (streq a b) eqn:E; [left; apply streq_iff, E|right; apply streq_false_iff, E].
Qed.

Lemma inv_exists l0 n s t e : inv l0 n s t -> NoDup (map snd l0) -> (forall e, In e l0 -> snd e < n) -> In e l0 ->
  exists_ outside s (snd e) = true <-> ~ touched t (fst e) \/ outside (snd e) = true.
Proof.
  intros (_ & _ & H1 & H2) Hd Hb He. unfold exists_. rewrite orb_true_iff, existsb_exists. split.
  - intros [(e' & Hi & Hx)|Ho]; [|auto]. apply Nat.eqb_eq in Hx. left.
    destruct (H2 e' Hi) as [[Hl Ht]|Hl].
    + assert (e' = e) as ->; [|exact Ht].
      clear - Hd He Hl Hx. induction l0 as [|a l IH]; [destruct He|]. cbn in Hd. inversion Hd as [|? ? Hni Hd']; subst.
      destruct He as [->|He], Hl as [->|Hl]; auto.
      * exfalso. apply Hni. rewrite <- Hx. apply in_map, Hl.
      * exfalso. apply Hni. rewrite Hx. apply in_map, He.
    + specialize (Hb e He). lia.
  - intros [Ht|Ho]; [|auto]. left. exists e. split; [apply H1; assumption|apply Nat.eqb_refl].
Qed.

Lemma dout_spec s k x :
  (dout txt outside kind s k x = Ok (shows (k, x)) /\ (kind = ItKeys \/ exists_ outside s x = true)) \/
  (dout txt outside kind s k x = UB /\ kind <> ItKeys /\ exists_ outside s x = false).
Proof.
  unfold dout, shows. destruct kind; cbn [fst snd]; [auto| |];
    destruct (exists_ outside s x); [left; auto|right|left; auto|right]; repeat split; discriminate.
Qed.

Lemma run_ok l0 n : NoDup (map snd l0) -> (forall e, In e l0 -> snd e < n) -> forall os s t, inv l0 n s t ->
  answers (ahead s) t os (match drun txt outside kind s os with Ok r => Ok (snd r) | UB => UB | NoFuel => NoFuel end).
Proof.
  intros Hd Hb. induction os as [|o os IH]; intros s t H; [constructor|]. cbn [drun].
  assert (D : {o = DNext} + {o <> DNext}) by (destruct o; (left; reflexivity) || (right; discriminate)).
  destruct D as [->|No].
  - cbn [dstep]. unfold dnext. destruct (ahead s) as [|e a] eqn:Ea.
    + cbn [bind fst snd]. specialize (IH s t H). rewrite Ea in IH.
      destruct (drun txt outside kind s os) as [r| |]; cbn [bind fst snd app];
        exact (An_end t os _ IH).
    + assert (Hin : In e l0) by (destruct H as (Ha & _); apply Ha; rewrite Ea; left; reflexivity).
      pose proof (inv_exists l0 n s t e H Hd Hb Hin) as Hx.
      assert (H' : inv l0 n (mkDst (ents s) (nextobj s) a) t).
      { destruct H as (Ha & Hr). split; [|exact Hr]. intros e' He'. apply Ha. rewrite Ea. right; exact He'. }
      specialize (IH _ t H'). cbn [ahead] in IH. destruct e as [k x]; cbn [fst snd] in *.
      destruct (dout_spec s k x) as [[-> Hc]|(-> & Hk & Hf)]; cbn [bind fst snd].
      * assert (Hc' : kind = ItKeys \/ ~ touched t k \/ outside x = true).
        { destruct Hc as [Hc|Hc]; [left; exact Hc|right; apply Hx, Hc]. }
        destruct (drun txt outside kind (mkDst (ents s) (nextobj s) a) os) as [r| |]; cbn [bind fst snd app];
          exact (An_give (k, x) a t os _ Hc' IH).
      * apply An_lost; [exact Hk| |]; cbn [fst snd].
        -- destruct (touched_dec t k) as [Ht|Ht]; [exact Ht|].
           rewrite (proj2 Hx (or_introl Ht)) in Hf. discriminate.
        -- destruct (outside x) eqn:O; [|reflexivity].
           rewrite (proj2 Hx (or_intror eq_refl)) in Hf. discriminate.
  - destruct (dstep txt outside kind s o) as [[s' out]| |] eqn:E.
    + destruct (inv_step l0 n s t o s' out H No E) as (H' & -> & Ha). cbn [bind fst snd app].
      specialize (IH s' _ H'). rewrite Ha in IH. apply An_op; [exact No|].
      destruct (drun txt outside kind s' os) as [r| |]; exact IH.
    + destruct o; cbn in E; congruence.
    + destruct o; cbn in E; congruence.
Qed.

Lemma answers_det a t os r1 : answers a t os r1 -> forall r2, answers a t os r2 -> r1 = r2.
Proof.
  induction 1 as [a t|a t o os r No H IH|t os r H IH|e a t os r Hc H IH|e a t os Hk Ht Ho]; intros r2 H2;
    inversion H2; subst; try congruence; auto.
  - match goal with X : answers [] t os _ |- _ => now rewrite (IH _ X) end.
  - match goal with X : answers a t os _ |- _ => now rewrite (IH _ X) end.
  - destruct Hc as [Hc|[Hc|Hc]]; [contradiction|contradiction|congruence].
  - match goal with X : _ \/ _ \/ _ |- _ => destruct X as [Hc|[Hc|Hc]]; [contradiction|contradiction|congruence] end.
Qed.

(** What a history of calls on the iterator answers. *)
Definition outcome (l : list (str * nat)) (n : nat) (os : list dop) : res (list (option (option str * option str))) :=
  match drun txt outside kind (dict_iter l n) os with Ok r => Ok (snd r) | UB => UB | NoFuel => NoFuel end.

Lemma outcome_exact l n os : NoDup (map snd l) -> (forall e, In e l -> snd e < n) ->
  forall r, outcome l n os = r <-> answers l (Some []) os r.
Proof.
  intros Hd Hb r.
  assert (H : answers l (Some []) os (outcome l n os)).
  { apply (run_ok l n Hd Hb os (dict_iter l n) (Some [])). split; [auto|]. split; [cbn; lia|]. cbn.
    split; [auto|]. intros e He. left. auto. }
  split; [intros <-; exact H|]. intros H'. exact (answers_det _ _ _ _ H _ H').
Qed.

(** The number of times the iterator is asked. *)
Fixpoint asked (os : list dop) : nat :=
  match os with [] => 0 | DNext :: r => S (asked r) | _ :: r => asked r end.
Definition gives (l : list (str * nat)) (c : nat) : list (option (option str * option str)) :=
  firstn c (map (fun e => Some (shows e)) l) ++ repeat None (c - length l).

Lemma answers_free os : forall a t, kind = ItKeys \/ (Forall (fun o => o = DNext) os /\ t = Some []) ->
  answers a t os (Ok (gives a (asked os))).
Proof.
  induction os as [|o os IH]; intros a t H.
  - cbn. replace (gives a 0) with (@nil (option (option str * option str))) by reflexivity. constructor.
  - assert (D : {o = DNext} + {o <> DNext}) by (destruct o; (left; reflexivity) || (right; discriminate)).
    destruct D as [->|No].
    + assert (H' : kind = ItKeys \/ (Forall (fun o => o = DNext) os /\ t = Some [])).
      { destruct H as [H|[H Ht]]; [left; exact H|right]. inversion H; subst. auto. }
      specialize (IH). cbn [asked]. destruct a as [|e a].
      * replace (gives [] (S (asked os))) with (@None (option str * option str) :: gives [] (asked os))
          by (unfold gives; cbn; destruct (asked os); reflexivity).
        exact (An_end t os _ (IH [] t H')).
      * change (gives (e :: a) (S (asked os))) with (Some (shows e) :: gives a (asked os)).
        refine (An_give e a t os _ _ (IH a t H')).
        destruct H as [H|[_ ->]]; [left; exact H|right; left; cbn; tauto].
    + replace (asked (o :: os)) with (asked os) by (destruct o; cbn; congruence).
      apply An_op; [exact No|]. apply IH. destruct H as [H|[H _]]; [left; exact H|]. inversion H; subst. congruence.
Qed.
Lemma free_outcome l n os : NoDup (map snd l) -> (forall e, In e l -> snd e < n) ->
  kind = ItKeys \/ Forall (fun o => o = DNext) os -> outcome l n os = Ok (gives l (asked os)).
Proof.
  intros Hd Hb H. apply outcome_exact; [exact Hd|exact Hb|]. apply answers_free.
  destruct H as [H|H]; [left; exact H|right; auto].
Qed.

Lemma lost_outcome k x l n o os : NoDup (map snd ((k, x) :: l)) -> (forall e, In e ((k, x) :: l) -> snd e < n) ->
  kind <> ItKeys -> outside x = false -> o = DSet k \/ o = DDel k \/ o = DClear \/ o = DDrop ->
  outcome ((k, x) :: l) n (o :: DNext :: os) = UB.
Proof.
  intros Hd Hb Hk Ho Hc. apply outcome_exact; [exact Hd|exact Hb|].
  apply An_op; [intuition congruence|]. apply An_lost; [exact Hk| |exact Ho].
  destruct Hc as [->|[->|[->| ->]]]; cbn; auto.
Qed.
End Spec.
