(** Facts about the Python document object. *)
From Coq Require Import Lia.
From Verif Require Import CStr CStrFacts HSListModel HSListFacts SetModel SetFacts
  RTreeModel RTreeFacts RTreeFacts2 RTreeFacts3 RTreeFacts4 MRTreeModel MRTreeFacts MRTreeFacts2
  SpecA SpecB ObjModel ObjFacts ObjFacts2 SpecC DocModel DocFacts DocFacts2
  ParseModel XmlModel ValidateModel PyObjModel PyDictModel PyDocModel.

(** * Lists and maps *)
Lemma part_eqb_eq a b : part_eqb a b = true <-> a = b.
Proof. split; [destruct a, b; cbn; congruence|intros <-; destruct a; reflexivity]. Qed.
Lemma part_eqb_refl a : part_eqb a a = true. Proof. destruct a; reflexivity. Qed.
Lemma part_dec (a b : part) : {a = b} + {a <> b}. Proof. decide equality. Qed.
Lemma part_eqb_neq a b : a <> b -> part_eqb a b = false.
Proof. intros n. destruct (part_eqb a b) eqn:E; [apply part_eqb_eq in E; contradiction|reflexivity]. Qed.
Lemma in_parts p : In p all_parts. Proof. destruct p; cbn; tauto. Qed.
Lemma all_parts_nodup : NoDup all_parts.
Proof. unfold all_parts. repeat (constructor; [cbn; intuition discriminate|]). constructor. Qed.
Lemma ptype_eqb_eq a b : ptype_eqb a b = true <-> a = b.
Proof. split; [destruct a, b; cbn; congruence|intros <-; destruct a; reflexivity]. Qed.
Lemma upd_same {A} (f : part -> option A) p x : upd f p x p = x.
Proof. unfold upd. now rewrite part_eqb_refl. Qed.
Lemma upd_other {A} (f : part -> option A) p q x : p <> q -> upd f p x q = f q.
Proof. intros n. unfold upd. now rewrite part_eqb_neq. Qed.
Lemma set_at_same {A} (l : list A) i x : i < length l -> nth_error (set_at l i x) i = Some x.
Proof. revert i. induction l as [|y l IH]; intros [|i] L; cbn in *; try lia; [reflexivity|apply IH; lia]. Qed.
Lemma set_at_other {A} (l : list A) i j x : i <> j -> nth_error (set_at l i x) j = nth_error l j.
Proof. revert i j. induction l as [|y l IH]; intros [|i] [|j] n; cbn; try reflexivity; try congruence. apply IH. congruence. Qed.
Lemma set_at_length {A} (l : list A) i x : length (set_at l i x) = length l.
Proof. revert i. induction l as [|y l IH]; intros [|i]; cbn; congruence. Qed.
Lemma at_ok {A} (l : list A) i x : at_ l i = Ok x <-> nth_error l i = Some x.
Proof. unfold at_. destruct (nth_error l i); split; congruence. Qed.
Lemma at_lt {A} (l : list A) i x : at_ l i = Ok x -> i < length l.
Proof. intros H. apply at_ok in H. apply nth_error_Some. congruence. Qed.
Lemma nth_app_l {A} (l m : list A) i x : nth_error l i = Some x -> nth_error (l ++ m) i = Some x.
Proof. intros H. rewrite nth_error_app1; [exact H|]. apply nth_error_Some. congruence. Qed.
Lemma nth_snoc {A} (l : list A) x : nth_error (l ++ [x]) (length l) = Some x.
Proof. rewrite nth_error_app2 by lia. now rewrite Nat.sub_diag. Qed.
Lemma nth_lt {A} (l : list A) i x : nth_error l i = Some x -> i < length l.
Proof. intros H. apply nth_error_Some. congruence. Qed.

(** * The document behind a Comps object *)
(** What the library's getter of a part gives (comps_doc.h:44-101). *)
Definition doc_part (d : doc) (p : part) : res dval :=
  v <- rt_get (d_objs d) (part_key p) ;; Ok (match v with Some x => x | None => empty_of (part_type p) end).

(** * Taking over a document, and the document behind an object *)
Lemma adopt_spec d ps : forall h o h' o', adopt_parts d ps h o = Ok (h', o') -> NoDup ps ->
  (forall p, In p ps -> o p = None) ->
  (exists ext, h' = h ++ ext) /\
  (forall p, ~ In p ps -> o' p = o p) /\
  (forall p, In p ps -> match look (troot (d_objs d)) (part_key p) with
                        | Some v => exists l, o' p = Some l /\ length h <= l /\ nth_error h' l = Some v /\ has_type (part_type p) v = true
                        | None => o' p = None
                        end) /\
  (forall p q l, In p ps -> In q ps -> o' p = Some l -> o' q = Some l -> p = q).
Proof.
  induction ps as [|p ps IH]; intros h o h' o' E N Z; cbn [adopt_parts] in E.
  - injection E as <- <-. split; [exists []; now rewrite app_nil_r|]. split; [reflexivity|]. split; [easy|easy].
  - inversion N as [|? ? Np N']; subst. rewrite rt_get_look in E. cbn [bind] in E.
    destruct (look (troot (d_objs d)) (part_key p)) as [v|] eqn:L.
    + destruct (has_type (part_type p) v) eqn:HT; [|discriminate].
      destruct (IH _ _ _ _ E N') as ([ext ->] & Ho & Hin & Hinj).
      { intros q Hq. rewrite upd_other; [apply Z; now right|]. intros ->. contradiction. }
      assert (Hp : o' p = Some (length h)) by (rewrite Ho by exact Np; apply upd_same).
      assert (Hn : nth_error ((h ++ [v]) ++ ext) (length h) = Some v) by (apply nth_app_l, nth_snoc).
      assert (Hge : forall q l, In q ps -> o' q = Some l -> length h < l).
      { intros q l Hq Hl. specialize (Hin q Hq). destruct (look (troot (d_objs d)) (part_key q)); [|congruence].
        destruct Hin as (l' & E1 & E2 & _). rewrite app_length in E2. cbn in E2. replace l with l' by congruence. lia. }
      split; [exists ([v] ++ ext); now rewrite app_assoc|]. split; [|split].
      * intros q Hq. rewrite Ho by (intros K; apply Hq; now right). apply upd_other. intros ->. apply Hq. now left.
      * intros q [<-|Hq].
        -- rewrite L. exists (length h). auto.
        -- specialize (Hin q Hq). destruct (look (troot (d_objs d)) (part_key q)); [|exact Hin].
           destruct Hin as (l' & E1 & E2 & E3 & E4). exists l'. rewrite app_length in E2. cbn in E2. split; [exact E1|]. split; [lia|]. split; [exact E3|exact E4].
      * intros q r l [<-|Hq] [<-|Hr] E1 E2; [reflexivity| | |exact (Hinj _ _ _ Hq Hr E1 E2)].
        -- specialize (Hge r l Hr E2). replace l with (length h) in Hge by congruence. lia.
        -- specialize (Hge q l Hq E1). replace l with (length h) in Hge by congruence. lia.
    + destruct (IH _ _ _ _ E N') as (He & Ho & Hin & Hinj). { intros q Hq. apply Z. now right. }
      assert (Hp : o' p = None) by (rewrite Ho by exact Np; apply Z; now left).
      split; [exact He|]. split; [|split].
      * intros q Hq. apply Ho. intros K. apply Hq. now right.
      * intros q [<-|Hq]; [now rewrite L|exact (Hin q Hq)].
      * intros q r l [<-|Hq] [<-|Hr] E1 E2; try congruence. exact (Hinj _ _ _ Hq Hr E1 E2).
Qed.
Lemma adopt_ok h d lg : (forall p v, look (troot (d_objs d)) (part_key p) = Some v -> has_type (part_type p) v = true) ->
  exists h' x, adopt h d lg = Ok (h', x).
Proof.
  intros T. unfold adopt. enough (exists r, adopt_parts d all_parts h none = Ok r) as [r ->] by (cbn; eauto).
  generalize (@none nat). generalize all_parts. intros ps. revert h. induction ps as [|p ps IH]; intros h o; cbn [adopt_parts]; [eauto|].
  rewrite rt_get_look. cbn [bind]. destruct (look _ _) as [v|] eqn:L; [rewrite (T _ _ L)|]; apply IH.
Qed.
Lemma adopt_all h d lg h' x : adopt h d lg = Ok (h', x) ->
  (exists ext, h' = h ++ ext) /\
  (forall p, match look (troot (d_objs d)) (part_key p) with
             | Some v => exists l, pd_objs x p = Some l /\ length h <= l /\ nth_error h' l = Some v /\ has_type (part_type p) v = true
             | None => pd_objs x p = None
             end) /\
  (forall p q l, pd_objs x p = Some l -> pd_objs x q = Some l -> p = q) /\
  (forall p, pd_cache x p = None) /\ pd_log x = lg /\
  pd_enc x = d_enc d /\ pd_name x = d_name d /\ pd_sysid x = d_sysid d /\ pd_pubid x = d_pubid d.
Proof.
  unfold adopt. intros E. destruct (adopt_parts d all_parts h none) as [[h1 o1]| |] eqn:A; cbn in E; try discriminate.
  injection E as <- <-. destruct (adopt_spec _ _ _ _ _ _ A all_parts_nodup) as (H1 & _ & H2 & H3). { reflexivity. }
  split; [exact H1|]. split; [intros p; exact (H2 p (in_parts p))|].
  split; [intros p q l; exact (H3 p q l (in_parts p) (in_parts q))|]. cbn. tauto.
Qed.

Lemma part_key_in p : In (part_key p) doc_keys. Proof. destruct p; cbn; tauto. Qed.
Lemma part_key_inj p q : part_key p = part_key q -> p = q.
Proof. destruct p, q; intros E; try reflexivity; vm_compute in E; discriminate. Qed.
Definition located (w : world) (x : pydoc) : Prop :=
  forall p l, pd_objs x p = Some l -> exists v, nth_error (w_heap w) l = Some v /\ has_type (part_type p) v = true.
Definition held (w : world) (x : pydoc) (p : part) : option dval :=
  match pd_objs x p with Some l => nth_error (w_heap w) l | None => None end.
Lemma put_all_spec w x ps : forall t, (forall p l, pd_objs x p = Some l -> exists v, nth_error (w_heap w) l = Some v) ->
  NoDup ps -> within (fun k => In k doc_keys) t ->
  exists t', put_all w x ps t = Ok t' /\ within (fun k => In k doc_keys) t' /\
    forall p, look (troot t') (part_key p)
      = if in_dec part_dec p ps then match held w x p with Some v => Some v | None => look (troot t) (part_key p) end
        else look (troot t) (part_key p).
Proof.
  destruct doc_keys_ok as [K1 K2].
  induction ps as [|p ps IH]; intros t L N W; cbn [put_all].
  - exists t. split; [reflexivity|]. split; [exact W|]. reflexivity.
  - inversion N as [|? ? Np N']; subst. unfold held. destruct (pd_objs x p) as [l|] eqn:P.
    + destruct (L p l P) as [v Hv]. unfold at_. rewrite Hv. cbn [bind].
      destruct (within_set _ K1 K2 t (part_key p) (Some v) W (part_key_in p)) as (t1 & -> & W1 & H1). cbn [bind].
      destruct (IH t1 L N' W1) as (t2 & -> & W2 & H2). exists t2. split; [reflexivity|]. split; [exact W2|].
      intros q. rewrite H2. destruct (in_dec part_dec q ps) as [i|n]; destruct (in_dec part_dec q (p :: ps)) as [i'|n'];
        try (exfalso; cbn in *; tauto).
      * rewrite H1. destruct (streq_spec (part_key q) (part_key p)) as [e|_]; [|reflexivity].
        apply part_key_inj in e. subst q. contradiction.
      * destruct i' as [<-|i']; [|contradiction]. rewrite P, Hv, H1. destruct (streq_spec (part_key p) (part_key p)); congruence.
      * rewrite H1. destruct (streq_spec (part_key q) (part_key p)) as [e|_]; [|reflexivity].
        apply part_key_inj in e. subst q. cbn in n'. tauto.
    + cbn [bind]. destruct (IH t L N' W) as (t2 & -> & W2 & H2). exists t2. split; [reflexivity|]. split; [exact W2|].
      intros q. rewrite H2. unfold held. destruct (in_dec part_dec q ps) as [i|n]; destruct (in_dec part_dec q (p :: ps)) as [i'|n'];
        try reflexivity; try (exfalso; cbn in *; tauto).
      destruct i' as [<-|i']; [|contradiction]. now rewrite P.
Qed.
Lemma view_spec w x : located w x ->
  exists d, view w x = Ok d /\ within (fun k => In k doc_keys) (d_objs d) /\
    (forall p, look (troot (d_objs d)) (part_key p) = held w x p) /\
    d_enc d = pd_enc x /\ d_name d = pd_name x /\ d_sysid d = pd_sysid x /\ d_pubid d = pd_pubid x.
Proof.
  intros L. destruct (put_all_spec w x all_parts rt_create) as (t & E & W & H).
  { intros p l Hp. destruct (L p l Hp) as (v & Hv & _). eauto. } { exact all_parts_nodup. } { apply within_create. }
  unfold view. rewrite E. cbn [bind]. eexists. split; [reflexivity|]. cbn. split; [exact W|]. split; [|tauto].
  intros p. rewrite H. destruct (in_dec part_dec p all_parts) as [_|n]; [|destruct n; apply in_parts].
  destruct (held w x p); [reflexivity|]. destruct p; reflexivity.
Qed.

(** * Types of locations *)
Definition located_h (h : list dval) (x : pydoc) : Prop :=
  forall p l, pd_objs x p = Some l -> exists v, nth_error h l = Some v /\ has_type (part_type p) v = true.
Definition cached_h (ws : list (ptype * nat)) (x : pydoc) : Prop :=
  forall p wr, pd_cache x p = Some wr -> exists l, nth_error ws wr = Some (part_type p, l).
Definition wraps_h (h : list dval) (ws : list (ptype * nat)) : Prop :=
  forall wr t l, nth_error ws wr = Some (t, l) -> exists v, nth_error h l = Some v /\ has_type t v = true.
Definition keeps (h h' : list dval) : Prop :=
  forall l t v, nth_error h l = Some v -> has_type t v = true -> exists v', nth_error h' l = Some v' /\ has_type t v' = true.
Definition longer {A} (l l' : list A) : Prop := forall i x, nth_error l i = Some x -> nth_error l' i = Some x.
Definition good (h : list dval) (ws : list (ptype * nat)) (x : pydoc) : Prop := located_h h x /\ cached_h ws x.
Definition inv (w : world) : Prop := Forall (good (w_heap w) (w_wraps w)) (w_docs w) /\ wraps_h (w_heap w) (w_wraps w).
Lemma keeps_refl h : keeps h h. Proof. intros l t v. eauto. Qed.
Lemma keeps_app h e : keeps h (h ++ e). Proof. intros l t v H T. exists v. split; [apply nth_app_l, H|exact T]. Qed.
Lemma longer_refl {A} (l : list A) : longer l l. Proof. intros i x H. exact H. Qed.
Lemma longer_app {A} (l e : list A) : longer l (l ++ e). Proof. intros i x. apply nth_app_l. Qed.
Lemma has_type_fun t t' v : has_type t v = true -> has_type t' v = true -> t = t'.
Proof. destruct t, t', v; cbn; congruence. Qed.
Lemma keeps_edit h l t v : (exists u, nth_error h l = Some u /\ has_type t u = true) -> has_type t v = true -> keeps h (set_at h l v).
Proof.
  intros (u & U & Tu) Tv l' t' v' H T. destruct (Nat.eq_dec l l') as [<-|n].
  - rewrite set_at_same by (apply nth_lt with u; exact U). exists v. split; [reflexivity|].
    replace v' with u in T by congruence. now rewrite (has_type_fun _ _ _ T Tu).
  - rewrite set_at_other by exact n. eauto.
Qed.
Lemma good_mono h ws h' ws' x : keeps h h' -> longer ws ws' -> good h ws x -> good h' ws' x.
Proof.
  intros K L [G C]. split.
  - intros p l P. destruct (G p l P) as (v & V & T). exact (K _ _ _ V T).
  - intros p wr P. destruct (C p wr P) as (l & E). exists l. exact (L _ _ E).
Qed.
Lemma goods_mono h ws h' ws' xs : keeps h h' -> longer ws ws' -> Forall (good h ws) xs -> Forall (good h' ws') xs.
Proof. intros K L. apply Forall_impl. intros x. apply good_mono; assumption. Qed.
Lemma wraps_mono h h' ws : keeps h h' -> wraps_h h ws -> wraps_h h' ws.
Proof. intros K W wr t l E. destruct (W wr t l E) as (v & V & T). exact (K _ _ _ V T). Qed.
Lemma wraps_snoc h ws t l v : wraps_h h ws -> nth_error h l = Some v -> has_type t v = true -> wraps_h h (ws ++ [(t, l)]).
Proof.
  intros W V T wr t' l' E. destruct (Nat.lt_ge_cases wr (length ws)) as [L|G].
  - rewrite nth_error_app1 in E by exact L. exact (W _ _ _ E).
  - rewrite nth_error_app2 in E by exact G. destruct (wr - length ws) as [|n]; cbn in E.
    + injection E as <- <-. eauto.
    + destruct n; discriminate.
Qed.
Lemma Forall_set_at {A} (P : A -> Prop) l i x : Forall P l -> P x -> Forall P (set_at l i x).
Proof. intros H X. revert i. induction H as [|y l Y H IH]; intros [|i]; cbn; constructor; auto. Qed.
Lemma good_at w d x : inv w -> nth_error (w_docs w) d = Some x -> good (w_heap w) (w_wraps w) x.
Proof. intros [F _] E. rewrite Forall_forall in F. apply F. exact (nth_error_In _ _ E). Qed.
Lemma adopt_good h d lg h' x ws : adopt h d lg = Ok (h', x) -> good h' ws x /\ keeps h h'.
Proof.
  intros A. destruct (adopt_all _ _ _ _ _ A) as ([ext ->] & P & _ & C & _). split; [|apply keeps_app]. split.
  - intros p l E. specialize (P p). destruct (look _ _) as [v|]; [|congruence].
    destruct P as (l' & E1 & _ & V & T). exists v. replace l with l' by congruence. auto.
  - intros p wr E. congruence.
Qed.

(** * What an attribute is attached to *)
Inductive status := Unread | Attached | Detached.
(** The effect of a call and its result on the attribute [p] of document [d]. *)
Definition same_attr (d d' : nat) (p p' : part) : bool := (d =? d') && part_eqb p p'.
Definition st_step (d : nat) (p : part) (s : status) (e : dop * dres outv) : status :=
  match fst e with
  | OGet d' p' => if same_attr d d' p p' then match s with Unread => Attached | _ => s end else s
  | OSet d' p' _ => if same_attr d d' p p' then match snd e with DRet _ => Attached | _ => s end else s
  | OClear d' => if d =? d' then match s with Unread => Unread | _ => Detached end else s
  | OLoadStr d' _ _ => if d =? d' then match snd e with DRaise _ => s | _ => Unread end else s
  | OLoadFile d' _ _ => if d =? d' then match snd e with DRaise EType | DRaise EIO => s | _ => Unread end else s
  | _ => s
  end.
Definition st_run (d : nat) (p : part) (ops : list dop) (outs : list (dres outv)) : status :=
  fold_left (st_step d p) (combine ops outs) Unread.

Definition link (w : world) (d : nat) (p : part) (s : status) : Prop :=
  match nth_error (w_docs w) d with
  | None => s = Unread
  | Some x =>
      match s with
      | Unread => pd_cache x p = None
      | Attached => exists wr l, pd_cache x p = Some wr /\ nth_error (w_wraps w) wr = Some (part_type p, l) /\ pd_objs x p = Some l
      | Detached => exists wr l, pd_cache x p = Some wr /\ nth_error (w_wraps w) wr = Some (part_type p, l) /\ pd_objs x p <> Some l
      end
  end.
Lemma link_mono h ws xs h' ws' xs' d p s : longer ws ws' -> nth_error xs' d = nth_error xs d ->
  link (mkWorld h ws xs) d p s -> link (mkWorld h' ws' xs') d p s.
Proof.
  intros L E. unfold link. cbn. rewrite E. destruct (nth_error xs d) as [x|]; [|exact (fun H => H)].
  destruct s; [exact (fun H => H)| |]; intros (wr & l & H1 & H2 & H3); exists wr, l; split; auto.
Qed.
Lemma link_snoc h ws xs h' x d p s : (forall q, pd_cache x q = None) ->
  link (mkWorld h ws xs) d p s -> link (mkWorld h' ws (xs ++ [x])) d p s.
Proof.
  intros C H. destruct (Nat.lt_ge_cases d (length xs)) as [L|G].
  - refine (link_mono _ _ _ _ _ _ _ _ _ (longer_refl _) _ H). now apply nth_error_app1.
  - unfold link in *. cbn in *. rewrite (proj2 (nth_error_None xs d) G) in H. subst s.
    rewrite nth_error_app2 by exact G. destruct (d - length xs) as [|n]; cbn; [apply C|]. now destruct n.
Qed.

Section Steps.
Variable strict : bool.
Variable accepts : list (call * bool) -> call -> bool.
Variable text : logitem -> str.
Notation step := (step_doc strict accepts text).
Notation run := (run_docs strict accepts text).

Lemma wrap_doc_inv w n w' r : inv w -> wrap_doc w n = Ok (w', r) -> inv w' /\ forall d p s, link w d p s -> link w' d p s.
Proof.
  intros I E. unfold wrap_doc in E. destruct (adopt (w_heap w) n []) as [[h x]| |] eqn:A; cbn in E; try discriminate.
  injection E as <- _. destruct (adopt_good _ _ _ _ _ (w_wraps w) A) as [G K]. destruct I as [F W]. split.
  - split; cbn; [|exact (wraps_mono _ _ _ K W)]. apply Forall_app. split.
    + exact (goods_mono _ _ _ _ _ K (longer_refl _) F).
    + apply Forall_cons; [exact G|constructor].
  - intros d p s. destruct w as [h0 ws xs]. apply link_snoc. apply (adopt_all _ _ _ _ _ A).
Qed.
Lemma touch_inv w d p w' l : inv w -> touch w d p = Ok (w', l) ->
  inv w' /\ (forall d' p' s, link w d' p' s -> link w' d' p' s) /\
  w_wraps w' = w_wraps w /\
  exists x x', nth_error (w_docs w) d = Some x /\ nth_error (w_docs w') d = Some x' /\ pd_cache x' = pd_cache x /\ pd_objs x' p = Some l /\
    (exists v, nth_error (w_heap w') l = Some v /\ has_type (part_type p) v = true /\
               v = match held w x p with Some u => u | None => empty_of (part_type p) end) /\
    w_docs w' = set_at (w_docs w) d x' /\ (forall q, q <> p -> pd_objs x' q = pd_objs x q) /\
    (exists e, w_heap w' = w_heap w ++ e) /\
    pd_enc x' = pd_enc x /\ pd_name x' = pd_name x /\ pd_sysid x' = pd_sysid x /\ pd_pubid x' = pd_pubid x /\ pd_log x' = pd_log x.
Proof.
  intros I E. unfold touch in E. destruct (at_ (w_docs w) d) as [x| |] eqn:X; cbn [bind] in E; try discriminate.
  pose proof (at_lt _ _ _ X) as Ld. apply at_ok in X. pose proof (good_at _ _ _ I X) as [Gl Gc].
  destruct (pd_objs x p) as [l0|] eqn:P.
  - injection E as <- <-. destruct (Gl p l0 P) as (v & V & T).
    split; [exact I|]. split; [auto|]. split; [reflexivity|]. exists x, x. split; [exact X|]. split; [exact X|]. split; [reflexivity|].
    split; [exact P|]. split; [exists v; unfold held; rewrite P, V; auto|].
    split; [|split; [reflexivity|split; [exists []; now rewrite app_nil_r|tauto]]].
    clear -X. revert d X. induction (w_docs w) as [|y ys IH]; intros [|d] X; cbn in *; try discriminate; [congruence|].
    f_equal. now apply IH.
  - injection E as <- <-. set (h' := w_heap w ++ [empty_of (part_type p)]). set (x' := with_objs_pd x _).
    assert (Hv : nth_error h' (length (w_heap w)) = Some (empty_of (part_type p))) by apply nth_snoc.
    assert (T : has_type (part_type p) (empty_of (part_type p)) = true) by (destruct p; reflexivity).
    assert (K : keeps (w_heap w) h') by apply keeps_app.
    destruct I as [F W]. split; [|split; [|split; [reflexivity|]]].
    + split; cbn; [|exact (wraps_mono _ _ _ K W)]. apply Forall_set_at.
      * exact (goods_mono _ _ _ _ _ K (longer_refl _) F).
      * split; [|exact Gc]. intros q l. cbn. destruct (part_dec p q) as [<-|n].
        -- rewrite upd_same. intros [= <-]. eauto.
        -- rewrite upd_other by exact n. intros Q. destruct (Gl q l Q) as (v & V & Tv). exact (K _ _ _ V Tv).
    + intros d' p' s H. destruct w as [h ws xs]. cbn in *. destruct (Nat.eq_dec d d') as [<-|n].
      * unfold link in *. cbn in *. rewrite set_at_same by exact Ld. rewrite X in H.
        destruct s; [exact H| |]; destruct H as (wr & l & H1 & H2 & H3); exists wr, l; (split; [exact H1|]); (split; [exact H2|]).
        -- cbn. destruct (part_dec p p') as [<-|n]; [congruence|]. now rewrite upd_other.
        -- cbn. destruct (part_dec p p') as [<-|n]; [|now rewrite upd_other].
           rewrite upd_same. intros [= <-]. destruct (W _ _ _ H2) as (v & V & _). apply nth_lt in V. lia.
      * refine (link_mono _ _ _ _ _ _ _ _ _ (longer_refl _) _ H). now apply set_at_other.
    + exists x, x'. split; [exact X|]. split; [cbn; now apply set_at_same|]. split; [reflexivity|]. split; [cbn; apply upd_same|].
      split; [exists (empty_of (part_type p)); unfold held; rewrite P; auto|]. split; [reflexivity|].
      split; [intros q n; cbn; apply upd_other; congruence|]. split; [eexists; reflexivity|]. cbn. tauto.
Qed.
Lemma nat_eqb_neq a b : a <> b -> (a =? b) = false.
Proof. apply Nat.eqb_neq. Qed.
Lemma same_attr_true d p : same_attr d d p p = true.
Proof. unfold same_attr. now rewrite Nat.eqb_refl, part_eqb_refl. Qed.
Lemma same_attr_false d d' p p' : (d, p) <> (d', p') -> same_attr d d' p p' = false.
Proof.
  intros n. unfold same_attr. destruct (d =? d') eqn:E1; [|reflexivity]. destruct (part_eqb p p') eqn:E2; [|reflexivity].
  apply Nat.eqb_eq in E1. apply part_eqb_eq in E2. congruence.
Qed.
Lemma attr_dec (a b : nat * part) : {a = b} + {a <> b}.
Proof. decide equality; [apply part_dec|apply Nat.eq_dec]. Qed.
Lemma get_attr_inv w d p w' wr : inv w -> get_attr w d p = Ok (w', wr) ->
  inv w' /\ (forall d' p' s, link w d' p' s -> link w' d' p' (st_step d' p' s (OGet d p, DRet (VWrap wr)))) /\
  exists x', nth_error (w_docs w') d = Some x' /\ pd_cache x' p = Some wr.
Proof.
  intros I E. unfold get_attr in E. destruct (at_ (w_docs w) d) as [x| |] eqn:X; cbn [bind] in E; try discriminate.
  apply at_ok in X. destruct (pd_cache x p) as [c|] eqn:C.
  - injection E as <- <-. split; [exact I|]. split; [|eauto]. intros d' p' s H. unfold st_step. cbn [fst snd].
    destruct (attr_dec (d', p') (d, p)) as [e|n]; [|now rewrite same_attr_false].
    injection e as -> ->. rewrite same_attr_true. destruct s; try exact H. unfold link in H. rewrite X in H. congruence.
  - destruct (touch w d p) as [[w1 l]| |] eqn:T; cbn [bind fst snd] in E; try discriminate.
    destruct (touch_inv _ _ _ _ _ I T) as (I1 & L1 & Ew & x0 & x1 & X0 & X1 & C1 & O1 & (v & V & Tv & _) & _).
    unfold at_ in E. rewrite X1 in E. cbn [bind] in E. injection E as <- <-.
    set (ws' := w_wraps w1 ++ _). destruct I1 as [F1 W1]. pose proof (nth_lt _ _ _ X1) as Ld.
    assert (Lg : longer (w_wraps w1) ws') by apply longer_app.
    assert (Nw : nth_error ws' (length (w_wraps w1)) = Some (part_type p, l)) by apply nth_snoc.
    split; [|split].
    + split; cbn; [|now apply wraps_snoc with v]. apply Forall_set_at; [exact (goods_mono _ _ _ _ _ (keeps_refl _) Lg F1)|].
      rewrite Forall_forall in F1. destruct (F1 x1 (nth_error_In _ _ X1)) as [Gl Gc]. split; [exact Gl|].
      intros q c. cbn. destruct (part_dec p q) as [<-|n].
      * rewrite upd_same. intros [= <-]. eauto.
      * rewrite upd_other by exact n. intros Q. destruct (Gc q c Q) as (l' & E'). exists l'. exact (Lg _ _ E').
    + intros d' p' s H. apply L1 in H. unfold st_step. cbn [fst snd]. destruct (Nat.eq_dec d d') as [<-|n].
      * unfold link in *. cbn. rewrite set_at_same by exact Ld. rewrite X1 in H. destruct (part_dec p p') as [<-|n].
        -- rewrite same_attr_true. replace x0 with x in C1 by congruence.
           destruct s; [|destruct H as (? & ? & Hc & _); congruence|destruct H as (? & ? & Hc & _); congruence].
           exists (length (w_wraps w1)), l. cbn. rewrite upd_same. auto.
        -- rewrite same_attr_false by congruence. cbn. rewrite upd_other by exact n.
           destruct s; [exact H| |]; destruct H as (c & l' & H1 & H2 & H3); exists c, l'; auto.
      * rewrite same_attr_false by congruence. destruct w1 as [h1 ws1 xs1]. refine (link_mono _ _ _ _ _ _ _ _ _ Lg _ H). now apply set_at_other.
    + cbn. rewrite set_at_same by exact Ld. eexists. split; [reflexivity|]. cbn. apply upd_same.
Qed.
Lemma set_attr_inv w d p a w' r : inv w -> set_attr w d p a = Ok (w', r) ->
  inv w' /\ (forall d' p' s, link w d' p' s -> link w' d' p' (st_step d' p' s (OSet d p a, r))).
Proof.
  intros I E. unfold set_attr in E. destruct (at_ (w_docs w) d) as [x| |] eqn:X; cbn [bind] in E; try discriminate.
  assert (Err : forall d' p' s e, st_step d' p' s (OSet d p a, DRaise e) = s).
  { intros d' p' s e. unfold st_step. cbn. now destruct (same_attr d' d p' p). }
  destruct a as [wr| |]; [|injection E as <- <-; split; [exact I|]; intros d' p' s H; now rewrite Err|discriminate].
  destruct (at_ (w_wraps w) wr) as [[t l]| |] eqn:R; cbn [bind fst snd] in E; try discriminate.
  destruct (ptype_eqb t (part_type p)) eqn:Et; [|injection E as <- <-; split; [exact I|]; intros d' p' s H; now rewrite Err].
  apply ptype_eqb_eq in Et. subst t. injection E as <- <-. pose proof (at_lt _ _ _ X) as Ld. apply at_ok in X. apply at_ok in R.
  destruct (good_at _ _ _ I X) as [Gl Gc]. destruct I as [F W]. split.
  - split; cbn; [|exact W]. apply Forall_set_at; [exact F|]. split.
    + intros q l'. cbn. destruct (part_dec p q) as [<-|n]; [rewrite upd_same|rewrite upd_other by exact n; apply Gl].
      intros [= <-]. exact (W _ _ _ R).
    + intros q c. cbn. destruct (part_dec p q) as [<-|n]; [rewrite upd_same|rewrite upd_other by exact n; apply Gc].
      intros [= <-]. eauto.
  - intros d' p' s H. unfold st_step. cbn [fst snd]. destruct (Nat.eq_dec d d') as [<-|n].
    + unfold link in *. cbn. rewrite set_at_same by exact Ld. rewrite X in H. destruct (part_dec p p') as [<-|n].
      * rewrite same_attr_true. exists wr, l. cbn. rewrite !upd_same. auto.
      * rewrite same_attr_false by congruence. cbn. rewrite !upd_other by exact n. exact H.
    + rewrite same_attr_false by congruence. destruct w as [h ws xs]. refine (link_mono _ _ _ _ _ _ _ _ _ (longer_refl _) _ H). now apply set_at_other.
Qed.
(** Replacing a document by one taken over. *)
Lemma replace_inv w d h x x0 : inv w -> nth_error (w_docs w) d = Some x0 -> keeps (w_heap w) h -> good h (w_wraps w) x ->
  inv (with_pd (mkWorld h (w_wraps w) (w_docs w)) d x) /\
  (forall d' p s, d' <> d -> link w d' p s -> link (with_pd (mkWorld h (w_wraps w) (w_docs w)) d x) d' p s) /\
  nth_error (w_docs (with_pd (mkWorld h (w_wraps w) (w_docs w)) d x)) d = Some x.
Proof.
  intros [F W] X K G. pose proof (nth_lt _ _ _ X) as Ld. split; [|split; [|cbn; now apply set_at_same]].
  - split; cbn; [|exact (wraps_mono _ _ _ K W)]. apply Forall_set_at; [|exact G].
    exact (goods_mono _ _ _ _ _ K (longer_refl _) F).
  - intros d' p s n H. destruct w as [h0 ws xs]. refine (link_mono _ _ _ _ _ _ _ _ _ (longer_refl _) _ H). apply set_at_other. congruence.
Qed.
Lemma replace_doc_inv w d st w' : inv w -> replace_doc w d st = Ok w' -> (exists x, nth_error (w_docs w) d = Some x) ->
  inv w' /\ (forall d' p s, link w d' p s -> link w' d' p (if d' =? d then Unread else s)).
Proof.
  intros I E [x0 X]. unfold replace_doc in E.
  match type of E with (bind ?m _) = _ => destruct m as [n| |] eqn:M end; cbn [bind] in E; try discriminate.
  destruct (adopt (w_heap w) n (map FromParser (ps_log st))) as [[h x]| |] eqn:A; cbn [bind fst snd] in E; try discriminate.
  assert (w' = with_pd (mkWorld h (w_wraps w) (w_docs w)) d x) as -> by congruence.
  destruct (adopt_good _ _ _ _ _ (w_wraps w) A) as [G K]. destruct (replace_inv w d h x x0 I X K G) as (I' & L' & X').
  split; [exact I'|]. intros d' p s H. destruct (d' =? d) eqn:Ed.
  - apply Nat.eqb_eq in Ed. subst d'. unfold link. rewrite X'. apply (adopt_all _ _ _ _ _ A).
  - apply Nat.eqb_neq in Ed. now apply L'.
Qed.
Lemma clear_inv w d w' r : inv w -> clear w d = Ok (w', r) ->
  inv w' /\ (forall d' p s, link w d' p s -> link w' d' p (st_step d' p s (OClear d, r))).
Proof.
  intros I E. unfold clear in E. destruct (at_ (w_docs w) d) as [x0| |] eqn:X; cbn [bind] in E; try discriminate.
  apply at_ok in X. cbn [doc_create bind] in E. set (n := mkDoc _ _ _ _ _) in E.
  destruct (adopt (w_heap w) n []) as [[h x]| |] eqn:A; cbn [bind fst snd] in E; try discriminate.
  assert (w' = with_pd (mkWorld h (w_wraps w) (w_docs w)) d (with_cache (with_enc x (pd_enc x0)) (pd_cache x0))) as -> by congruence.
  destruct (adopt_good _ _ _ _ _ (w_wraps w) A) as [G K].
  assert (G' : good h (w_wraps w) (with_cache (with_enc x (pd_enc x0)) (pd_cache x0))).
  { split; [exact (proj1 G)|exact (proj2 (good_at _ _ _ I X))]. }
  assert (N : forall p, pd_objs x p = None).
  { intros p. pose proof (proj1 (proj2 (adopt_all _ _ _ _ _ A)) p) as H.
    replace (look (troot (d_objs n)) (part_key p)) with (@None dval) in H by (destruct p; reflexivity). exact H. }
  destruct (replace_inv w d h _ x0 I X K G') as (I' & L' & X'). split; [exact I'|].
  intros d' p s H. unfold st_step. cbn [fst snd]. destruct (d' =? d) eqn:Ed.
  - apply Nat.eqb_eq in Ed. subst d'. unfold link in *. rewrite X'. rewrite X in H. cbn [with_pd w_wraps with_cache with_enc pd_cache pd_objs].
    destruct s; [exact H| |]; destruct H as (c & l & H1 & H2 & _); exists c, l; (split; [exact H1|]); (split; [exact H2|]); rewrite N; discriminate.
  - apply Nat.eqb_neq in Ed. now apply L'.
Qed.
Lemma relog_inv w d x0 x : inv w -> nth_error (w_docs w) d = Some x0 -> pd_objs x = pd_objs x0 -> pd_cache x = pd_cache x0 ->
  inv (with_pd w d x) /\ forall d' p s, link w d' p s -> link (with_pd w d x) d' p s.
Proof.
  intros I X Eo Ec. destruct (good_at _ _ _ I X) as [Gl Gc].
  destruct (replace_inv w d (w_heap w) x x0 I X (keeps_refl _)) as (I' & L' & X').
  { split; [intros p l; rewrite Eo; apply Gl|intros p l; rewrite Ec; apply Gc]. }
  split; [exact I'|]. intros d' p s H. destruct (Nat.eq_dec d' d) as [->|n]; [|now apply L'].
  unfold link in *. cbn in X'. cbn. rewrite X'. rewrite X in H. now rewrite Ec, Eo.
Qed.
Lemma step_inv w op w' r : inv w -> step w op = Ok (w', r) ->
  inv w' /\ forall d p s, link w d p s -> link w' d p (st_step d p s (op, r)).
Proof.
  intros I E. destruct op; cbn [step_doc] in E.
  - (* ONew *) cbn [new_doc doc_create bind] in E. unfold new_doc in E. cbn [doc_create bind] in E.
    match type of E with context [adopt ?h ?n ?l] => destruct (adopt h n l) as [[h' x]| |] eqn:A end; cbn [bind fst snd] in E; try discriminate.
    injection E as <- _. destruct (adopt_good _ _ _ _ _ (w_wraps w) A) as [G K]. destruct I as [F W]. split.
    + split; cbn; [|exact (wraps_mono _ _ _ K W)]. apply Forall_app. split; [exact (goods_mono _ _ _ _ _ K (longer_refl _) F)|].
      apply Forall_cons; [exact G|constructor].
    + intros d p s H. unfold st_step. cbn [fst]. destruct w as [h0 ws xs]. revert H. apply link_snoc. cbn. apply (adopt_all _ _ _ _ _ A).
  - (* OMake *) destruct (has_type t v) eqn:T; [|discriminate]. injection E as <- _. destruct I as [F W]. split.
    + split; cbn.
      * exact (goods_mono _ _ _ _ _ (keeps_app _ _) (longer_app _ _) F).
      * apply wraps_snoc with v; [|apply nth_snoc|exact T]. exact (wraps_mono _ _ _ (keeps_app _ _) W).
    + intros d p s H. unfold st_step. cbn [fst]. destruct w as [h0 ws xs].
      exact (link_mono _ _ _ _ _ _ _ _ _ (longer_app _ _) eq_refl H).
  - (* OEdit *) destruct (at_ (w_wraps w) wr) as [[t l]| |] eqn:R; cbn [bind fst snd] in E; try discriminate.
    destruct (has_type t v) eqn:T; [|discriminate]. injection E as <- _. apply at_ok in R. destruct I as [F W].
    pose proof (keeps_edit _ l t v (W _ _ _ R) T) as K. split.
    + split; cbn; [exact (goods_mono _ _ _ _ _ K (longer_refl _) F)|exact (wraps_mono _ _ _ K W)].
    + intros d p s H. unfold st_step. cbn [fst]. destruct w as [h0 ws xs].
      exact (link_mono _ _ _ _ _ _ _ _ _ (longer_refl _) eq_refl H).
  - (* OTouch *) destruct (touch w d p) as [[w1 l]| |] eqn:T; cbn [bind fst snd] in E; try discriminate. injection E as <- _.
    destruct (touch_inv _ _ _ _ _ I T) as (I1 & L1 & _). split; [exact I1|exact L1].
  - (* OGet *) destruct (get_attr w d p) as [[w1 c]| |] eqn:G; cbn [bind fst snd] in E; try discriminate. injection E as <- <-.
    destruct (get_attr_inv _ _ _ _ _ I G) as (I1 & L1 & _). split; [exact I1|exact L1].
  - (* OSet *) now apply set_attr_inv.
  - (* OClear *) now apply clear_inv.
  - (* OLoadStr *) unfold load_str in E. destruct (at_ (w_docs w) d) as [x| |] eqn:X; cbn [bind] in E; try discriminate. apply at_ok in X.
    assert (Err : forall d' p s e, st_step d' p s (OLoadStr d f o, DRaise e) = s).
    { intros d' p s e. unfold st_step. cbn. now destruct (d' =? d). }
    destruct (def_arg o) as [[df pending]|]; [|injection E as <- <-; split; [exact I|]; intros d' p s H; now rewrite Err].
    destruct (parse_str strict (parsed_init (Some utf8_name)) f df) as [[st z]| |]; cbn [bind fst snd] in E; try discriminate.
    destruct (z =? -1)%Z; [injection E as <- <-; split; [exact I|]; intros d' p s H; now rewrite Err|].
    destruct (replace_doc w d st) as [w1| |] eqn:R; cbn [bind] in E; try discriminate. injection E as <- <-.
    destruct (replace_doc_inv _ _ _ _ I R (ex_intro _ _ X)) as [I' L']. split; [exact I'|]. intros d' p s H. unfold st_step. cbn [fst snd].
    specialize (L' d' p s H). destruct (d' =? d); [|exact L']. destruct pending; exact L'.
  - (* OLoadFile *) unfold load_file in E. destruct (at_ (w_docs w) d) as [x| |] eqn:X; cbn [bind] in E; try discriminate. apply at_ok in X.
    destruct (def_arg o) as [[df pending]|];
      [|injection E as <- <-; split; [exact I|]; intros d' p s H; unfold st_step; cbn; now destruct (d' =? d)].
    destruct f as [fs|]; [|injection E as <- <-; split; [exact I|]; intros d' p s H; unfold st_step; cbn; now destruct (d' =? d)].
    destruct (parse_file strict (parsed_init (Some utf8_name)) (Some fs) df) as [[st z]| |]; cbn [bind fst snd] in E; try discriminate.
    destruct (replace_doc w d st) as [w1| |] eqn:R; cbn [bind] in E; try discriminate. injection E as <- <-.
    destruct (replace_doc_inv _ _ _ _ I R (ex_intro _ _ X)) as [I' L']. split; [exact I'|]. intros d' p s H. unfold st_step. cbn [fst snd].
    specialize (L' d' p s H). destruct (d' =? d); [|exact L']. destruct (z =? -1)%Z; [exact L'|]. destruct pending; exact L'.
  - (* OSaveFile *) unfold save_file in E. destruct (at_ (w_docs w) d) as [y| |] eqn:X; cbn [bind] in E; try discriminate. apply at_ok in X.
    destruct (xml_arg x) as [xo|]; [|injection E as <- <-; split; [exact I|]; intros d' p s H; exact H].
    destruct (def_arg o) as [[df pending]|]; [|injection E as <- <-; split; [exact I|]; intros d' p s H; exact H].
    destruct (view w _) as [v| |]; cbn [bind] in E; try discriminate.
    match type of E with bind ?m _ = _ => destruct m as [[ws g]| |] end; cbn [bind fst snd] in E; try discriminate.
    match type of E with bind ?m _ = _ => destruct m as [ts| |] end; cbn [bind] in E; try discriminate.
    injection E as <- _. match goal with |- inv (with_pd _ _ ?z) /\ _ => destruct (relog_inv w d y z I X eq_refl eq_refl) as [I' L'] end.
    split; [exact I'|]. intros d' p s H. exact (L' d' p s H).
  - (* OSaveStr *) unfold save_str in E. destruct (at_ (w_docs w) d) as [y| |] eqn:X; cbn [bind] in E; try discriminate. apply at_ok in X.
    destruct (xml_arg x) as [xo|]; [|injection E as <- <-; split; [exact I|]; intros d' p s H; exact H].
    destruct (def_arg o) as [[df pending]|]; [|injection E as <- <-; split; [exact I|]; intros d' p s H; exact H].
    destruct (view w y) as [v| |]; cbn [bind] in E; try discriminate.
    match type of E with bind ?m _ = _ => destruct m as [[ws g]| |] end; cbn [bind fst snd] in E; try discriminate.
    injection E as <- _. destruct (relog_inv w d y (with_log_pd y (pd_log y ++ map FromWriter (w_log ws))) I X eq_refl eq_refl) as [I' L'].
    split; [exact I'|]. intros d' p s H. exact (L' d' p s H).
  - (* OUnion *) unfold union in E. destruct (at_ (w_docs w) d) as [x| |]; cbn [bind] in E; try discriminate.
    destruct (at_ (w_docs w) e) as [y| |]; cbn [bind] in E; try discriminate.
    destruct (view w x) as [a| |]; cbn [bind] in E; try discriminate. destruct (view w y) as [b| |]; cbn [bind] in E; try discriminate.
    destruct (doc_union a b) as [n| |]; cbn [bind] in E; try discriminate. exact (wrap_doc_inv _ _ _ _ I E).
  - (* OFilter *) unfold filter_arches in E. destruct (at_ (w_docs w) d) as [x| |]; cbn [bind] in E; try discriminate.
    destruct (view w x) as [a| |]; cbn [bind] in E; try discriminate.
    destruct (doc_arch_filter a arches) as [n| |]; cbn [bind] in E; try discriminate. exact (wrap_doc_inv _ _ _ _ I E).
Qed.
Lemma run_inv ops : forall w w' outs, inv w -> run w ops = Ok (w', outs) ->
  inv w' /\ forall d p s, link w d p s -> link w' d p (fold_left (st_step d p) (combine ops outs) s).
Proof.
  induction ops as [|op ops IH]; intros w w' outs I E; cbn [run_docs] in E.
  - injection E as <- <-. split; [exact I|]. intros d p s H. exact H.
  - destruct (step w op) as [[w1 r]| |] eqn:S; cbn [bind fst snd] in E; try discriminate.
    destruct (run w1 ops) as [[w2 rs]| |] eqn:R; cbn [bind fst snd] in E; try discriminate.
    injection E as <- <-. destruct (step_inv _ _ _ _ I S) as [I1 L1]. destruct (IH _ _ _ I1 R) as [I2 L2].
    split; [exact I2|]. intros d p s H. cbn [combine fold_left]. apply L2, L1, H.
Qed.
Lemma inv_start : inv start. Proof. split; [constructor|]. intros wr t l E. destruct wr; discriminate. Qed.
Lemma link_start d p : link start d p Unread. Proof. unfold link, start. cbn. now destruct d. Qed.
Lemma history ops w outs : run start ops = Ok (w, outs) -> inv w /\ forall d p, link w d p (st_run d p ops outs).
Proof. intros E. destruct (run_inv _ _ _ _ inv_start E) as [I L]. split; [exact I|]. intros d p. apply L, link_start. Qed.
End Steps.
