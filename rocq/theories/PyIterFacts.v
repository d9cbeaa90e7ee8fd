(** Facts about iterators of sequences that change. *)
From Verif Require Import CStr CStrFacts PyIterModel.

Section Spec.
Context {A : Type}.

(** Without nodes: the items already behind the iterator and those in front of
    it; [Lost] when the item it would give next was taken away. *)
Inductive place := Live (behind ahead : list (option A)) | Lost (all : list (option A)).
Definition items (p : place) : list (option A) :=
  match p with Live b a => b ++ a | Lost l => l end.

Definition pstep (p : place) (o : iop A) : res (place * list (option A)) :=
  match p with
  | Live b a =>
      match o with
      | IAppend v => Ok (match a with [] => Live (b ++ [v]) [] | _ => Live b (a ++ [v]) end, [])
      | IInsert k v =>
          Ok (if k <=? length b then Live (ins k v b) a else Live b (ins (k - length b) v a), [])
      | ISet k v =>
          Ok (if k <? length b then Live (upd k (fun _ => v) b) a
              else Live b (upd (k - length b) (fun _ => v) a), [])
      | IRemove k =>
          Ok (if k <? length b then Live (del k b) a
              else match k - length b, a with
                   | O, _ :: r => Lost (b ++ r)
                   | j, _ => Live b (del j a)
                   end, [])
      | IClear => Ok (match a with [] => Live [] [] | _ => Lost [] end, [])
      | INext =>
          match a with
          | Some x :: r => Ok (Live (b ++ [Some x]) r, [Some x])
          | _ => Ok (Live b a, [None])
          end
      end
  | Lost l =>
      match o with
      | IAppend v => Ok (Lost (l ++ [v]), [])
      | IInsert k v => Ok (Lost (ins k v l), [])
      | ISet k v => Ok (Lost (upd k (fun _ => v) l), [])
      | IRemove k => Ok (Lost (del k l), [])
      | IClear => Ok (Lost [], [])
      | INext => UB
      end
  end.
Fixpoint prun (p : place) (os : list (iop A)) : res (place * list (option A)) :=
  match os with
  | [] => Ok (p, [])
  | o :: r => a <- pstep p o ;; b <- prun (fst a) r ;; Ok (fst b, snd a ++ snd b)
  end.

(** * Lists *)
Lemma ins_l {B} (v : B) a : forall p b, p <= length a -> ins p v (a ++ b) = ins p v a ++ b.
Proof.
  induction a as [|x a IH]; intros p b H; cbn in H.
  - replace p with 0 by lia. reflexivity.
  - destruct p; [reflexivity|]. cbn. f_equal. apply IH. lia.
Qed.
Lemma ins_r {B} (v : B) a : forall p b, length a < p -> ins p v (a ++ b) = a ++ ins (p - length a) v b.
Proof.
  induction a as [|x a IH]; intros p b H; cbn in H; cbn [app length].
  - now rewrite Nat.sub_0_r.
  - destruct p; [lia|]. cbn. f_equal. apply IH. lia.
Qed.
Lemma del_l {B} (a : list B) : forall p b, p < length a -> del p (a ++ b) = del p a ++ b.
Proof.
  induction a as [|x a IH]; intros p b H; cbn in H; [lia|].
  destruct p; [reflexivity|]. cbn. f_equal. apply IH. lia.
Qed.
Lemma del_r {B} (a : list B) : forall p b, length a <= p -> del p (a ++ b) = a ++ del (p - length a) b.
Proof.
  induction a as [|x a IH]; intros p b H; cbn in H; cbn [app length].
  - now rewrite Nat.sub_0_r.
  - destruct p; [lia|]. cbn. f_equal. apply IH. lia.
Qed.
Lemma upd_l {B} (f : B -> B) a : forall p b, p < length a -> upd p f (a ++ b) = upd p f a ++ b.
Proof.
  induction a as [|x a IH]; intros p b H; cbn in H; [lia|].
  destruct p; [reflexivity|]. cbn. f_equal. apply IH. lia.
Qed.
Lemma upd_r {B} (f : B -> B) a : forall p b, length a <= p -> upd p f (a ++ b) = a ++ upd (p - length a) f b.
Proof.
  induction a as [|x a IH]; intros p b H; cbn in H; cbn [app length].
  - now rewrite Nat.sub_0_r.
  - destruct p; [lia|]. cbn. f_equal. apply IH. lia.
Qed.
Lemma map_ins {B C} (g : B -> C) v l : forall p, map g (ins p v l) = ins p (g v) (map g l).
Proof. induction l as [|x l IH]; intros [|p]; cbn; try reflexivity. now rewrite IH. Qed.
Lemma map_del {B C} (g : B -> C) l : forall p, map g (del p l) = del p (map g l).
Proof. induction l as [|x l IH]; intros [|p]; cbn; try reflexivity. now rewrite IH. Qed.
Lemma map_upd {B C} (g : B -> C) f h l : (forall x, g (f x) = h (g x)) -> forall p, map g (upd p f l) = upd p h (map g l).
Proof. intros H. induction l as [|x l IH]; intros [|p]; cbn; try reflexivity; [now rewrite H|now rewrite IH]. Qed.
Lemma in_ins {B} (v x : B) l : forall p, In x (ins p v l) -> x = v \/ In x l.
Proof.
  induction l as [|y l IH]; intros [|p]; cbn; [intuition congruence|intros []|intuition congruence|].
  intros [<-|H]; [auto|]. destruct (IH p H); auto.
Qed.
Lemma in_del {B} (x : B) l : forall p, In x (del p l) -> In x l.
Proof. induction l as [|y l IH]; intros [|p]; cbn; auto. intros [<-|H]; eauto. Qed.
Lemma upd_id {B} (l : list B) : forall p, upd p (fun x => x) l = l.
Proof. induction l as [|y l IH]; intros [|p]; cbn; try reflexivity. now rewrite IH. Qed.
Lemma nodup_ins {B} (v : B) l : forall p, ~ In v l -> NoDup l -> NoDup (ins p v l).
Proof.
  induction l as [|y l IH]; intros [|p] Hv Hn; cbn; try (constructor; auto; fail).
  inversion Hn; subst. constructor.
  - intros H. apply in_ins in H as [->|H]; [apply Hv; now left|contradiction].
  - apply IH; [|assumption]. intros H. apply Hv. now right.
Qed.
Lemma nodup_del {B} (l : list B) : forall p, NoDup l -> NoDup (del p l).
Proof.
  induction l as [|y l IH]; intros [|p] Hn; cbn; auto; inversion Hn; subst; auto.
  constructor; [|auto]. intros H. apply in_del in H. contradiction.
Qed.

(** * The invariant *)
Notation ids l := (map (@fst nat (option A)) l).
Notation vals l := (map (@snd nat (option A)) l).
Definition wf (s : ist A) : Prop := NoDup (ids (cells s)) /\ forall i, In i (ids (cells s)) -> i < fresh s.
Definition at_ (s : ist A) (p : place) : Prop :=
  match p with
  | Live b a => exists cb ca, cells s = cb ++ ca /\ vals cb = b /\ vals ca = a /\ cur s = first_of ca
  | Lost l => vals (cells s) = l /\ exists c, cur s = Some c /\ c < fresh s /\ ~ In c (ids (cells s))
  end.

Lemma at_items s p : at_ s p -> vals (cells s) = items p.
Proof.
  destruct p as [b a|l]; [|intros [H _]; exact H].
  intros (cb & ca & -> & <- & <- & _). apply map_app.
Qed.

Lemma wf_app s v : wf s -> wf (mkIst (cells s ++ [(fresh s, v)]) (S (fresh s)) (cur s)).
Proof.
  intros [Hn Hf]. split; cbn [cells fresh]; rewrite map_app; cbn [map fst].
  - apply NoDup_Add with (a := fresh s) (l := ids (cells s)).
    + rewrite <- (app_nil_r (ids (cells s))) at 1. apply Add_app.
    + split; [exact Hn|]. intros H. apply Hf in H. lia.
  - intros i H. apply in_app_or in H as [H|[<-|[]]]; [apply Hf in H|]; lia.
Qed.
Lemma wf_step s o s' out : wf s -> istep s o = Ok (s', out) -> wf s'.
Proof.
  intros W. pose proof W as [Hn Hf]. destruct o as [v|p v|p v|p| |]; cbn [istep]; intros E.
  - injection E as <- _. apply wf_app, W.
  - injection E as <- _. split; cbn [cells fresh]; rewrite map_ins; cbn [fst].
    + apply nodup_ins; [|exact Hn]. intros H. apply Hf in H. lia.
    + intros i H. apply in_ins in H as [->|H]; [lia|]. apply Hf in H. lia.
  - injection E as <- _. split; cbn [cells fresh];
    rewrite (map_upd fst _ (fun x => x)) by reflexivity; rewrite upd_id; assumption.
  - injection E as <- _. split; cbn [cells fresh]; rewrite map_del; [apply nodup_del, Hn|].
    intros i H. apply Hf, (in_del _ _ _ H).
  - injection E as <- _. split; cbn; [constructor|intros i []].
  - unfold iternext in E. destruct (cur s) as [c|]; [|injection E as <- _; exact W].
    destruct (look c (cells s)) as [[[x|] nx]|]; cbn in E; try discriminate; injection E as <- _; exact W.
Qed.

Lemma look_mid c v cb r : ~ In c (ids cb) -> look c (cb ++ (c, v) :: r) = Some (v, first_of r).
Proof.
  induction cb as [|[i w] cb IH]; cbn; intros H.
  - now rewrite Nat.eqb_refl.
  - destruct (Nat.eqb_spec i c) as [->|N]; [exfalso; apply H; now left|]. apply IH. intros Hc. apply H. now right.
Qed.
Lemma look_no c l : ~ In c (ids l) -> look c l = None.
Proof.
  induction l as [|[i w] l IH]; cbn; intros H; [reflexivity|].
  destruct (Nat.eqb_spec i c) as [->|N]; [exfalso; apply H; now left|]. apply IH. intros Hc. apply H. now right.
Qed.
Lemma upd_first l : forall p v, first_of (upd p (fun c : nat * option A => (fst c, v)) l) = first_of l.
Proof. intros p v. destruct l, p; reflexivity. Qed.

Lemma step_ok s p o : wf s -> at_ s p ->
  match pstep p o with
  | Ok (p', out) => exists s', istep s o = Ok (s', out) /\ at_ s' p'
  | _ => istep s o = UB
  end.
Proof.
  intros [Hn Hf] H. destruct p as [b a|l]; unfold at_ in H.
  - destruct H as (cb & ca & E & Hb & Ha & Hc).
    assert (Lb : length b = length cb) by (rewrite <- Hb; apply map_length).
    destruct o as [v|k v|k v|k| |]; cbn [pstep istep].
    + destruct a as [|w a]; cbn [pstep istep]; eexists; (split; [reflexivity|]); cbn [at_ cells cur].
      * exists (cb ++ [(fresh s, v)]), []. destruct ca; [|discriminate]. rewrite E, !app_nil_r, map_app, Hb. auto.
      * exists cb, (ca ++ [(fresh s, v)]). rewrite E, <- app_assoc, map_app, Ha. destruct ca; [discriminate|]. auto.
    + cbn [pstep istep]. assert (X : exists s', Ok (mkIst (ins k (fresh s, v) (cells s)) (S (fresh s)) (cur s), @nil (option A)) = Ok (s', []) /\
        at_ s' (if k <=? length b then Live (ins k v b) a else Live b (ins (k - length b) v a))); [|exact X].
      eexists; split; [reflexivity|]. destruct (Nat.leb_spec k (length b)) as [L|L]; cbn [at_ cells cur]; rewrite E.
      * exists (ins k (fresh s, v) cb), ca. rewrite ins_l by lia. rewrite map_ins, Hb. auto.
      * exists cb, (ins (k - length b) (fresh s, v) ca). rewrite ins_r by lia. rewrite map_ins, Ha, <- Lb.
        repeat split; auto. rewrite Hc. destruct (k - length b) eqn:K; [lia|]. destruct ca; reflexivity.
    + cbn [pstep istep]. assert (X : exists s', Ok (mkIst (upd k (fun c => (fst c, v)) (cells s)) (fresh s) (cur s), @nil (option A)) = Ok (s', []) /\
        at_ s' (if k <? length b then Live (upd k (fun _ => v) b) a else Live b (upd (k - length b) (fun _ => v) a))); [|exact X].
      eexists; split; [reflexivity|]. destruct (Nat.ltb_spec k (length b)) as [L|L]; cbn [at_ cells cur]; rewrite E.
      * exists (upd k (fun c => (fst c, v)) cb), ca. rewrite upd_l by lia.
        rewrite (map_upd snd _ (fun _ => v)) by reflexivity. rewrite Hb. auto.
      * exists cb, (upd (k - length b) (fun c => (fst c, v)) ca). rewrite upd_r by lia.
        rewrite (map_upd snd _ (fun _ => v)) by reflexivity. rewrite Ha, <- Lb. repeat split; auto.
        now rewrite upd_first.
    + cbn [pstep istep]. assert (X : exists s', Ok (mkIst (del k (cells s)) (fresh s) (cur s), @nil (option A)) = Ok (s', []) /\
        at_ s' (if k <? length b then Live (del k b) a
          else match k - length b, a with O, _ :: r => Lost (b ++ r) | j, _ => Live b (del j a) end)); [|exact X].
      eexists; split; [reflexivity|]. destruct (Nat.ltb_spec k (length b)) as [L|L].
      * cbn [at_ cells cur]. rewrite E. exists (del k cb), ca. rewrite del_l by lia. rewrite map_del, Hb. auto.
      * destruct (k - length b) as [|j] eqn:K.
        -- destruct a as [|w r].
           ++ destruct ca; [|discriminate]. cbn [at_ cells cur]. exists cb, []. rewrite E, del_r by lia.
              replace (k - length cb) with 0 by lia. auto.
           ++ destruct ca as [|[c w'] ca]; [discriminate|]. cbn in Ha. injection Ha as -> Ha.
              cbn [at_ cells cur fresh]. rewrite E, del_r by lia. replace (k - length cb) with 0 by lia. cbn [del].
              rewrite map_app, Hb, Ha. split; [reflexivity|]. exists c. split; [exact Hc|]. split.
              ** apply Hf. rewrite E, map_app. apply in_or_app. right. now left.
              ** rewrite E, map_app in Hn. cbn in Hn. rewrite map_app. apply NoDup_remove_2, Hn.
        -- cbn [at_ cells cur]. exists cb, (del (S j) ca). rewrite E, del_r by lia. rewrite map_del, Ha.
           replace (k - length cb) with (S j) by lia. repeat split; auto. rewrite Hc. destruct ca; reflexivity.
    + destruct a as [|w a]; cbn [pstep istep]; eexists; (split; [reflexivity|]); cbn [at_ cells cur fresh].
      * exists [], []. destruct ca; [|discriminate]. auto.
      * split; [reflexivity|]. destruct ca as [|[c w'] ca]; [discriminate|]. exists c. split; [exact Hc|].
        split; [|intros []]. apply Hf. rewrite E, map_app. apply in_or_app. right. now left.
    + destruct a as [|[x|] r]; cbn [pstep istep]; unfold iternext; rewrite Hc.
      * destruct ca; [|discriminate]. cbn. exists s. split; [reflexivity|]. exists cb, []. auto.
      * destruct ca as [|[c w'] ca]; [discriminate|]. cbn in Ha. injection Ha as -> Ha. cbn [first_of fst].
        rewrite E. rewrite look_mid by (rewrite E, map_app in Hn; cbn in Hn; apply NoDup_remove_2 in Hn; intros H; apply Hn, in_or_app; now left).
        cbn. eexists. split; [reflexivity|]. exists (cb ++ [(c, Some x)]), ca. cbn [cells cur].
        rewrite <- app_assoc, map_app, Hb. auto.
      * destruct ca as [|[c w'] ca]; [discriminate|]. cbn in Ha. injection Ha as -> Ha. cbn [first_of fst].
        rewrite E. rewrite look_mid by (rewrite E, map_app in Hn; cbn in Hn; apply NoDup_remove_2 in Hn; intros H; apply Hn, in_or_app; now left).
        cbn. eexists. split; [reflexivity|]. exists cb, ((c, None) :: ca). cbn. rewrite Ha. auto.
  - destruct H as (Hl & c & Hc & Hlt & Hni). destruct o as [v|k v|k v|k| |]; cbn [pstep istep].
    + eexists; split; [reflexivity|]. cbn [at_ cells cur fresh]. rewrite !map_app, Hl. split; [reflexivity|].
      exists c. split; [exact Hc|]. split; [lia|]. intros H. apply in_app_or in H as [H|[H|[]]]; [contradiction|]. cbn in H. lia.
    + eexists; split; [reflexivity|]. cbn [at_ cells cur fresh]. rewrite !map_ins, Hl. split; [reflexivity|].
      exists c. split; [exact Hc|]. split; [lia|]. intros H. apply in_ins in H as [H|H]; [|contradiction]. cbn in H. lia.
    + eexists; split; [reflexivity|]. cbn [at_ cells cur fresh].
      rewrite (map_upd snd _ (fun _ => v)) by reflexivity. rewrite Hl. split; [reflexivity|].
      exists c. rewrite (map_upd fst _ (fun x => x)) by reflexivity. rewrite upd_id. auto.
    + eexists; split; [reflexivity|]. cbn [at_ cells cur fresh]. rewrite !map_del, Hl. split; [reflexivity|].
      exists c. split; [exact Hc|]. split; [exact Hlt|]. intros H. apply in_del in H. contradiction.
    + eexists; split; [reflexivity|]. cbn. split; [reflexivity|]. exists c. auto.
    + unfold iternext. rewrite Hc, (look_no _ _ Hni). reflexivity.
Qed.

Lemma run_ok os : forall s p, wf s -> at_ s p ->
  match prun p os with
  | Ok (p', out) => exists s', irun s os = Ok (s', out) /\ vals (cells s') = items p'
  | _ => irun s os = UB
  end.
Proof.
  induction os as [|o os IH]; intros s p W H; cbn [prun irun].
  - exists s. split; [reflexivity|apply at_items, H].
  - pose proof (step_ok s p o W H) as Hs. destruct (pstep p o) as [[p1 out]| |]; cbn [bind].
    + destruct Hs as (s1 & E & H1). rewrite E. cbn [bind fst snd].
      specialize (IH s1 p1 (wf_step _ _ _ _ W E) H1). destruct (prun p1 os) as [[p2 out2]| |]; cbn [bind fst snd].
      * destruct IH as (s2 & -> & H2). cbn. eauto.
      * now rewrite IH.
      * now rewrite IH.
    + now rewrite Hs.
    + now rewrite Hs.
Qed.

Lemma map_combine_fst (l : list (option A)) : forall n, ids (combine (seq n (length l)) l) = seq n (length l).
Proof. induction l as [|x l IH]; intros n; cbn; [reflexivity|]. now rewrite IH. Qed.
Lemma map_combine_snd (l : list (option A)) : forall n, vals (combine (seq n (length l)) l) = l.
Proof. induction l as [|x l IH]; intros n; cbn; [reflexivity|]. now rewrite IH. Qed.
Lemma getiter_wf l : wf (getiter l).
Proof.
  unfold wf, getiter; cbn [cells fresh]. rewrite map_combine_fst. split; [apply seq_NoDup|].
  intros i H. apply in_seq in H. lia.
Qed.
Lemma getiter_at l : at_ (getiter l) (Live [] l).
Proof.
  exists [], (cells (getiter l)). unfold getiter; cbn [cells cur]. rewrite map_combine_snd. auto.
Qed.

Lemma iterator_exact l os :
  match prun (Live [] l) os with
  | Ok (p, out) => exists s, irun (getiter l) os = Ok (s, out) /\ vals (cells s) = items p
  | _ => irun (getiter l) os = UB
  end.
Proof. apply run_ok; [apply getiter_wf|apply getiter_at]. Qed.
End Spec.

Section More.
Context {A : Type}.

(** The call takes nothing away. *)
Definition keeps (o : iop A) : Prop := match o with IRemove _ | IClear => False | _ => True end.

Lemma keeps_live os : Forall keeps os -> forall b a, exists b' a' out, prun (Live b a) os = Ok (Live b' a', out).
Proof.
  induction 1 as [|o os Ho Hos IH]; intros b a; [repeat eexists|]. cbn [prun].
  assert (X : exists b1 a1 out1, pstep (Live b a) o = Ok (Live b1 a1, out1)).
  { destruct o as [v|k v|k v|k| |]; cbn [pstep]; try contradiction.
    - destruct a; repeat eexists.
    - destruct (k <=? length b); repeat eexists.
    - destruct (k <? length b); repeat eexists.
    - destruct a as [|[x|] r]; repeat eexists. }
  destruct X as (b1 & a1 & out1 & ->). cbn [bind fst snd].
  destruct (IH b1 a1) as (b2 & a2 & out2 & ->). cbn. repeat eexists.
Qed.
Lemma keeps_defined l (os : list (iop A)) : Forall keeps os -> exists s out, irun (getiter l) os = Ok (s, out).
Proof.
  intros H. pose proof (iterator_exact l os) as E. destruct (keeps_live os H [] l) as (b & a & out & P).
  rewrite P in E. destruct E as (s & E & _). eauto.
Qed.

Lemma prun_next (x : A) b a os : prun (Live b (Some x :: a)) (INext :: os) =
  (r <- prun (Live (b ++ [Some x]) a) os ;; Ok (fst r, Some x :: snd r)).
Proof. reflexivity. Qed.

(** Reading to the end. *)
Lemma read_live (l : list A) : forall b,
  prun (Live b (map Some l)) (repeat INext (S (length l))) = Ok (Live (b ++ map Some l) [], map Some l ++ [None]).
Proof.
  induction l as [|x l IH]; intros b.
  - cbn. now rewrite app_nil_r.
  - change (repeat INext (S (length (x :: l)))) with (@INext A :: repeat INext (S (length l))).
    cbn [map]. rewrite prun_next, IH. cbn [bind fst snd app]. now rewrite <- app_assoc.
Qed.
Lemma read_all (l : list A) : exists s,
  irun (getiter (map Some l)) (repeat INext (S (length l))) = Ok (s, map Some l ++ [None]) /\ map snd (cells s) = map Some l.
Proof.
  pose proof (iterator_exact (map Some l) (repeat INext (S (length l)))) as E. rewrite read_live in E.
  destruct E as (s & E & I). exists s. split; [exact E|]. rewrite I. cbn. apply app_nil_r.
Qed.

(** Taking away each item just read. *)
Fixpoint drain (n : nat) : list (iop A) :=
  match n with O => [INext] | S m => INext :: IRemove 0 :: drain m end.
Lemma drain_live (l : list A) : prun (Live [] (map Some l)) (drain (length l)) = Ok (Live [] [], map Some l ++ [None]).
Proof.
  induction l as [|x l IH]; [reflexivity|].
  cbn [length drain map prun pstep bind fst snd app Nat.ltb Nat.leb del]. rewrite IH. reflexivity.
Qed.
Lemma drain_all (l : list A) : exists s,
  irun (getiter (map Some l)) (drain (length l)) = Ok (s, map Some l ++ [None]) /\ cells s = [].
Proof.
  pose proof (iterator_exact (map Some l) (drain (length l))) as E. rewrite drain_live in E.
  destruct E as (s & E & I). exists s. split; [exact E|]. cbn in I. destruct (cells s); [reflexivity|discriminate].
Qed.

Lemma remove_next_ub (x y : option A) z l os :
  x = Some z ->
  irun (getiter (x :: y :: l)) ([INext; IRemove 1] ++ INext :: os) = UB /\
  irun (getiter (x :: y :: l)) ([INext; IClear] ++ INext :: os) = UB.
Proof.
  intros ->. split.
  - pose proof (iterator_exact (Some z :: y :: l) ([INext; IRemove 1] ++ INext :: os)) as E. exact E.
  - pose proof (iterator_exact (Some z :: y :: l) ([INext; IClear] ++ INext :: os)) as E. exact E.
Qed.
End More.
