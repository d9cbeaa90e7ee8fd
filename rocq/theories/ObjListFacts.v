(** Facts about the object list. *)
From Verif Require Import CStr CStrFacts HSListModel ObjListModel.

(** Tail and length are right. *)
Definition ogood {A} (o : ol A) : Prop :=
  olen o = length (oitems o) /\
  match otail o with
  | TNull => oitems o = []
  | TAt i => S i = length (oitems o)
  | TBad => False
  end.

(** * Histories *)
Inductive lop (A : Type) :=
| LAppend (x : A) | LInsertAt (p : nat) (x : A) | LInsertAfter (i : nat) (x : A)
| LRemoveAt (p : nat) | LRemove (x : A) | LSet (p : nat) (x : A) | LConcatIn (l : list A)
| LClear | LGet (p : nat) | LLen | LIndex (x : A).
Arguments LAppend {A}. Arguments LInsertAt {A}. Arguments LInsertAfter {A}. Arguments LRemoveAt {A}.
Arguments LRemove {A}. Arguments LSet {A}. Arguments LConcatIn {A}. Arguments LClear {A}.
Arguments LGet {A}. Arguments LLen {A}. Arguments LIndex {A}.
(** What a call returns: nothing, a code, or an object. *)
Inductive lout (A : Type) := LNone | LCode (z : Z) | LObj (x : option A).
Arguments LNone {A}. Arguments LCode {A}. Arguments LObj {A}.

Section Facts.
Context {A : Type} (same : A -> A -> bool).
Implicit Types (o : ol A) (x : A).

Definition ol_step o (c : lop A) : res (ol A * lout A) :=
  match c with
  | LAppend x => o' <- ol_append o x ;; Ok (o', LCode 1)
  | LInsertAt p x => r <- ol_insert_at o p x ;; Ok (fst r, LCode (snd r))
  | LInsertAfter i x => Ok (ol_insert_after o i x, LCode 1)
  | LRemoveAt p => Ok (fst (ol_remove_at o p), LCode (snd (ol_remove_at o p)))
  | LRemove x => Ok (fst (ol_remove same o x), LCode (snd (ol_remove same o x)))
  | LSet p x => Ok (fst (ol_set o p x), LCode (snd (ol_set o p x)))
  | LConcatIn l => o' <- ol_append_all o l ;; Ok (o', LNone)
  | LClear => Ok (ol_clear o, LNone)
  | LGet p => Ok (o, LObj (ol_get o p))
  | LLen => Ok (o, LCode (Z.of_nat (olen o)))
  | LIndex x => Ok (o, LCode (match ol_index same o x with Some i => Z.of_nat i | None => (-1)%Z end))
  end.
Fixpoint ol_run o (cs : list (lop A)) : res (ol A * list (lout A)) :=
  match cs with
  | [] => Ok (o, [])
  | c :: r => p <- ol_step o c ;; q <- ol_run (fst p) r ;; Ok (fst q, snd p :: snd q)
  end.

(** ** Specification on sequences *)
(** position of the first element identical to [x] *)
Definition first_at (l : list A) x (i : nat) : Prop :=
  exists l1 y l2, l = l1 ++ y :: l2 /\ length l1 = i /\ same y x = true /\
    forall z, In z l1 -> same z x = false.
Definition absent (l : list A) x : Prop := forall z, In z l -> same z x = false.

(** [lspec l c l' out]: the call [c] on the sequence [l] yields [l'] and [out]. *)
Definition lspec (l : list A) (c : lop A) (l' : list A) (out : lout A) : Prop :=
  match c with
  | LAppend x => l' = l ++ [x] /\ out = LCode 1
  | LInsertAt p x =>
      (p <= length l /\ l' = firstn p l ++ [x] ++ skipn p l /\ out = LCode 1) \/
      (length l < p /\ l' = l /\ out = LCode (-1))
  | LInsertAfter i x => l' = firstn (S i) l ++ [x] ++ skipn (S i) l /\ out = LCode 1
  | LRemoveAt p =>
      (p < length l /\ l' = firstn p l ++ skipn (S p) l /\ out = LCode 1) \/
      (length l <= p /\ l' = l /\ out = LCode 0)
  | LRemove x =>
      (exists i, first_at l x i /\ l' = firstn i l ++ skipn (S i) l /\ out = LCode 1) \/
      (absent l x /\ l' = l /\ out = LCode 0)
  | LSet p x =>
      (p < length l /\ l' = firstn p l ++ [x] ++ skipn (S p) l /\ out = LCode 0) \/
      (length l <= p /\ l' = l /\ out = LCode (-1))
  | LConcatIn l2 => l' = l ++ l2 /\ out = LNone
  | LClear => l' = [] /\ out = LNone
  | LGet p => l' = l /\ out = LObj (nth_error l p)
  | LLen => l' = l /\ out = LCode (Z.of_nat (length l))
  | LIndex x => l' = l /\ ((exists i, first_at l x i /\ out = LCode (Z.of_nat i)) \/
                           (absent l x /\ out = LCode (-1)))
  end.
Inductive lspecs : list A -> list (lop A) -> list A -> list (lout A) -> Prop :=
| LS_nil l : lspecs l [] l []
| LS_cons l c l1 out cs l2 outs :
    lspec l c l1 out -> lspecs l1 cs l2 outs -> lspecs l (c :: cs) l2 (out :: outs).

(** Item pointers given to insert_after belong to the list. *)
Definition lop_ok (l : list A) (c : lop A) : Prop :=
  match c with LInsertAfter i _ => i < length l | _ => True end.
Fixpoint lops_ok (l : list A) (cs : list (lop A)) : Prop :=
  match cs with
  | [] => True
  | c :: r => lop_ok l c /\ forall l' out, lspec l c l' out -> lops_ok l' r
  end.

(** ** Proofs *)
Lemma ogood_create : ogood (@ol_create A).
Proof. split; reflexivity. Qed.

Lemma get_loop_nth (l : list A) : forall pos atpos, pos <= atpos -> get_loop l pos atpos = nth_error l (atpos - pos).
Proof.
  induction l as [|x l IH]; intros pos atpos H; cbn.
  - now destruct (atpos - pos).
  - destruct (Nat.eqb_spec pos atpos) as [->|].
    + now rewrite Nat.sub_diag.
    + rewrite IH by lia. replace (atpos - pos) with (S (atpos - S pos)) by lia. reflexivity.
Qed.
Lemma ol_get_nth o p : ol_get o p = nth_error (oitems o) p.
Proof. unfold ol_get. rewrite get_loop_nth by lia. now rewrite Nat.sub_0_r. Qed.

Lemma ogood_append o x : ogood o -> exists o', ol_append o x = Ok o' /\ oitems o' = oitems o ++ [x] /\ ogood o'.
Proof.
  intros [Hl Ht]. unfold ol_append. destruct (oitems o) as [|a l] eqn:E.
  - eexists; split; [reflexivity|]. split; [reflexivity|]. split; cbn in *; lia.
  - destruct (otail o) as [|i|]; [discriminate| |contradiction].
    rewrite firstn_all2 by (cbn in *; lia).
    eexists; split; [reflexivity|]. split; [reflexivity|]. split; cbn [olen oitems otail]; rewrite app_length; cbn in *; lia.
Qed.
Lemma ogood_append_all (l : list A) : forall o, ogood o ->
  exists o', ol_append_all o l = Ok o' /\ oitems o' = oitems o ++ l /\ ogood o'.
Proof.
  induction l as [|x l IH]; intros o Hg; cbn [ol_append_all].
  - exists o. now rewrite app_nil_r.
  - destruct (ogood_append o x Hg) as (o1 & -> & Hi & Hg1). cbn [bind].
    destruct (IH o1 Hg1) as (o2 & -> & Hi2 & Hg2). exists o2. rewrite Hi2, Hi, <- app_assoc. auto.
Qed.

Lemma index_loop_spec (l : list A) x : forall i,
  match index_loop same l x i with
  | Some j => i <= j /\ first_at l x (j - i)
  | None => absent l x
  end.
Proof.
  induction l as [|y l IH]; intros i; cbn [index_loop].
  - intros z [].
  - destruct (same y x) eqn:E.
    + split; [lia|]. exists [], y, l. rewrite Nat.sub_diag. repeat split; auto. intros z [].
    + specialize (IH (S i)). destruct (index_loop same l x (S i)) as [j|].
      * destruct IH as [Hj (l1 & z & l2 & -> & Hlen & Hz & H)]. split; [lia|].
        exists (y :: l1), z, l2. repeat split; auto; [cbn; lia|]. intros w [<-|Hw]; auto.
      * intros z [<-|Hz]; auto.
Qed.
Lemma first_at_lt (l : list A) x i : first_at l x i -> i < length l.
Proof. intros (l1 & y & l2 & -> & <- & _). rewrite app_length. cbn. lia. Qed.

Lemma ogood_unlink o i : ogood o -> i < length (oitems o) -> ogood (ol_unlink o i).
Proof.
  intros [Hl Ht] Hi. unfold ogood, ol_unlink. cbn [olen oitems otail].
  rewrite list_del_length by lia. split; [lia|].
  destruct (otail o) as [|j|]; [|
    |contradiction].
  - rewrite Ht in Hi. cbn in Hi. lia.
  - destruct (Nat.eqb_spec j i) as [->|].
    + destruct i; [|lia]. apply length_zero_iff_nil. rewrite list_del_length; lia.
    + destruct (Nat.ltb_spec j i); lia.
Qed.

Lemma list_upd_split (l : list A) i x : i < length l -> list_upd l i x = firstn i l ++ [x] ++ skipn (S i) l.
Proof.
  revert i; induction l as [|y l IH]; intros i Hi; [cbn in Hi; lia|].
  destruct i; [reflexivity|]. cbn in *. f_equal. apply IH. lia.
Qed.

Lemma ol_step_spec o c :
  ogood o -> lop_ok (oitems o) c ->
  exists o' out, ol_step o c = Ok (o', out) /\ ogood o' /\ lspec (oitems o) c (oitems o') out.
Proof.
  intros Hg Hc. pose proof Hg as [Hl Ht].
  destruct c as [x|p x|i x|p|x|p x|l| |p| |x]; cbn [ol_step lspec].
  - destruct (ogood_append o x Hg) as (o' & -> & Hi & Hg'). cbn [bind]. eauto 10.
  - unfold ol_insert_at. destruct (Nat.ltb_spec (olen o) p) as [Hp|Hp].
    { cbn [bind]. exists o, (LCode (-1)). split; [reflexivity|]. split; [exact Hg|]. right. rewrite <- Hl. auto. }
    destruct (Nat.eqb_spec p 0) as [->|Hp0].
    { cbn [bind fst snd]. eexists _, _; split; [reflexivity|]. split.
      - split; cbn [olen oitems otail length]; [lia|]. destruct (otail o); cbn in *; try lia. rewrite Ht. reflexivity.
      - left. cbn. split; [lia|auto]. }
    destruct (Nat.eqb_spec p (olen o)) as [->|Hne].
    { destruct (otail o) as [|i|]; [rewrite Ht in Hl; cbn in Hl; lia| |contradiction].
      rewrite firstn_all2 by lia. cbn [bind fst snd]. eexists _, _; split; [reflexivity|]. split.
      - split; cbn [olen oitems otail]; rewrite app_length; cbn; lia.
      - left. split; [lia|]. cbn [oitems]. rewrite Hl. rewrite firstn_all, skipn_all. auto. }
    destruct (oitems o) as [|a l] eqn:E; [cbn in Hl; lia|]. rewrite <- E in *.
    rewrite Nat.min_l by lia. cbn [bind fst snd].
    eexists _, _; split; [reflexivity|]. split.
    + split; cbn [olen oitems otail]; rewrite list_ins_length by lia; [lia|].
      destruct (otail o) as [|j|]; [rewrite E in Ht; discriminate| |contradiction].
      destruct (Nat.ltb_spec j p); lia.
    + left. split; [lia|]. cbn [oitems]. unfold list_ins. auto.
  - cbn in Hc. eexists _, _; split; [reflexivity|]. split.
    + unfold ogood, ol_insert_after. cbn [olen oitems otail]. rewrite list_ins_length by lia. split; [lia|].
      destruct (otail o) as [|j|]; [rewrite Ht in Hc; cbn in Hc; lia| |contradiction].
      destruct (Nat.eqb_spec j i); [lia|]. destruct (Nat.ltb_spec j i); lia.
    + cbn [ol_insert_after oitems]. unfold list_ins. auto.
  - unfold ol_remove_at. destruct (Nat.ltb_spec p (length (oitems o))) as [Hp|Hp]; cbn [fst snd].
    + eexists _, _; split; [reflexivity|]. split; [now apply ogood_unlink|]. left. auto.
    + eexists _, _; split; [reflexivity|]. split; [exact Hg|]. right. auto.
  - unfold ol_remove, ol_index. pose proof (index_loop_spec (oitems o) x 0) as Hi.
    destruct (index_loop same (oitems o) x 0) as [i|]; cbn [fst snd].
    + destruct Hi as [_ Hi]. rewrite Nat.sub_0_r in Hi. eexists _, _; split; [reflexivity|].
      split; [apply ogood_unlink; auto; eapply first_at_lt; eauto|]. left. exists i. auto.
    + eexists _, _; split; [reflexivity|]. split; [exact Hg|]. right. auto.
  - unfold ol_set. destruct (Nat.ltb_spec p (length (oitems o))) as [Hp|Hp]; cbn [fst snd].
    + eexists _, _; split; [reflexivity|]. split.
      * split; cbn [olen oitems otail]; rewrite list_upd_length; [exact Hl|].
        destruct (otail o); auto. rewrite Ht in Hp; cbn in Hp; lia.
      * left. cbn [oitems]. rewrite list_upd_split by assumption. auto.
    + eexists _, _; split; [reflexivity|]. split; [exact Hg|]. right. auto.
  - destruct (ogood_append_all l o Hg) as (o' & -> & Hi & Hg'). cbn [bind]. eauto 10.
  - eexists _, _; split; [reflexivity|]. split; [apply ogood_create|]. auto.
  - eexists _, _; split; [reflexivity|]. split; [exact Hg|]. rewrite ol_get_nth. auto.
  - eexists _, _; split; [reflexivity|]. split; [exact Hg|]. rewrite Hl. auto.
  - unfold ol_index. pose proof (index_loop_spec (oitems o) x 0) as Hi.
    eexists _, _; split; [reflexivity|]. split; [exact Hg|]. split; [reflexivity|].
    destruct (index_loop same (oitems o) x 0) as [i|].
    + left. exists i. destruct Hi as [_ Hi]. rewrite Nat.sub_0_r in Hi. auto.
    + right. auto.
Qed.

Lemma ol_run_spec cs : forall o,
  ogood o -> lops_ok (oitems o) cs ->
  exists o' outs, ol_run o cs = Ok (o', outs) /\ ogood o' /\ lspecs (oitems o) cs (oitems o') outs.
Proof.
  induction cs as [|c cs IH]; intros o Hg Hok; cbn [ol_run].
  - exists o, []. split; [reflexivity|]. split; [exact Hg|]. constructor.
  - destruct Hok as [Hc Hcs]. destruct (ol_step_spec o c Hg Hc) as (o1 & out & -> & Hg1 & Hs). cbn [bind fst snd].
    destruct (IH o1 Hg1 (Hcs _ _ Hs)) as (o2 & outs & -> & Hg2 & Hs2). cbn [bind fst snd].
    exists o2, (out :: outs). split; [reflexivity|]. split; [exact Hg2|]. econstructor; eauto.
Qed.

(** ** Derived operations *)
Lemma filter_loop_spec (f : A -> bool) : forall (l : list A) ret, ogood ret ->
  exists o', filter_loop f (length l) l ret = Ok o' /\ oitems o' = oitems ret ++ filter f l /\ ogood o'.
Proof.
  induction l as [|x l IH]; intros ret Hg; cbn [length filter_loop filter].
  - exists ret. now rewrite app_nil_r.
  - destruct (f x).
    + destruct (ogood_append ret x Hg) as (o1 & -> & Hi & Hg1). cbn [bind].
      destruct (IH o1 Hg1) as (o2 & -> & Hi2 & Hg2). exists o2. rewrite Hi2, Hi, <- app_assoc. auto.
    + cbn [bind]. apply IH; auto.
Qed.
Lemma ol_filter_spec (f : A -> bool) o : ogood o ->
  exists o', ol_filter f o = Ok o' /\ oitems o' = filter f (oitems o) /\ ogood o'.
Proof.
  intros [Hl _]. unfold ol_filter. rewrite Hl. apply (filter_loop_spec f (oitems o) ol_create ogood_create).
Qed.
Lemma ol_concat_spec o1 o2 :
  exists o', ol_concat o1 o2 = Ok o' /\ oitems o' = oitems o1 ++ oitems o2 /\ ogood o'.
Proof.
  unfold ol_concat. destruct (ogood_append_all (oitems o1) ol_create ogood_create) as (r & -> & Hi & Hg). cbn [bind].
  destruct (ogood_append_all (oitems o2) r Hg) as (r2 & -> & Hi2 & Hg2). exists r2. rewrite Hi2, Hi. auto.
Qed.
Lemma ol_copy_spec (cp : A -> A) o :
  exists o', ol_copy cp o = Ok o' /\ oitems o' = map cp (oitems o) /\ ogood o'.
Proof.
  unfold ol_copy. destruct (ogood_append_all (map cp (oitems o)) ol_create ogood_create) as (r & -> & Hi & Hg).
  exists r. auto.
Qed.
Lemma walk_to_spec (l : list A) : forall pos p, pos <= p ->
  walk_to l pos p = (Nat.min p (pos + length l), skipn (p - pos) l).
Proof.
  induction l as [|x l IH]; intros pos p H; cbn [walk_to length].
  - f_equal; [lia|now destruct (p - pos)].
  - destruct (Nat.eqb_spec pos p) as [->|].
    + rewrite Nat.sub_diag. f_equal. lia.
    + rewrite IH by lia. replace (p - pos) with (S (p - S pos)) by lia. cbn [skipn]. f_equal. lia.
Qed.
Lemma sub_loop_spec (l : list A) : forall pos e ret, l <> [] -> pos <= e -> ogood ret ->
  exists o', sub_loop l pos e ret = Ok o' /\ oitems o' = oitems ret ++ firstn (e - pos) (removelast l) /\ ogood o'.
Proof.
  induction l as [|x l IH]; intros pos e ret Hne Hp Hg; [congruence|].
  destruct l as [|y l].
  - exists ret. cbn. rewrite firstn_nil, app_nil_r. auto.
  - change (sub_loop (x :: y :: l) pos e ret) with
      (if pos =? e then Ok ret else ret' <- ol_append ret x ;; sub_loop (y :: l) (S pos) e ret').
    destruct (Nat.eqb_spec pos e) as [->|].
    + exists ret. rewrite Nat.sub_diag, app_nil_r. auto.
    + destruct (ogood_append ret x Hg) as (o1 & -> & Hi & Hg1). cbn [bind].
      destruct (IH (S pos) e o1) as (o2 & -> & Hi2 & Hg2); [discriminate|lia|exact Hg1|].
      exists o2. split; [reflexivity|]. split; [|exact Hg2]. rewrite Hi2, Hi, <- app_assoc.
      replace (e - pos) with (S (e - S pos)) by lia. reflexivity.
Qed.
Lemma removelast_skipn (l : list A) n : n < length l -> removelast (skipn n l) = skipn n (removelast l).
Proof.
  revert n; induction l as [|x l IH]; intros n Hn; [cbn in Hn; lia|].
  destruct n; [reflexivity|]. cbn [skipn]. cbn in Hn. rewrite IH by lia.
  destruct l; [cbn in Hn; lia|]. reflexivity.
Qed.
(** What sublist_indexed really computes: positions start..end-1 of the list
    without its last element. *)
Lemma ol_sublist_indexed_spec o s e : s <= e ->
  exists o', ol_sublist_indexed o s e = Ok o' /\
    oitems o' = firstn (e - s) (skipn s (removelast (oitems o))) /\ ogood o'.
Proof.
  intros Hse. unfold ol_sublist_indexed. rewrite walk_to_spec by lia. rewrite Nat.sub_0_r. cbn [plus].
  destruct (skipn s (oitems o)) as [|x r] eqn:E.
  - exists ol_create. split; [reflexivity|]. split; [|apply ogood_create].
    assert (length (oitems o) <= s).
    { pose proof (skipn_length s (oitems o)) as H. rewrite E in H. cbn in H. lia. }
    rewrite skipn_all2; [now rewrite firstn_nil|].
    enough (length (removelast (oitems o)) <= length (oitems o)) by lia.
    clear. induction (oitems o) as [|x [|y l] IH]; cbn in *; lia.
  - assert (Hs : s < length (oitems o)).
    { destruct (Nat.lt_ge_cases s (length (oitems o))); [assumption|]. rewrite skipn_all2 in E by lia. discriminate. }
    rewrite Nat.min_l by lia. rewrite <- E.
    destruct (sub_loop_spec (skipn s (oitems o)) s e ol_create) as (o' & -> & Hi & Hg);
      [rewrite E; discriminate|lia|apply ogood_create|].
    exists o'. split; [reflexivity|]. split; [|exact Hg]. rewrite Hi. cbn [ol_create oitems app].
    now rewrite removelast_skipn.
Qed.
Lemma ol_get_it_none o p : ol_get_it o p = None.
Proof.
  unfold ol_get_it. rewrite walk_to_spec by lia.
  destruct (Nat.eqb_spec (S (Nat.min p (0 + length (oitems o)))) p) as [E|]; [|reflexivity].
  rewrite skipn_all2 by lia. reflexivity.
Qed.
Lemma ol_sublist_it_spec o i j : i <= j -> j < length (oitems o) ->
  exists o', ol_sublist_it o i (Some j) = Ok o' /\ oitems o' = firstn (j - i) (skipn i (oitems o)) /\ ogood o'.
Proof.
  intros Hi Hj. unfold ol_sublist_it.
  destruct (Nat.leb_spec i j); [|lia]. destruct (Nat.ltb_spec j (length (oitems o))); [|lia]. cbn [andb].
  destruct (ogood_append_all (firstn (j - i) (skipn i (oitems o))) ol_create ogood_create) as (r & -> & H1 & H2).
  exists r. auto.
Qed.
(** insert_before is only right from the third item on. *)
Lemma ol_insert_before_spec o i x : ogood o -> 2 <= i -> i < length (oitems o) ->
  exists o', ol_insert_before o i x = Ok o' /\ oitems o' = firstn i (oitems o) ++ [x] ++ skipn i (oitems o) /\ ogood o'.
Proof.
  intros [Hl Ht] H2 Hi. destruct i as [|[|i]]; [lia|lia|]. eexists; split; [reflexivity|].
  split; [reflexivity|]. split; cbn [olen oitems otail]; rewrite list_ins_length by lia; [lia|].
  destruct (otail o) as [|j|]; [rewrite Ht in Hi; cbn in Hi; lia| |contradiction].
  destruct (Nat.ltb_spec j (S (S i))); lia.
Qed.

(** ** Comparison *)
Lemma cmp_lists_Forall2 (eqv : A -> A -> bool) l1 : forall l2,
  cmp_lists eqv l1 l2 = true <-> Forall2 (fun x y => eqv x y = true) l1 l2.
Proof.
  induction l1 as [|x l1 IH]; intros [|y l2]; cbn.
  - split; [constructor|reflexivity].
  - split; [discriminate|]. intros H; inversion H.
  - split; [discriminate|]. intros H; inversion H.
  - destruct (eqv x y) eqn:E.
    + rewrite IH. split; [constructor; auto|]. intros H; inversion H; auto.
    + split; [discriminate|]. intros H; inversion H; congruence.
Qed.
Lemma cmp_lists_refl (eqv : A -> A -> bool) l :
  (forall x, In x l -> eqv x x = true) -> cmp_lists eqv l l = true.
Proof.
  induction l as [|x l IH]; intros H; cbn; [reflexivity|].
  rewrite H by now left. apply IH. intros; apply H; now right.
Qed.
Lemma cmp_lists_sym (eqv : A -> A -> bool) l1 : forall l2,
  (forall x y, In x l1 -> In y l2 -> eqv x y = eqv y x) -> cmp_lists eqv l1 l2 = cmp_lists eqv l2 l1.
Proof.
  induction l1 as [|x l1 IH]; intros [|y l2] H; cbn; try reflexivity.
  rewrite (H x y) by now left. destruct (eqv y x); [|reflexivity]. apply IH. intros; apply H; now right.
Qed.
Lemma cmp_lists_trans (eqv : A -> A -> bool) l1 : forall l2 l3,
  (forall x y z, In x l1 -> In y l2 -> In z l3 -> eqv x y = true -> eqv y z = true -> eqv x z = true) ->
  cmp_lists eqv l1 l2 = true -> cmp_lists eqv l2 l3 = true -> cmp_lists eqv l1 l3 = true.
Proof.
  induction l1 as [|x l1 IH]; intros [|y l2] [|z l3] H; cbn; try congruence.
  destruct (eqv x y) eqn:E1; [|discriminate]. destruct (eqv y z) eqn:E2; [|discriminate].
  rewrite (H x y z) by (auto; now left). intros. apply (IH l2 l3); auto.
  intros a b c Ha Hb Hc; apply H; now right.
Qed.
End Facts.
