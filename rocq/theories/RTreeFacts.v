(** Facts about the radix tree: well-formedness, lookup, set. *)
From Verif Require Import CStr CStrFacts HSListModel HSListFacts RTreeModel.

Section Facts.
Context {V : Type}.
Notation node := (node V).
Notation rtree := (rtree V).
Implicit Types (n : node) (l : list node) (h : hsl node) (k : str) (d : option V).

Lemma node_ind' (P : node -> Prop) :
  (forall k d l t, Forall P l -> P (Node k d (mkH l t))) -> forall n, P n.
Proof.
  intros H. fix IH 1. intros [k d [l t]]. apply H.
  induction l as [|m l IHl]; constructor; [apply IH|apply IHl].
Qed.

Definition head0 n : ascii := char0 (nkey n).

(** Well-formed child lists: non-empty keys, pairwise different first
    characters, tail pointer NULL or right. *)
Inductive wff : hsl node -> Prop :=
| wff_intro h :
    semi h ->
    NoDup (map head0 (hitems h)) ->
    (forall n, In n (hitems h) -> nkey n <> []) ->
    (forall n, In n (hitems h) -> wff (nsubs n)) ->
    wff h.

Lemma wff_semi h : wff h -> semi h. Proof. now destruct 1. Qed.
Lemma wff_nodup h : wff h -> NoDup (map head0 (hitems h)). Proof. now destruct 1. Qed.
Lemma wff_key h n : wff h -> In n (hitems h) -> nkey n <> []. Proof. destruct 1; auto. Qed.
Lemma wff_sub h n : wff h -> In n (hitems h) -> wff (nsubs n). Proof. destruct 1; auto. Qed.

Lemma wff_empty : wff hs_empty.
Proof. constructor; cbn; [exact I|constructor|contradiction|contradiction]. Qed.

(** ** The key comparison loop *)
Lemma scan_spec x k nk :
  match scan x k nk with
  | E3 => k = nk
  | E2 => exists c r, nk = k ++ c :: r
  | E1 y => y = x + length nk /\ exists c r, k = nk ++ c :: r
  | E0 y => exists p a ra b rb, nk = p ++ a :: ra /\ k = p ++ b :: rb /\ a <> b /\ y = x + length p
  end.
Proof.
  revert x nk; induction k as [|b k IH]; intros x nk; destruct nk as [|a nk]; cbn [scan].
  - reflexivity.
  - now exists a, nk.
  - split; [cbn; lia|]. now exists b, k.
  - destruct (Ascii.eqb_spec b a) as [->|Hne].
    + specialize (IH (S x) nk). destruct (scan (S x) k nk) as [| |y|y].
      * now subst.
      * destruct IH as (c & r & ->). now exists c, r.
      * destruct IH as (-> & c & r & ->). split; [cbn; lia|]. now exists c, r.
      * destruct IH as (p & a' & ra & b' & rb & -> & -> & Hne & ->).
        exists (a :: p), a', ra, b', rb. cbn. repeat split; auto; lia.
    + exists [], a, nk, b, k. repeat split; [congruence|cbn; lia].
Qed.

(** Same, on whole keys whose first characters agree. *)
Inductive keycmp k nk : ended -> Prop :=
| KC3 : k = nk -> keycmp k nk E3
| KC2 c r : nk = k ++ c :: r -> keycmp k nk E2
| KC1 c r : k = nk ++ c :: r -> keycmp k nk (E1 (length nk))
| KC0 p a ra b rb : p <> [] -> nk = p ++ a :: ra -> k = p ++ b :: rb -> a <> b ->
    keycmp k nk (E0 (length p)).

Lemma scan_keycmp c k nk :
  nk <> [] -> char0 nk = c -> keycmp (c :: k) nk (scan 1 k (tl nk)).
Proof.
  destruct nk as [|c' nk]; [congruence|]. intros _ Hc. cbn in Hc. subst c'. cbn [tl].
  pose proof (scan_spec 1 k nk) as H. destruct (scan 1 k nk) as [| |y|y].
  - constructor. congruence.
  - destruct H as (a & r & ->). econstructor. reflexivity.
  - destruct H as (-> & a & r & ->). apply (KC1 _ (c :: nk) a r). reflexivity.
  - destruct H as (p & a & ra & b & rb & -> & -> & Hne & ->).
    apply (KC0 _ _ (c :: p) a ra b rb); auto; discriminate.
Qed.

(** ** Searching among siblings *)
Lemma find_child_spec c l i lz :
  match find_child c l i lz with
  | Found j n => exists l1 l2, l = l1 ++ n :: l2 /\ j = i + length l1 /\ head0 n = c /\
                               Forall (fun m => head0 m <> c) l1
  | NotFound lz' => Forall (fun m => head0 m <> c) l /\
                    (lz' = lz \/ exists j, lz' = Some j /\ i <= j < i + length l)
  end.
Proof.
  revert i lz; induction l as [|n l IH]; intros i lz; cbn [find_child].
  - split; auto.
  - destruct (Ascii.eqb_spec (char0 (nkey n)) c) as [Hc|Hc].
    + exists [], l. cbn. repeat split; auto.
    + specialize (IH (S i) (if (schar (char0 (nkey n)) <? schar c)%Z then Some i else lz)).
      destruct (find_child c l (S i) _) as [j m|lz'].
      * destruct IH as (l1 & l2 & -> & -> & Hh & Hf). exists (n :: l1), l2. cbn. repeat split; auto.
      * destruct IH as [Hf Hl]. split; [constructor; auto|].
        cbn [length]. destruct Hl as [Hl|(j & Hl & Hj)].
        -- destruct (_ <? _)%Z; [right; exists i; split; [auto|lia]|left; auto].
        -- right; exists j; split; [auto|lia].
Qed.

(** ** Lookup as a total function *)
Lemma get_sub_fuel f1 f2 h k :
  length k <= f1 -> length k <= f2 -> get_sub f1 h k = get_sub f2 h k.
Proof.
  revert f2 h k; induction f1 as [|f1 IH]; intros f2 h k H1 H2.
  - destruct k; [destruct f2; reflexivity|cbn in H1; lia].
  - destruct k as [|c k]; [destruct f2; reflexivity|].
    destruct f2 as [|f2]; [cbn in H2; lia|]. cbn [get_sub].
    destruct (find_child c (hitems h) 0 None) as [i n|]; [|reflexivity].
    pose proof (scan_spec 1 k (tl (nkey n))) as Hs.
    destruct (scan 1 k (tl (nkey n))) as [| |x|]; try reflexivity.
    apply IH; rewrite skipn_length; destruct Hs as (-> & _); cbn [length] in *; lia.
Qed.

Lemma get_sub_total f h k : length k <= f -> exists v, get_sub f h k = Ok v.
Proof.
  revert h k; induction f as [|f IH]; intros h k Hk.
  - destruct k; [now exists None|cbn in Hk; lia].
  - destruct k as [|c k]; [now exists None|]. cbn [get_sub].
    destruct (find_child c (hitems h) 0 None) as [i n|]; [|now exists None].
    pose proof (scan_spec 1 k (tl (nkey n))) as Hs.
    destruct (scan 1 k (tl (nkey n))) as [| |x|]; try (eexists; reflexivity).
    apply IH. rewrite skipn_length. destruct Hs as (-> & _). cbn [length] in *. lia.
Qed.

(** The lookup result. *)
Definition look h k : option V :=
  match get_sub (length k) h k with Ok v => v | _ => None end.
Lemma get_sub_look f h k : length k <= f -> get_sub f h k = Ok (look h k).
Proof.
  intros H. unfold look. rewrite (get_sub_fuel f (length k) h k) by lia.
  destruct (get_sub_total (length k) h k (le_n _)) as (v & ->). reflexivity.
Qed.

(** Lookup inside one node. *)
Fixpoint strip (p s : str) : option str :=
  match p, s with
  | [], _ => Some s
  | a :: p', b :: s' => if Ascii.eqb a b then strip p' s' else None
  | _ :: _, [] => None
  end.
Lemma strip_app p r : strip p (p ++ r) = Some r.
Proof. induction p; cbn; [reflexivity|]. now rewrite Ascii.eqb_refl. Qed.
Lemma strip_app2 p s r : strip (p ++ s) (p ++ r) = strip s r.
Proof. induction p; cbn; [reflexivity|]. now rewrite Ascii.eqb_refl. Qed.
Lemma strip_some p s r : strip p s = Some r <-> s = p ++ r.
Proof.
  split; [|intros ->; apply strip_app].
  revert s; induction p as [|a p IH]; intros s; cbn; [congruence|].
  destruct s as [|b s]; [discriminate|]. destruct (Ascii.eqb_spec a b) as [->|]; [|discriminate].
  intros H. now rewrite (IH _ H).
Qed.
Lemma strip_none p s : strip p s = None <-> ~ prefix p s.
Proof.
  split.
  - intros H (r & ->). rewrite strip_app in H. discriminate.
  - intros H. destruct (strip p s) eqn:E; [|reflexivity].
    apply strip_some in E. exfalso; apply H. now exists s0.
Qed.

Definition nlook n k : option V :=
  match strip (nkey n) k with
  | Some [] => ndata n
  | Some r => look (nsubs n) r
  | None => None
  end.

Definition pick c l : option node := find (fun n => Ascii.eqb (head0 n) c) l.

Lemma find_child_pick c l i lz :
  match find_child c l i lz with Found _ n => pick c l = Some n | NotFound _ => pick c l = None end.
Proof.
  revert i lz; induction l as [|n l IH]; intros i lz; cbn; [reflexivity|].
  unfold head0. destruct (Ascii.eqb (char0 (nkey n)) c); [reflexivity|apply IH].
Qed.

Lemma look_nil h : look h [] = None.
Proof. reflexivity. Qed.

Lemma look_cons h c k :
  wff h -> look h (c :: k) = match pick c (hitems h) with Some n => nlook n (c :: k) | None => None end.
Proof.
  intros Hw. unfold look at 1. cbn [length get_sub].
  pose proof (find_child_pick c (hitems h) 0 None) as Hp.
  pose proof (find_child_spec c (hitems h) 0 None) as Hf.
  destruct (find_child c (hitems h) 0 None) as [i n|]; rewrite Hp; [|reflexivity].
  destruct Hf as (l1 & l2 & El & -> & Hh & _).
  assert (Hin : In n (hitems h)) by (rewrite El; apply in_or_app; right; now left).
  pose proof (wff_key h n Hw Hin) as Hne.
  pose proof (scan_keycmp c k (nkey n) Hne Hh) as Hk.
  unfold nlook. inversion Hk as [E He|c0 r E He|c0 r E He|p a ra b rb Hp0 E E' Hab He]; cbn iota.
  - rewrite <- E. rewrite <- (app_nil_r (c :: k)) at 2. now rewrite strip_app.
  - destruct (strip (nkey n) (c :: k)) eqn:Es; [|reflexivity].
    apply strip_some in Es. exfalso. rewrite E in Es.
    apply (f_equal (@length _)) in Es. rewrite !app_length in Es. cbn in Es. lia.
  - rewrite E, strip_app, skipn_app_exact.
    rewrite get_sub_look; [reflexivity|].
    apply (f_equal (@length _)) in E. rewrite app_length in E. cbn in E.
    destruct (nkey n); [congruence|cbn in *; lia].
  - destruct (strip (nkey n) (c :: k)) eqn:Es; [|reflexivity].
    apply strip_some in Es. exfalso. rewrite E, E' in Es.
    rewrite <- app_assoc in Es. apply app_inv_head in Es. cbn in Es. congruence.
Qed.

Lemma pick_unique c l1 n l2 :
  NoDup (map head0 (l1 ++ n :: l2)) -> head0 n = c -> pick c (l1 ++ n :: l2) = Some n.
Proof.
  intros Hd Hc. unfold pick. induction l1 as [|m l1 IH]; cbn in *.
  - now rewrite Hc, Ascii.eqb_refl.
  - inversion Hd as [|x y Hn Hd' E]; subst.
    destruct (Ascii.eqb_spec (head0 m) (head0 n)) as [E|E]; [|now apply IH].
    exfalso. apply Hn. rewrite E, map_app. apply in_or_app. right. now left.
Qed.
Lemma pick_in c l n : NoDup (map head0 l) -> In n l -> head0 n = c -> pick c l = Some n.
Proof.
  intros Hd Hin Hc. apply in_split in Hin. destruct Hin as (l1 & l2 & ->). now apply pick_unique.
Qed.
Lemma pick_none c l : Forall (fun m => head0 m <> c) l -> pick c l = None.
Proof.
  induction 1 as [|m l Hm _ IH]; cbn; [reflexivity|].
  destruct (Ascii.eqb_spec (head0 m) c); [contradiction|apply IH].
Qed.
Lemma pick_some c l n : pick c l = Some n -> In n l /\ head0 n = c.
Proof.
  unfold pick. intros H. apply find_some in H. destruct H as [H1 H2].
  split; [exact H1|now apply Ascii.eqb_eq].
Qed.
Lemma pick_none_inv c l : pick c l = None -> Forall (fun m => head0 m <> c) l.
Proof.
  intros H. apply Forall_forall. intros m Hm E. unfold pick in H.
  apply find_none with (x := m) in H; [|exact Hm]. rewrite E, Ascii.eqb_refl in H. discriminate.
Qed.

Lemma pick_app_mid c l1 n l2 :
  head0 n <> c -> pick c (l1 ++ n :: l2) = pick c (l1 ++ l2).
Proof.
  intros H. unfold pick. induction l1 as [|m l1 IH]; cbn.
  - destruct (Ascii.eqb_spec (head0 n) c); [contradiction|reflexivity].
  - destruct (Ascii.eqb (head0 m) c); [reflexivity|apply IH].
Qed.
(** Replacing a node by one with the same first character does not change the
    choice for other characters. *)
Lemma pick_replace c l1 n n' l2 :
  head0 n = head0 n' -> head0 n <> c -> pick c (l1 ++ n :: l2) = pick c (l1 ++ n' :: l2).
Proof. intros E H. rewrite !pick_app_mid; [reflexivity|congruence|exact H]. Qed.

Lemma head0_app n k k' : nkey n = k ++ k' -> k <> [] -> head0 n = char0 k.
Proof. unfold head0. intros -> H. destruct k; [congruence|reflexivity]. Qed.

Lemma nlook_self n : nlook n (nkey n) = ndata n.
Proof. unfold nlook. rewrite <- (app_nil_r (nkey n)) at 2. now rewrite strip_app. Qed.
Lemma nlook_below n c r : nlook n (nkey n ++ c :: r) = look (nsubs n) (c :: r).
Proof. unfold nlook. now rewrite strip_app. Qed.
Lemma nlook_off n k : ~ prefix (nkey n) k -> nlook n k = None.
Proof. intros H. unfold nlook. now rewrite (proj2 (strip_none _ _) H). Qed.
Lemma nlook_app n r : nlook n (nkey n ++ r) = match r with [] => ndata n | _ => look (nsubs n) r end.
Proof. unfold nlook. now rewrite strip_app. Qed.

(** ** The situation in which [set] drops the siblings *)
(** The key ends inside the key of a node whose sibling list has a NULL tail
    pointer and at least one other element. *)
Fixpoint clob (fuel : nat) h k : bool :=
  match k with
  | [] => false
  | c :: k' =>
    match fuel with
    | O => false
    | S fuel' =>
      match find_child c (hitems h) 0 None with
      | NotFound _ => false
      | Found i n =>
          match scan 1 k' (tl (nkey n)) with
          | E2 => match htail h with TNull => 1 <? length (hitems h) | _ => false end
          | E1 x => clob fuel' (nsubs n) (skipn x k)
          | _ => false
          end
      end
    end
  end.

(** A node in isolation. *)
Definition wfn n : Prop := nkey n <> [] /\ wff (nsubs n).

Lemma wff_update h l1 n n' l2 :
  wff h -> hitems h = l1 ++ n :: l2 -> head0 n' = head0 n -> wfn n' ->
  wff (hs_update h (length l1) n').
Proof.
  intros Hw El Hh [Hk Hs]. destruct Hw as [h Hsemi Hnd Hkeys Hsubs].
  constructor; unfold hs_update; cbn [hitems htail]; rewrite El in *; rewrite ?list_upd_app.
  - unfold semi in *; cbn [hitems htail]. destruct (htail h); auto.
    rewrite Hsemi, ?El, !app_length. reflexivity.
  - rewrite map_app in *. cbn [map] in *. now rewrite Hh.
  - intros m Hm. apply in_app_or in Hm. destruct Hm as [Hm|[<-|Hm]]; auto;
      apply Hkeys; apply in_or_app; [now left|right; now right].
  - intros m Hm. apply in_app_or in Hm. destruct Hm as [Hm|[<-|Hm]]; auto;
      apply Hsubs; apply in_or_app; [now left|right; now right].
Qed.

(** Lookup after replacing one child. *)
Lemma look_update h l1 n n' l2 k :
  wff h -> wff (hs_update h (length l1) n') ->
  hitems h = l1 ++ n :: l2 -> head0 n' = head0 n -> k <> [] ->
  look (hs_update h (length l1) n') k =
    if Ascii.eqb (char0 k) (head0 n) then nlook n' k else look h k.
Proof.
  intros Hw Hw' El Hh Hk. destruct k as [|c k]; [congruence|]. cbn [char0].
  rewrite look_cons by assumption. unfold hs_update; cbn [hitems]. rewrite El, list_upd_app.
  destruct (Ascii.eqb_spec c (head0 n)) as [E|E].
  - assert (Hnd : NoDup (map head0 (l1 ++ n' :: l2))).
    { pose proof (wff_nodup _ Hw') as H. unfold hs_update in H; cbn [hitems] in H.
      rewrite El, list_upd_app in H. exact H. }
    rewrite (pick_unique c l1 n' l2 Hnd); [reflexivity|congruence].
  - rewrite look_cons by assumption. rewrite El.
    rewrite (pick_replace c l1 n' n l2); auto; congruence.
Qed.

Lemma look_in h n k :
  wff h -> In n (hitems h) -> k <> [] -> char0 k = head0 n -> look h k = nlook n k.
Proof.
  intros Hw Hin Hk Hc. destruct k as [|c k]; [congruence|]. cbn in Hc.
  rewrite look_cons by assumption.
  rewrite (pick_in c (hitems h) n); auto using wff_nodup.
Qed.
Lemma look_notin h k : wff h -> Forall (fun m => head0 m <> char0 k) (hitems h) -> look h k = None.
Proof.
  intros Hw Hf. destruct k as [|c k]; [reflexivity|]. rewrite look_cons by assumption.
  now rewrite pick_none.
Qed.

(** Permuting / splicing a fresh-headed node into a list. *)
Lemma wff_splice h h' l1 n l2 :
  wff h -> semi h' -> hitems h = l1 ++ l2 -> hitems h' = l1 ++ n :: l2 ->
  Forall (fun m => head0 m <> head0 n) (l1 ++ l2) -> wfn n -> wff h'.
Proof.
  intros Hw Hs El El' Hf [Hk Hsub]. destruct Hw as [h Hsemi Hnd Hkeys Hsubs].
  constructor; auto; rewrite El'.
  - rewrite map_app. cbn [map]. apply NoDup_Add with (a := head0 n) (l := map head0 (l1 ++ l2)).
    + rewrite map_app. apply Add_app.
    + split; [now rewrite <- El|].
      intros Hin. apply in_map_iff in Hin. destruct Hin as (m & Hm & Hin).
      rewrite Forall_forall in Hf. now apply (Hf m Hin).
  - rewrite El in Hkeys. intros m Hm. apply in_app_or in Hm.
    destruct Hm as [Hm|[<-|Hm]]; auto; apply Hkeys, in_or_app; auto.
  - rewrite El in Hsubs. intros m Hm. apply in_app_or in Hm.
    destruct Hm as [Hm|[<-|Hm]]; auto; apply Hsubs, in_or_app; auto.
Qed.
Lemma look_splice h h' l1 n l2 k :
  wff h -> wff h' -> hitems h = l1 ++ l2 -> hitems h' = l1 ++ n :: l2 -> k <> [] ->
  look h' k = if Ascii.eqb (char0 k) (head0 n) then nlook n k else look h k.
Proof.
  intros Hw Hw' El El' Hk. destruct k as [|c k]; [congruence|]. cbn [char0].
  rewrite look_cons by assumption. rewrite El'.
  destruct (Ascii.eqb_spec c (head0 n)) as [E|E].
  - rewrite pick_unique; auto. rewrite <- El'. now apply wff_nodup.
  - rewrite pick_app_mid by congruence. rewrite look_cons by assumption. now rewrite El.
Qed.

Lemma list_ins_split {A} (l : list A) i x :
  i <= length l -> exists l1 l2 : list A, l = l1 ++ l2 /\ list_ins l i x = l1 ++ x :: l2.
Proof. intros H. exists (firstn i l), (skipn i l). split; [now rewrite firstn_skipn|reflexivity]. Qed.

(** A fresh leaf. *)
Lemma wfn_leaf k d : k <> [] -> wfn (Node k d hs_empty).
Proof. intros H. split; [exact H|apply wff_empty]. Qed.
Lemma look_empty k : look hs_empty k = None.
Proof. destruct k; reflexivity. Qed.
Lemma nlook_leaf k d k' : nlook (Node k d hs_empty) k' = if streq k' k then d else None.
Proof.
  destruct (streq_spec k' k) as [->|Hne].
  - apply (nlook_self (Node k d hs_empty)).
  - unfold nlook. cbn [nkey ndata nsubs]. destruct (strip k k') as [[|c r]|] eqn:E; [|apply look_empty|reflexivity].
    apply strip_some in E. rewrite app_nil_r in E. congruence.
Qed.

(** ** The central lemma about [set] *)
Lemma set_sub_spec fuel : forall h k d,
  wff h -> length k <= fuel ->
  exists h' b, set_sub fuel h k d = Ok (h', b) /\ wff h' /\
    (clob fuel h k = false ->
     forall k', k <> [] -> look h' k' = if streq k' k then d else look h k').
Proof.
  induction fuel as [|fuel IH]; intros h k d Hw Hlen.
  { destruct k; [|cbn in Hlen; lia]. exists h, false. cbn. split; [reflexivity|]. split; [exact Hw|]. congruence. }
  destruct k as [|c k]; [exists h, false; cbn; split; [reflexivity|]; split; [exact Hw|]; congruence|].
  cbn [set_sub clob].
  pose proof (find_child_spec c (hitems h) 0 None) as Hf.
  destruct (find_child c (hitems h) 0 None) as [i n|lz].
  2:{ (* no child starts with c *)
    destruct Hf as [Hf Hlz]. set (nn := Node (c :: k) d hs_empty).
    set (h' := match lz with None => hs_prepend h nn | Some i => hs_insert_after h i nn end).
    exists h', true. split; [reflexivity|].
    assert (Hsplit : exists l1 l2, hitems h = l1 ++ l2 /\ hitems h' = l1 ++ nn :: l2 /\ semi h').
    { destruct Hlz as [->|(j & -> & Hj)]; unfold h'.
      - exists [], (hitems h). split; [reflexivity|]. split; [reflexivity|]. apply semi_prepend, (wff_semi _ Hw).
      - destruct (list_ins_split (hitems h) (S j) nn) as (l1 & l2 & E1 & E2); [lia|].
        exists l1, l2. unfold hs_insert_after; cbn [hitems]. split; [exact E1|]. split; [exact E2|].
        apply (semi_insert_after h j nn); [lia|now apply wff_semi]. }
    destruct Hsplit as (l1 & l2 & El & El' & Hs').
    assert (Hw' : wff h').
    { apply (wff_splice h h' l1 nn l2); auto.
      - rewrite <- El. exact Hf.
      - now apply wfn_leaf. }
    split; [exact Hw'|]. intros _ k' _.
    destruct k' as [|c' k'0]; [reflexivity|]. set (k' := c' :: k'0).
    rewrite (look_splice h h' l1 nn l2 k') by (auto; discriminate).
    unfold nn at 2. rewrite nlook_leaf. cbn [char0 k' head0 nn nkey].
    destruct (Ascii.eqb_spec c' c) as [->|Hne].
    - fold k'. destruct (streq_spec k' (c :: k)); [reflexivity|].
      symmetry. now apply look_notin.
    - fold k'. destruct (streq_spec k' (c :: k)) as [E|]; [unfold k' in E; congruence|reflexivity]. }
  (* a child n starts with c *)
  destruct Hf as (l1 & l2 & El & Hi & Hh & Hf). cbn in Hi. subst i.
  assert (Hin : In n (hitems h)) by (rewrite El; apply in_or_app; right; now left).
  pose proof (wff_key _ _ Hw Hin) as Hnk. pose proof (wff_sub _ _ Hw Hin) as Hns.
  assert (Hother : forall k', k' <> [] -> char0 k' = head0 n -> look h k' = nlook n k')
    by (intros; now apply look_in).
  pose proof (scan_keycmp c k (nkey n) Hnk Hh) as Hk.
  inversion Hk as [E He|a r E He|a r E He|p a ra b rb Hp0 E E' Hab He]; clear Hk He; cbv beta iota zeta.
  - (* equal keys *)
    set (n' := Node (nkey n) d (nsubs n)).
    assert (Hw' : wff (hs_update h (length l1) n')).
    { apply (wff_update h l1 n n' l2); auto. split; auto. }
    exists (hs_update h (length l1) n'), false. split; [reflexivity|]. split; [exact Hw'|].
    intros _ k' _. destruct k' as [|c' k'0]; [reflexivity|]. set (k' := c' :: k'0).
    rewrite (look_update h l1 n n' l2) by (auto; discriminate).
    cbn [char0 k']. fold k'. destruct (Ascii.eqb_spec c' (head0 n)) as [Ec|Ec].
    + rewrite (Hother k') by (auto; discriminate). unfold nlook. cbn [n' nkey ndata nsubs].
      rewrite E. destruct (strip (nkey n) k') as [[|c0 r0]|] eqn:Es.
      * apply strip_some in Es. rewrite app_nil_r in Es. now rewrite Es, streq_refl.
      * apply strip_some in Es. rewrite streq_neq; [reflexivity|]. intros E2. rewrite E2 in Es.
        apply (f_equal (@length _)) in Es. rewrite app_length in Es; cbn in Es; lia.
      * rewrite streq_neq; [reflexivity|]. intros E2. rewrite E2 in Es.
        apply strip_none in Es. apply Es, prefix_refl.
    + rewrite streq_neq; [reflexivity|]. intros E2. unfold k' in E2. congruence.
  - (* the key ends inside the node key *)
    set (old := Node (skipn (length (c :: k)) (nkey n)) (ndata n) (nsubs n)).
    set (nn := Node (c :: k) d (mkH [old] (TAt 0))).
    assert (Hold : nkey old = a :: r) by (cbn [old nkey]; rewrite E; apply skipn_app_exact).
    assert (Hwold : wff (mkH [old] (TAt 0))).
    { constructor; cbn [hitems htail].
      - reflexivity.
      - cbn. constructor; [easy|constructor].
      - intros m [<-|[]]. rewrite Hold. discriminate.
      - intros m [<-|[]]. exact Hns. }
    assert (Hwn : wfn nn) by (split; [discriminate|exact Hwold]).
    assert (Hhn : head0 nn = head0 n) by (rewrite Hh; reflexivity).
    (* what happens to the sibling list *)
    pose proof (hs_remove_items h l1 n l2 El) as Erem.
    pose proof (semi_remove h (length l1) (wff_semi _ Hw)) as Hsrem.
    assert (Happ : exists h', hs_append (hs_remove h (length l1)) nn = Ok h' /\ semi h' /\
               ((htail (hs_remove h (length l1)) = TNull /\ hitems h' = [nn]) \/
                hitems h' = (l1 ++ l2) ++ [nn])).
    { unfold hs_append. destruct (htail (hs_remove h (length l1))) as [|j|] eqn:Et.
      - eexists; split; [reflexivity|]. split; [reflexivity|]. left; auto.
      - unfold semi in Hsrem. rewrite Et, Erem in Hsrem.
        eexists; split; [reflexivity|]. rewrite Erem, firstn_all2 by lia. split.
        + unfold semi; cbn [htail hitems]. rewrite app_length; cbn; lia.
        + right; reflexivity.
      - unfold semi in Hsrem. now rewrite Et in Hsrem. }
    destruct Happ as (h' & Eapp & Hs' & Hitems). rewrite Eapp. cbn [bind].
    exists h', true. split; [reflexivity|].
    assert (Hnd : NoDup (map head0 (l1 ++ n :: l2))) by (rewrite <- El; now apply wff_nodup).
    assert (Hw' : wff h').
    { destruct Hitems as [[Ht Hi]|Hi]; constructor; auto; rewrite Hi.
      - cbn. constructor; [easy|constructor].
      - intros m [<-|[]]. apply Hwn.
      - intros m [<-|[]]. apply Hwn.
      - rewrite map_app. cbn [map]. rewrite Hhn. rewrite map_app in *. cbn [map] in Hnd.
        apply NoDup_Add with (a := head0 n) (l := map head0 l1 ++ map head0 l2).
        + rewrite <- (app_nil_r (map head0 l1 ++ map head0 l2)) at 1. apply Add_app.
        + split; [now apply NoDup_remove_1 in Hnd|now apply NoDup_remove_2 in Hnd].
      - intros m Hm. apply in_app_or in Hm. destruct Hm as [Hm|[<-|[]]]; [|apply Hwn].
        apply (wff_key _ _ Hw). rewrite El. apply in_app_or in Hm. apply in_or_app. cbn. tauto.
      - intros m Hm. apply in_app_or in Hm. destruct Hm as [Hm|[<-|[]]]; [|apply Hwn].
        apply (wff_sub _ _ Hw). rewrite El. apply in_app_or in Hm. apply in_or_app. cbn. tauto. }
    split; [exact Hw'|]. intros Hclob k' _.
    destruct k' as [|c' k'0]; [reflexivity|]. set (k' := c' :: k'0).
    assert (Hall : hitems h' = (l1 ++ l2) ++ [nn]).
    { destruct Hitems as [[Ht Hi]|Hi]; [|exact Hi]. rewrite Hi.
      destruct (htail h) as [|j|] eqn:Eth.
      - apply Nat.ltb_ge in Hclob. rewrite El, app_length in Hclob. cbn in Hclob.
        assert (l1 = []) as -> by (apply length_zero_iff_nil; lia).
        assert (l2 = []) as -> by (apply length_zero_iff_nil; lia). reflexivity.
      - rewrite (hs_remove_nonnull h (length l1) j (wff_semi _ Hw) Eth Ht) in Erem.
        now rewrite <- Erem.
      - pose proof (wff_semi _ Hw) as Hsm. unfold semi in Hsm. now rewrite Eth in Hsm. }
    unfold k' at 1. rewrite look_cons by assumption. rewrite Hall. fold k'.
    destruct (Ascii.eqb_spec c' (head0 n)) as [Ec|Ec].
    + rewrite (pick_in c' ((l1 ++ l2) ++ [nn]) nn).
      * (* below the new node *)
        rewrite (Hother k') by (auto; discriminate).
        unfold nlook at 1. cbn [nn nkey ndata nsubs].
        destruct (strip (c :: k) k') as [[|c0 r0]|] eqn:Es.
        -- apply strip_some in Es. rewrite app_nil_r in Es. now rewrite Es, streq_refl.
        -- apply strip_some in Es.
           rewrite streq_neq by (intros E2; rewrite E2 in Es; apply (f_equal (@length _)) in Es;
                                 rewrite app_length in Es; cbn in Es; lia).
           rewrite look_cons by assumption. cbn [hitems pick find].
           unfold head0 at 1. rewrite Hold. cbn [char0].
           destruct (Ascii.eqb_spec a c0) as [<-|Hac].
           ++ unfold nlook. rewrite Hold. cbn [old ndata nsubs]. rewrite E, Es.
              now rewrite strip_app2.
           ++ symmetry. apply nlook_off. rewrite E, Es. intros (q & Hq).
              rewrite <- app_assoc in Hq. apply app_inv_head in Hq. cbn in Hq. congruence.
        -- rewrite streq_neq by (intros E2; rewrite E2 in Es; apply strip_none in Es; apply Es, prefix_refl).
           symmetry. apply nlook_off. intros (q & Hq). apply strip_none in Es. apply Es.
           rewrite Hq, E, <- app_assoc. now exists ((a :: r) ++ q).
      * rewrite <- Hall. now apply wff_nodup.
      * apply in_or_app. right. now left.
      * congruence.
    + rewrite streq_neq by (intros E2; unfold k' in E2; congruence).
      rewrite pick_app_mid by congruence. rewrite app_nil_r.
      unfold k' at 2. rewrite look_cons by assumption. rewrite El. rewrite pick_app_mid by congruence. reflexivity.
  - (* descend *)
    assert (Hskip : skipn (length (nkey n)) (c :: k) = a :: r) by (rewrite E; apply skipn_app_exact).
    rewrite Hskip.
    assert (Hlr : length (a :: r) <= fuel).
    { apply (f_equal (@length _)) in E. rewrite app_length in E.
      destruct (nkey n); [congruence|]. cbn in *. lia. }
    destruct (IH (nsubs n) (a :: r) d Hns Hlr) as (hs & b & Eset & Hws & Hlook).
    rewrite Eset. cbn [bind fst snd].
    set (n' := Node (nkey n) (ndata n) hs).
    assert (Hw' : wff (hs_update h (length l1) n')).
    { apply (wff_update h l1 n n' l2); auto. split; auto. }
    exists (hs_update h (length l1) n'), b. split; [reflexivity|]. split; [exact Hw'|].
    intros Hclob k' _. specialize (Hlook Hclob).
    destruct k' as [|c' k'0]; [reflexivity|]. set (k' := c' :: k'0).
    rewrite (look_update h l1 n n' l2) by (auto; discriminate).
    cbn [char0 k']. fold k'. destruct (Ascii.eqb_spec c' (head0 n)) as [Ec|Ec].
    + rewrite (Hother k') by (auto; discriminate). unfold nlook. cbn [n' nkey ndata nsubs].
      destruct (strip (nkey n) k') as [[|c0 r0]|] eqn:Es.
      * apply strip_some in Es. rewrite app_nil_r in Es.
        rewrite streq_neq; [reflexivity|]. rewrite E, Es. intros E2.
        apply (f_equal (@length _)) in E2. rewrite app_length in E2; cbn in E2; lia.
      * apply strip_some in Es. rewrite Hlook by discriminate. rewrite E, Es.
        destruct (streq_spec (c0 :: r0) (a :: r)) as [Er|Er].
        -- now rewrite Er, streq_refl.
        -- rewrite streq_neq; [reflexivity|]. intros E2. now apply app_inv_head in E2.
      * rewrite streq_neq; [reflexivity|]. intros E2. rewrite E2, E in Es.
        rewrite strip_app in Es. discriminate.
    + rewrite streq_neq; [reflexivity|]. intros E2. unfold k' in E2. congruence.
  - (* split *)
    assert (Hsk : skipn (length p) (c :: k) = b :: rb) by (rewrite E'; apply skipn_app_exact).
    assert (Hsn : skipn (length p) (nkey n) = a :: ra) by (rewrite E; apply skipn_app_exact).
    assert (Hfn : firstn (length p) (nkey n) = p) by (rewrite E; apply firstn_app_exact).
    rewrite Hsk, Hsn, Hfn.
    set (old := Node (a :: ra) (ndata n) (nsubs n)).
    set (new := Node (b :: rb) d hs_empty).
    destruct (good_append_all (match strcmp (b :: rb) (a :: ra) with Gt => [old; new] | _ => [new; old] end)
                hs_empty good_empty) as (ch & Ech & Hch & Hg).
    rewrite Ech. cbn [bind]. cbn [hs_empty hitems app] in Hch.
    set (n' := Node p None ch).
    assert (Hchin : forall m, In m (hitems ch) <-> m = old \/ m = new).
    { intros m. rewrite Hch. destruct (strcmp _ _); cbn; intuition congruence. }
    assert (Hwch : wff ch).
    { constructor.
      - now apply good_semi.
      - rewrite Hch. destruct (strcmp _ _); cbn; repeat constructor; cbn; intuition congruence.
      - intros m Hm. apply Hchin in Hm. destruct Hm as [->| ->]; discriminate.
      - intros m Hm. apply Hchin in Hm. destruct Hm as [->| ->]; [exact Hns|apply wff_empty]. }
    assert (Hhead : head0 n' = head0 n) by (symmetry; now apply (head0_app n p (a :: ra))).
    assert (Hw' : wff (hs_update h (length l1) n')).
    { apply (wff_update h l1 n n' l2); auto. split; auto. }
    exists (hs_update h (length l1) n'), true. split; [reflexivity|]. split; [exact Hw'|].
    intros _ k' _. destruct k' as [|c' k'0]; [reflexivity|]. set (k' := c' :: k'0).
    rewrite (look_update h l1 n n' l2) by (auto; discriminate).
    cbn [char0 k']. fold k'. destruct (Ascii.eqb_spec c' (head0 n)) as [Ec|Ec].
    + rewrite (Hother k') by (auto; discriminate). unfold nlook at 1. cbn [n' nkey ndata nsubs].
      destruct (strip p k') as [[|c0 r0]|] eqn:Es.
      * apply strip_some in Es. rewrite app_nil_r in Es.
        rewrite streq_neq by (rewrite E', Es; intros E2; apply (f_equal (@length _)) in E2;
                              rewrite app_length in E2; cbn in E2; lia).
        symmetry. apply nlook_off. rewrite E, Es. intros Hpre. apply prefix_length in Hpre.
        rewrite app_length in Hpre; cbn in Hpre; lia.
      * apply strip_some in Es. rewrite Es, E'.
        destruct (Ascii.eqb_spec c0 b) as [->|Hcb].
        -- rewrite (look_in ch new); [|auto|apply Hchin; auto|discriminate|reflexivity].
           unfold new. rewrite nlook_leaf.
           destruct (streq_spec (b :: r0) (b :: rb)) as [->|Er]; [now rewrite streq_refl|].
           rewrite streq_neq by (intros E2; now apply app_inv_head in E2).
           symmetry. apply nlook_off. rewrite E. intros (q & Hq).
           rewrite <- app_assoc in Hq. apply app_inv_head in Hq. cbn in Hq. congruence.
        -- rewrite streq_neq by (intros E2; apply app_inv_head in E2; congruence).
           destruct (Ascii.eqb_spec c0 a) as [->|Hca].
           ++ rewrite (look_in ch old); [|auto|apply Hchin; auto|discriminate|reflexivity].
              unfold nlook. cbn [old nkey ndata nsubs]. rewrite E.
              now rewrite strip_app2.
           ++ rewrite look_notin; [|auto|].
              ** symmetry. apply nlook_off. rewrite E. intros (q & Hq).
                 rewrite <- app_assoc in Hq. apply app_inv_head in Hq. cbn in Hq. congruence.
              ** apply Forall_forall. intros m Hm. apply Hchin in Hm.
                 destruct Hm as [->| ->]; cbn; congruence.
      * rewrite streq_neq by (intros E2; rewrite E2, E', strip_app in Es; discriminate).
        symmetry. apply nlook_off. intros (q & Hq). rewrite Hq, E, <- app_assoc, strip_app in Es. discriminate.
    + rewrite streq_neq; [reflexivity|]. intros E2. unfold k' in E2. congruence.
Qed.

End Facts.
