(** Facts about C strings and list surgery. *)
From Verif Require Import CStr.

Lemma strcmp_eq_iff a b : strcmp a b = Eq <-> a = b.
Proof.
  revert b; induction a as [|x a IH]; destruct b as [|y b]; cbn [strcmp]; try (split; discriminate); try tauto.
  - destruct (Ascii.eqb_spec x y) as [->|Hne].
    + rewrite IH. split; [now intros ->|congruence].
    + split; [destruct (uchar x <? uchar y); discriminate|intros E; congruence].
Qed.

Lemma streq_iff a b : streq a b = true <-> a = b.
Proof.
  unfold streq. rewrite <- strcmp_eq_iff. destruct (strcmp a b); split; congruence.
Qed.
Lemma streq_refl a : streq a a = true.
Proof. now apply streq_iff. Qed.
Lemma streq_neq a b : a <> b -> streq a b = false.
Proof. intros H; destruct (streq a b) eqn:E; [apply streq_iff in E; congruence|reflexivity]. Qed.
Lemma streq_false_iff a b : streq a b = false <-> a <> b.
Proof. split; [intros H ->; rewrite streq_refl in H; discriminate|apply streq_neq]. Qed.
Lemma streq_spec a b : reflect (a = b) (streq a b).
Proof. destruct (streq a b) eqn:E; constructor; [now apply streq_iff|now apply streq_false_iff]. Qed.
Lemma streq_sym a b : streq a b = streq b a.
Proof.
  destruct (streq_spec a b) as [->|H]; [now rewrite streq_refl|].
  symmetry; apply streq_neq; congruence.
Qed.
Lemma str_eq_dec (a b : str) : {a = b} + {a <> b}.
Proof. apply list_eq_dec, ascii_dec. Defined.

Lemma cstrb_iff s : cstrb s = true <-> cstr s.
Proof.
  unfold cstrb, cstr. rewrite forallb_forall. split.
  - intros H Hin. specialize (H _ Hin). rewrite Ascii.eqb_refl in H. discriminate.
  - intros H x Hx. destruct (Ascii.eqb_spec x zero) as [->|]; [contradiction|reflexivity].
Qed.

Lemma list_upd_app {A} (l1 l2 : list A) y x :
  list_upd (l1 ++ y :: l2) (length l1) x = l1 ++ x :: l2.
Proof. induction l1; cbn; congruence. Qed.
Lemma list_upd_length {A} (l : list A) i x : length (list_upd l i x) = length l.
Proof. revert i; induction l; destruct i; cbn; auto. Qed.
Lemma list_del_app {A} (l1 l2 : list A) y : list_del (l1 ++ y :: l2) (length l1) = l1 ++ l2.
Proof.
  unfold list_del. rewrite firstn_app, Nat.sub_diag, firstn_all. cbn [firstn].
  rewrite app_nil_r. f_equal.
  replace (S (length l1)) with (length (l1 ++ [y])) by (rewrite app_length; cbn; lia).
  replace (l1 ++ y :: l2) with ((l1 ++ [y]) ++ l2) by (rewrite <- app_assoc; reflexivity).
  rewrite skipn_app, skipn_all, Nat.sub_diag. reflexivity.
Qed.
Lemma list_ins_app {A} (l1 l2 : list A) x : list_ins (l1 ++ l2) (length l1) x = l1 ++ x :: l2.
Proof.
  unfold list_ins. rewrite firstn_app, skipn_app, Nat.sub_diag, firstn_all, skipn_all.
  cbn. now rewrite app_nil_r.
Qed.
Lemma list_ins_length {A} (l : list A) i x : i <= length l -> length (list_ins l i x) = S (length l).
Proof.
  intros H. unfold list_ins. rewrite app_length. cbn.
  rewrite firstn_length, skipn_length. lia.
Qed.
Lemma list_del_length {A} (l : list A) i : i < length l -> length (list_del l i) = length l - 1.
Proof.
  intros H. unfold list_del. rewrite app_length, firstn_length, skipn_length. lia.
Qed.
Lemma list_split_at {A} (l : list A) i : i < length l -> exists l1 x l2, l = l1 ++ x :: l2 /\ length l1 = i.
Proof.
  intros H. destruct (nth_error l i) as [x|] eqn:E.
  - apply nth_error_split in E. destruct E as (l1 & l2 & -> & Hl). eauto.
  - apply nth_error_None in E. lia.
Qed.
Lemma firstn_length_all {A} (l : list A) n : length l <= n -> firstn n l = l.
Proof. apply firstn_all2. Qed.

Lemma prefix_refl s : prefix s s.
Proof. exists []. now rewrite app_nil_r. Qed.
Lemma prefix_trans a b c : prefix a b -> prefix b c -> prefix a c.
Proof. intros (r & ->) (r' & ->). exists (r ++ r'). now rewrite app_assoc. Qed.
Lemma prefix_app a b c : prefix b c -> prefix (a ++ b) (a ++ c).
Proof. intros (r & ->). exists r. now rewrite app_assoc. Qed.
Lemma proper_prefix_app a b c : proper_prefix b c -> proper_prefix (a ++ b) (a ++ c).
Proof. intros (x & r & ->). exists x, r. now rewrite app_assoc. Qed.
Lemma proper_prefix_app_inv a b c : proper_prefix (a ++ b) (a ++ c) -> proper_prefix b c.
Proof. intros (x & r & H). rewrite <- app_assoc in H. apply app_inv_head in H. now exists x, r. Qed.
Lemma proper_prefix_trans a b c : proper_prefix a b -> prefix b c -> proper_prefix a c.
Proof. intros (x & r & ->) (r' & ->). exists x, (r ++ r'). now rewrite <- app_assoc. Qed.
Lemma proper_prefix_length a b : proper_prefix a b -> length a < length b.
Proof. intros (x & r & ->). rewrite app_length. cbn. lia. Qed.
Lemma prefix_length a b : prefix a b -> length a <= length b.
Proof. intros (r & ->). rewrite app_length. lia. Qed.
Lemma proper_prefix_prefix a b : proper_prefix a b -> prefix a b.
Proof. intros (x & r & ->). now exists (x :: r). Qed.

Lemma skipn_app_exact {A} (a b : list A) : skipn (length a) (a ++ b) = b.
Proof. now rewrite skipn_app, skipn_all, Nat.sub_diag. Qed.
Lemma firstn_app_exact {A} (a b : list A) : firstn (length a) (a ++ b) = a.
Proof. rewrite firstn_app, firstn_all, Nat.sub_diag. cbn. now rewrite app_nil_r. Qed.

(** Decompose two strings at their first difference. *)
Lemma app_cons_neq_prefix {A} (p : list A) a ra b rb q :
  a <> b -> p ++ a :: ra = (p ++ b :: rb) ++ q -> False.
Proof.
  intros Hne H. rewrite <- app_assoc in H. apply app_inv_head in H. cbn in H. congruence.
Qed.

Lemma bind_ok {A B} (r : res A) (f : A -> res B) b :
  bind r f = Ok b -> exists a, r = Ok a /\ f a = Ok b.
Proof. destruct r; cbn; try discriminate; eauto. Qed.
