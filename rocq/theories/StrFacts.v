(** Facts about StrModel: every rendering fits its buffer. *)
From Coq Require Import NArith Nnat.
From Verif Require Import CStr CStrFacts HSListModel SetModel RTreeModel RTreeFacts ObjModel Dec StrModel.

Lemma put_ok : forall n s, length s < n -> put n s = Ok s.
Proof. intros n s H. unfold put. apply Nat.ltb_lt in H. now rewrite H. Qed.
Lemma put_ub : forall n s, n <= length s -> put n s = UB.
Proof. intros n s H. unfold put. apply Nat.ltb_ge in H. now rewrite H. Qed.
Lemma cats_ok : forall l n b, length (b ++ concat l) < n -> cats n b l = Ok (b ++ concat l).
Proof.
  induction l as [|s r IH]; intros n b H; cbn [cats concat].
  - now rewrite app_nil_r.
  - cbn [concat] in H. unfold cat. rewrite put_ok.
    + cbn [bind]. rewrite IH; now rewrite <- app_assoc.
    + rewrite app_assoc, app_length in H. lia.
Qed.

Lemma ilog10_f_len : forall f n, (n < 2 ^ N.of_nat f)%N -> f <> 0 ->
  length (dec_f f n) = ilog10_f f n + 1.
Proof.
  induction f as [|f IH]; intros n H Hf; [lia|].
  cbn [dec_f ilog10_f]. destruct (n <? 10)%N eqn:L; [reflexivity|].
  apply N.ltb_ge in L. rewrite app_length. cbn [length].
  assert (f <> 0). { intros ->. cbn in H. change (n < 2)%N in H. lia. }
  rewrite IH; [lia|now apply div10_lt|assumption].
Qed.
Lemma ilog10_len : forall n, length (dec n) = ilog10 n + 1.
Proof. intros n. apply ilog10_f_len; [apply size_bound|discriminate]. Qed.

Lemma num_tostr_ok : forall z, (0 <= z)%Z -> num_tostr z = Ok (dec (Z.to_N z)).
Proof.
  intros z H. unfold num_tostr, decZ.
  destruct (z =? 0)%Z eqn:E.
  - apply Z.eqb_eq in E. subst z. reflexivity.
  - destruct (z <? 0)%Z eqn:L; [apply Z.ltb_lt in L; lia|]. cbn [bind].
    apply put_ok. rewrite ilog10_len. lia.
Qed.
Lemma num_tostr_neg : forall z, (z < 0)%Z -> num_tostr z = UB.
Proof.
  intros z H. unfold num_tostr. destruct (z =? 0)%Z eqn:E; [apply Z.eqb_eq in E; lia|].
  apply Z.ltb_lt in H. now rewrite H.
Qed.

(** [join sep items]: the items with [sep] between neighbours. *)
Fixpoint join (sep : str) (items : list str) : str :=
  match items with
  | [] => []
  | [s] => s
  | s :: r => s ++ sep ++ join sep r
  end.
Lemma join_cons : forall sep s r, r <> [] -> join sep (s :: r) = s ++ sep ++ join sep r.
Proof. intros sep s [|t r] H; [congruence|reflexivity]. Qed.
Lemma list_body_join : forall l, concat (list_body l) = join (S_ ", ") l.
Proof.
  induction l as [|s [|t r] IH]; [reflexivity|cbn; now rewrite app_nil_r|].
  change (list_body (s :: t :: r)) with (s :: S_ ", " :: list_body (t :: r)).
  cbn [concat]. rewrite IH. reflexivity.
Qed.
Lemma list_total_join : forall l, length (join (S_ ", ") l) = list_total l.
Proof.
  induction l as [|s [|t r] IH]; [reflexivity|reflexivity|].
  rewrite join_cons by discriminate. rewrite !app_length, IH.
  change (list_total (s :: t :: r)) with (2 + length s + list_total (t :: r)).
  change (length (S_ ", ")) with 2. lia.
Qed.
Lemma list_tostr_ok : forall l, list_tostr l = Ok (S_ "[" ++ join (S_ ", ") l ++ S_ "]").
Proof.
  intros l. unfold list_tostr. rewrite cats_ok.
  - cbn [app concat]. rewrite concat_app, list_body_join. cbn [concat]. now rewrite app_nil_r.
  - cbn [app concat]. rewrite concat_app, list_body_join. cbn [concat].
    rewrite !app_length, list_total_join. cbn. lia.
Qed.
Lemma arch_body_join : forall l, concat (arch_body l) = join (S_ " ") l.
Proof.
  induction l as [|s [|t r] IH]; [reflexivity|cbn; now rewrite app_nil_r|].
  change (arch_body (s :: t :: r)) with (s :: S_ " " :: arch_body (t :: r)).
  cbn [concat]. rewrite IH. reflexivity.
Qed.
Lemma arch_total : forall l, l <> [] ->
  length (join (S_ " ") l) + 1 = fold_right (fun s n => length s + 1 + n) 0 l.
Proof.
  induction l as [|s [|t r] IH]; intros H; [congruence|cbn; lia|].
  rewrite join_cons by discriminate. rewrite !app_length.
  change (fold_right (fun s n => length s + 1 + n) 0 (s :: t :: r))
    with (length s + 1 + fold_right (fun s n => length s + 1 + n) 0 (t :: r)).
  rewrite <- IH by discriminate. change (length (S_ " ")) with 1. lia.
Qed.
Lemma arch_str_ok : forall l,
  arch_str (Some l) = Ok (join (S_ " ") (map str_tostr l)).
Proof.
  intros [|a l]; [reflexivity|].
  unfold arch_str. cbv zeta. rewrite cats_ok.
  - cbn [app]. now rewrite arch_body_join.
  - cbn [app]. rewrite arch_body_join, <- arch_total by discriminate. lia.
Qed.

(** ** Splitting *)
Definition arch_name (s : str) : Prop := s <> [] /\ forallb (fun c => negb (arch_sep c)) s = true.
Lemma strtok_run : forall s r cur, forallb (fun c => negb (arch_sep c)) s = true ->
  strtok_loop (s ++ r) cur = strtok_loop r (rev s ++ cur).
Proof.
  induction s as [|c s IH]; intros r cur H; [reflexivity|].
  cbn [forallb] in H. apply andb_prop in H. destruct H as [H1 H2].
  cbn [app strtok_loop rev]. destruct (arch_sep c); [discriminate|].
  rewrite IH by assumption. now rewrite <- app_assoc.
Qed.
Lemma strtok_join : forall l, Forall arch_name l -> strtok_loop (join (S_ " ") l) [] = l.
Proof.
  induction l as [|s [|t r] IH]; intros H; [reflexivity| |].
  - inversion H as [|? ? [N F] _]; subst. cbn [join].
    replace s with (s ++ []) at 1 by apply app_nil_r. rewrite strtok_run by assumption.
    cbn [strtok_loop]. rewrite app_nil_r. destruct (rev s) eqn:E.
    + exfalso. apply N. rewrite <- (rev_involutive s), E. reflexivity.
    + rewrite <- E. now rewrite rev_involutive.
  - inversion H as [|? ? [N F] Hr]; subst.
    rewrite join_cons by discriminate. rewrite strtok_run by assumption.
    rewrite app_nil_r.
    change (S_ " " ++ join (S_ " ") (t :: r)) with (" "%char :: join (S_ " ") (t :: r)).
    change (strtok_loop (" "%char :: join (S_ " ") (t :: r)) (rev s))
      with (match rev s with [] => strtok_loop (join (S_ " ") (t :: r)) []
            | _ => rev (rev s) :: strtok_loop (join (S_ " ") (t :: r)) [] end).
    rewrite rev_involutive. rewrite IH by assumption.
    destruct (rev s) eqn:E; [|reflexivity].
    exfalso. apply N. rewrite <- (rev_involutive s), E. reflexivity.
Qed.
(** Every token is a maximal run: non-empty, free of separators; what is left
    out of the string are separators. *)
Lemma strtok_names : forall s cur, forallb (fun c => negb (arch_sep c)) cur = true ->
  Forall arch_name (strtok_loop s cur).
Proof.
  assert (R : forall c r, forallb (fun c => negb (arch_sep c)) (c :: r) = true -> arch_name (rev (c :: r))).
  { intros c r H. split.
    - intros E. apply (f_equal (@rev ascii)) in E. rewrite rev_involutive in E. discriminate.
    - apply forallb_forall. intros x I. apply in_rev in I.
      exact (proj1 (forallb_forall _ _) H x I). }
  induction s as [|c s IH]; intros cur H; cbn [strtok_loop].
  - destruct cur; [constructor|]. constructor; [now apply R|constructor].
  - destruct (arch_sep c) eqn:E.
    + destruct cur; [now apply IH|]. constructor; [now apply R|now apply IH].
    + apply IH. cbn [forallb]. now rewrite E, H.
Qed.
Lemma strtok_chars : forall s cur,
  concat (strtok_loop s cur) = rev cur ++ filter (fun c => negb (arch_sep c)) s.
Proof.
  induction s as [|c s IH]; intros cur; cbn [strtok_loop filter].
  - destruct cur; [reflexivity|]. cbn [concat]. now rewrite app_nil_r.
  - destruct (arch_sep c); cbn [negb].
    + destruct cur; [now rewrite IH|]. cbn [concat]. now rewrite IH.
    + rewrite IH. cbn [rev]. now rewrite <- app_assoc.
Qed.

(** ** Objects *)
Lemma pkg_tostr_ok : forall p, exists s, pkg_tostr p = Ok s /\
  s = S_ "<COMPS_DocGroupPackage name='" ++ ostr_tostr (p_name p) ++ S_ "' type='"
      ++ pkg_type_str (p_type p) ++ S_ "' requires='" ++ ostr_tostr (p_requires p)
      ++ S_ "' basearchonly='"
      ++ (match p_bao p with Some z => if (z =? 0)%Z then S_ "False" else S_ "True" | None => S_ "False" end)
      ++ S_ "'>".
Proof.
  intros p. eexists. split; [|reflexivity]. unfold pkg_tostr. cbv zeta. apply put_ok.
  rewrite !app_length.
  change (length (S_ "<COMPS_DocGroupPackage name='")) with 29.
  change (length (S_ "' type='")) with 8.
  change (length (S_ "' requires='")) with 12.
  change (length (S_ "' basearchonly='")) with 16.
  change (length (S_ "'>")) with 2.
  change (length (S_ "<COMPS_DocGroupPackage name='' type='' requires='' basearchonly=''>")) with 67.
  destruct (p_bao p) as [z|]; [destruct (z =? 0)%Z|]; cbn [S_ list_ascii_of_string length]; lia.
Qed.
Lemma gid_tostr_ok : forall g, exists s, gid_tostr g = Ok s /\
  s = S_ "<COMPS_DocGroupId name='" ++ ostr_tostr (gi_name g) ++ S_ "' default='"
      ++ (if gi_def g then S_ "True" else S_ "False") ++ S_ "'>".
Proof.
  intros g. eexists. split; [|reflexivity]. unfold gid_tostr. cbv zeta. apply put_ok.
  rewrite !app_length.
  change (length (S_ "<COMPS_DocGroupId name='")) with 24.
  change (length (S_ "' default='")) with 11.
  change (length (S_ "'>")) with 2.
  change (length (S_ "<COMPS_DocGroupId name='' default=''>")) with 37.
  destruct (gi_def g); cbn [S_ list_ascii_of_string length]; lia.
Qed.
Lemma map_r_ok : forall {A B} (f : A -> res B) (g : A -> B) l,
  (forall x, In x l -> f x = Ok (g x)) -> map_r f l = Ok (map g l).
Proof.
  intros A B f g. induction l as [|x l IH]; intros H; [reflexivity|].
  cbn [map_r map]. rewrite H by now left. cbn [bind]. rewrite IH; [reflexivity|].
  intros y I. apply H. now right.
Qed.
Lemma join_length2 : forall l, l <> [] ->
  length (join (S_ ", ") l) + 2 = sum_len l + 2 * length l.
Proof.
  induction l as [|s [|t r] IH]; intros H; [congruence|cbn; lia|].
  rewrite join_cons by discriminate. rewrite !app_length.
  change (length (S_ ", ")) with 2.
  change (sum_len (s :: t :: r)) with (length s + sum_len (t :: r)).
  change (length (s :: t :: r)) with (S (length (t :: r))).
  assert (I := IH ltac:(discriminate)). lia.
Qed.
Lemma obj_render_ok : forall head seps props members,
  length props + 1 + length members <= seps ->
  obj_render head seps props members
  = Ok (head ++ join (S_ ", ") (props ++ [[]; []] ++ members) ++ S_ ">").
Proof.
  intros head seps props members H. unfold obj_render. cbv zeta.
  unfold str in props, members. set (texts := props ++ [[]; []] ++ members).
  assert (L : length texts = length props + 2 + length members).
  { unfold texts, str in *. rewrite !app_length. cbn [length]. lia. }
  rewrite cats_ok.
  - cbn [app concat]. rewrite concat_app, list_body_join. cbn [concat]. now rewrite app_nil_r.
  - cbn [app concat]. rewrite concat_app, list_body_join. cbn [concat].
    rewrite !app_length. cbn [length].
    assert (NE : texts <> []) by (intros E; rewrite E in L; cbn in L; lia).
    assert (J := join_length2 texts NE). unfold str in *. change (length (S_ ">")) with 1. change (props ++ [] :: [] :: members) with texts. lia.
Qed.

(** ** Number of digits *)
Local Open Scope N_scope.
Lemma digits_count_ok : forall x, x < 10 ^ 9 -> digits_count x = N.of_nat (length (dec x)).
Proof.
  intros x H. unfold digits_count. cbv zeta.
  assert (P : 10 ^ 9 = 1000000000) by reflexivity. rewrite P in H.
  rewrite N.mod_small by (change (2 ^ 32) with 4294967296; lia).
  repeat (match goal with |- context [if ?c <=? x then _ else _] =>
    destruct (c <=? x) eqn:?E end);
  repeat match goal with H : (_ <=? _) = true |- _ => apply N.leb_le in H
                       | H : (_ <=? _) = false |- _ => apply N.leb_gt in H end;
  symmetry.
  - apply dec_length_eq; [lia|change (10 ^ (9 - 1)) with 100000000; lia|change (10 ^ 9) with 1000000000; lia].
  - apply dec_length_eq; [lia|change (10 ^ (8 - 1)) with 10000000; lia|change (10 ^ 8) with 100000000; lia].
  - apply dec_length_eq; [lia|change (10 ^ (7 - 1)) with 1000000; lia|change (10 ^ 7) with 10000000; lia].
  - apply dec_length_eq; [lia|change (10 ^ (6 - 1)) with 100000; lia|change (10 ^ 6) with 1000000; lia].
  - apply dec_length_eq; [lia|change (10 ^ (5 - 1)) with 10000; lia|change (10 ^ 5) with 100000; lia].
  - apply dec_length_eq; [lia|change (10 ^ (4 - 1)) with 1000; lia|change (10 ^ 4) with 10000; lia].
  - apply dec_length_eq; [lia|change (10 ^ (3 - 1)) with 100; lia|change (10 ^ 3) with 1000; lia].
  - apply dec_length_eq; [lia|change (10 ^ (2 - 1)) with 10; lia|change (10 ^ 2) with 100; lia].
  - destruct (N.eq_dec x 0) as [->|N0]; [reflexivity|].
    apply dec_length_eq; [lia|change (10 ^ (1 - 1)) with 1; lia|change (10 ^ 1) with 10; lia].
Qed.
Lemma digits_count_big : forall x, 10 ^ 9 <= x -> x < 2 ^ 32 ->
  digits_count x = 9 /\ N.of_nat (length (dec x)) = 10.
Proof.
  intros x L U. split.
  - unfold digits_count. cbv zeta. rewrite N.mod_small by assumption.
    assert (E : (100000000 <=? x) = true) by (apply N.leb_le; change (10 ^ 9) with 1000000000 in L; lia).
    now rewrite E.
  - apply dec_length_eq; [lia|exact L|].
    change (10 ^ 10) with 10000000000. change (2 ^ 32) with 4294967296 in U. lia.
Qed.
Lemma digits_count_pos : forall x, 1 <= digits_count x.
Proof.
  intros x. unfold digits_count. cbv zeta.
  repeat match goal with |- context [if ?c then _ else _] => destruct c end; lia.
Qed.
