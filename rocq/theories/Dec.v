(** Decimal numerals, as printed by the printf conversions %d and %zu and read
    by the scanf conversion %d. *)
From Coq Require Import NArith Nnat.
From Verif Require Import CStr.
Local Open Scope N_scope.

(** The character '0' + d. *)
Definition digit (d : N) : ascii := ascii_of_N (48 + d).
Fixpoint dec_f (fuel : nat) (n : N) : str :=
  match fuel with
  | O => []
  | S f => if n <? 10 then [digit n] else dec_f f (n / 10) ++ [digit (n mod 10)]
  end.
(** %zu / %u / %d of a non-negative number. *)
Definition dec (n : N) : str := dec_f (S (N.size_nat n)) n.
(** %d of an int. *)
Definition decZ (z : Z) : str :=
  if (z <? 0)%Z then "-"%char :: dec (Z.to_N (- z)) else dec (Z.to_N z).

Definition is_digit (c : ascii) : bool := (48 <=? N_of_ascii c) && (N_of_ascii c <=? 57).
Definition digit_val (c : ascii) : N := N_of_ascii c - 48.
(** The number a digit string denotes, most significant digit first. *)
Definition value (s : str) : N := fold_left (fun a c => 10 * a + digit_val c) s 0.

Lemma digit_ok : forall d, d < 10 -> is_digit (digit d) = true /\ digit_val (digit d) = d.
Proof.
  intros d H.
  assert (E : N_of_ascii (digit d) = 48 + d).
  { unfold digit. apply N_ascii_embedding. lia. }
  unfold is_digit, digit_val. rewrite E. split.
  - apply andb_true_intro. split; apply N.leb_le; lia.
  - lia.
Qed.
Lemma digit_inj : forall d e, d < 10 -> e < 10 -> digit d = digit e -> d = e.
Proof.
  intros d e Hd He E. rewrite <- (proj2 (digit_ok d Hd)), <- (proj2 (digit_ok e He)). now rewrite E.
Qed.
Lemma value_snoc : forall s c, value (s ++ [c]) = 10 * value s + digit_val c.
Proof. intros. unfold value. rewrite fold_left_app. reflexivity. Qed.

Lemma div10_lt : forall f n, n < 2 ^ N.of_nat (S f) -> n / 10 < 2 ^ N.of_nat f.
Proof.
  intros f n H. apply N.div_lt_upper_bound; [lia|].
  rewrite Nat2N.inj_succ, N.pow_succ_r' in H. lia.
Qed.
Lemma size_bound : forall n, n < 2 ^ N.of_nat (S (N.size_nat n)).
Proof.
  intros n. destruct n as [|p]; [reflexivity|].
  rewrite Nat2N.inj_succ, N.pow_succ_r'.
  assert (N.pos p < 2 ^ N.of_nat (N.size_nat (N.pos p))).
  { cbn. induction p; cbn [Pos.size_nat].
    - rewrite Nat2N.inj_succ, N.pow_succ_r'. lia.
    - rewrite Nat2N.inj_succ, N.pow_succ_r'. lia.
    - reflexivity. }
  lia.
Qed.
(** Induction principle: the fuel never runs out. *)
Lemma dec_f_spec : forall f n, n < 2 ^ N.of_nat f -> (f <> O) ->
  value (dec_f f n) = n /\ forallb is_digit (dec_f f n) = true /\ dec_f f n <> [] /\
  (n > 0 -> 10 ^ (N.of_nat (length (dec_f f n)) - 1) <= n /\ n < 10 ^ N.of_nat (length (dec_f f n))) /\
  (n = 0 -> length (dec_f f n) = 1%nat).
Proof.
  induction f as [|f IH]; intros n H Hf; [lia|].
  cbn [dec_f]. destruct (n <? 10) eqn:L.
  - apply N.ltb_lt in L. destruct (digit_ok n L) as [D V].
    split; [unfold value; cbn [fold_left]; rewrite V; lia|].
    split; [cbn [forallb]; now rewrite D|].
    split; [discriminate|]. cbn [length]. split; intros; [|reflexivity].
    split; cbn; lia.
  - apply N.ltb_ge in L.
    assert (H' := div10_lt f n H).
    assert (Hf' : f <> O).
    { intros ->. cbn in H. change (n < 2) in H. lia. }
    destruct (IH (n / 10) H' Hf') as (V & D & NE & B & _).
    assert (M : n mod 10 < 10) by (apply N.mod_lt; lia).
    destruct (digit_ok _ M) as [D1 V1].
    assert (E := N.div_mod n 10 ltac:(lia)).
    split; [rewrite value_snoc, V, V1; lia|].
    split; [rewrite forallb_app, D; cbn [forallb]; now rewrite D1|].
    split; [destruct (dec_f f (n / 10)); discriminate|].
    split; [|lia]. intros _.
    assert (P : n / 10 > 0).
    { apply N.lt_gt. apply N.div_str_pos. lia. }
    destruct (B P) as [B1 B2].
    rewrite app_length. cbn [length]. rewrite Nat2N.inj_add. change (N.of_nat 1) with 1.
    set (k := N.of_nat (length (dec_f f (n / 10)))) in *.
    assert (K : 1 <= k).
    { unfold k. destruct (dec_f f (n / 10)); [congruence|cbn [length]; lia]. }
    replace (k + 1 - 1) with (N.succ (k - 1)) by lia.
    rewrite N.add_1_r, !N.pow_succ_r'.
    split; lia.
Qed.
Lemma dec_spec : forall n,
  value (dec n) = n /\ forallb is_digit (dec n) = true /\ dec n <> [] /\
  (n > 0 -> 10 ^ (N.of_nat (length (dec n)) - 1) <= n /\ n < 10 ^ N.of_nat (length (dec n))) /\
  (n = 0 -> length (dec n) = 1%nat).
Proof. intros n. apply dec_f_spec; [apply size_bound|discriminate]. Qed.

Lemma value_dec : forall n, value (dec n) = n.
Proof. intros n. apply (dec_spec n). Qed.
Lemma dec_digits : forall n, forallb is_digit (dec n) = true.
Proof. intros n. apply (dec_spec n). Qed.
Lemma dec_nonempty : forall n, dec n <> [].
Proof. intros n. apply (dec_spec n). Qed.
Lemma dec_inj : forall a b, dec a = dec b -> a = b.
Proof. intros a b H. rewrite <- (value_dec a), <- (value_dec b). now rewrite H. Qed.

(** Number of decimal digits, characterised by powers of ten. *)
Lemma dec_length : forall n k, 0 < k -> (n = 0 \/ 10 ^ (k - 1) <= n) -> n < 10 ^ k ->
  N.of_nat (length (dec n)) <= k.
Proof.
  intros n k K _ H. destruct (N.eq_dec n 0) as [->|Z].
  - vm_compute (length (dec 0)). lia.
  - destruct (dec_spec n) as (_ & _ & _ & B & _). destruct (B ltac:(lia)) as [B1 _].
    destruct (N.le_gt_cases (N.of_nat (length (dec n))) k) as [|G]; [assumption|].
    exfalso. assert (10 ^ k <= 10 ^ (N.of_nat (length (dec n)) - 1)).
    { apply N.pow_le_mono_r; lia. }
    lia.
Qed.
Lemma dec_length_lower : forall n k, 0 < k -> 10 ^ (k - 1) <= n -> k <= N.of_nat (length (dec n)).
Proof.
  intros n k K H.
  assert (P : 0 < 10 ^ (k - 1)) by (apply N.neq_0_lt_0, N.pow_nonzero; lia).
  destruct (dec_spec n) as (_ & _ & _ & B & _). destruct (B ltac:(lia)) as [_ B2].
  destruct (N.le_gt_cases k (N.of_nat (length (dec n)))) as [|G]; [assumption|].
  exfalso. assert (10 ^ N.of_nat (length (dec n)) <= 10 ^ (k - 1)).
  { apply N.pow_le_mono_r; lia. }
  lia.
Qed.
Lemma dec_length_eq : forall n k, 0 < k -> 10 ^ (k - 1) <= n -> n < 10 ^ k ->
  N.of_nat (length (dec n)) = k.
Proof.
  intros n k K L U. assert (A := dec_length n k K (or_intror L) U).
  assert (B := dec_length_lower n k K L). lia.
Qed.
