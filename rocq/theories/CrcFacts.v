(** The table-driven checksum is the textbook cyclic redundancy check. *)
From Coq Require Import NArith Lia.
From Verif Require Import CStr CStrFacts HSListModel CrcModel.
Local Open Scope N_scope.

(** * Polynomials over the field of two elements *)
(** Coefficients are the bits of a number; addition is [N.lxor]. *)
Fixpoint pmulp (q : positive) (g : N) : N :=
  match q with
  | xH => g
  | xO r => N.double (pmulp r g)
  | xI r => N.lxor (N.double (pmulp r g)) g
  end.
Definition pmul (q g : N) : N := match q with 0 => 0 | Npos p => pmulp p g end.
(** Coefficients listed from the highest. *)
Definition poly (l : list bool) : N := fold_left (fun a b => N.lxor (N.double a) (N.b2n b)) l 0.
(** Bits of a number, lowest first. *)
Fixpoint bits (n : nat) (z : N) : list bool :=
  match n with O => [] | S m => N.odd z :: bits m (N.div2 z) end.
(** X^32+X^26+X^23+X^22+X^16+X^12+X^11+X^10+X^8+X^7+X^5+X^4+X^2+X^1+X^0. *)
Definition crc_poly : N :=
  fold_right (fun i a => N.lxor (N.shiftl 1 i) a) 0 [32; 26; 23; 22; 16; 12; 11; 10; 8; 7; 5; 4; 2; 1; 0].
(** [r] is the remainder of [m] by [g]. *)
Definition remainder (m g r : N) : Prop := N.size r < N.size g /\ exists q, m = N.lxor (pmul q g) r.

(** * One bit at a time *)
Definition half_poly : N := 0xedb88320.
Definition step (c : N) : N := N.lxor (N.div2 c) (if N.odd c then half_poly else 0).
Fixpoint steps (n : nat) (c : N) : N := match n with O => c | S m => steps m (step c) end.

Lemma odd_lxor a b : N.odd (N.lxor a b) = xorb (N.odd a) (N.odd b).
Proof. rewrite <- !N.bit0_odd. apply N.lxor_spec. Qed.
Lemma div2_lxor a b : N.div2 (N.lxor a b) = N.lxor (N.div2 a) (N.div2 b).
Proof. rewrite !N.div2_spec. apply N.shiftr_lxor. Qed.
Lemma step_lxor a b : step (N.lxor a b) = N.lxor (step a) (step b).
Proof.
  unfold step. rewrite odd_lxor, div2_lxor. apply N.bits_inj. intros i. rewrite !N.lxor_spec.
  destruct (N.odd a), (N.odd b); cbn [xorb]; rewrite ?N.bits_0;
  destruct (N.testbit (N.div2 a) i), (N.testbit (N.div2 b) i), (N.testbit half_poly i); reflexivity.
Qed.
Lemma steps_lxor n : forall a b, steps n (N.lxor a b) = N.lxor (steps n a) (steps n b).
Proof. induction n as [|n IH]; intros a b; cbn [steps]; [reflexivity|]. now rewrite step_lxor, IH. Qed.
Lemma step_double a : step (N.double a) = a.
Proof.
  unfold step. rewrite N.div2_double. replace (N.odd (N.double a)) with false; [apply N.lxor_0_r|].
  rewrite N.double_spec. symmetry. rewrite N.odd_mul. reflexivity.
Qed.
Lemma steps_shift n : forall a, steps n (N.shiftl a (N.of_nat n)) = a.
Proof.
  induction n as [|n IH]; intros a; cbn [steps]; [apply N.shiftl_0_r|].
  rewrite Nnat.Nat2N.inj_succ, N.shiftl_succ_r, step_double. apply IH.
Qed.
Lemma steps_add n : forall m c, steps (n + m) c = steps m (steps n c).
Proof. induction n as [|n IH]; intros m c; cbn [steps Nat.add]; [reflexivity|apply IH]. Qed.

(** The table holds eight steps for every byte. *)
Lemma tab_all : forallb (fun i => nth i crc32_tab 0 =? steps 8 (N.of_nat i)) (seq 0 256) = true.
Proof. vm_compute. reflexivity. Qed.
Lemma tab_steps i : i < 256 -> nth (N.to_nat i) crc32_tab 0 = steps 8 i.
Proof.
  intros H. pose proof (proj1 (forallb_forall _ _) tab_all (N.to_nat i)) as Hi.
  cbv beta in Hi. rewrite Nnat.N2Nat.id in Hi. apply N.eqb_eq. apply Hi. apply in_seq. lia.
Qed.
Lemma low_high a : a = N.lxor (N.land a 0xff) (N.shiftl (N.shiftr a 8) 8).
Proof.
  apply N.bits_inj. intros i. rewrite N.lxor_spec, N.land_spec.
  change 0xff with (N.ones 8). destruct (N.lt_ge_cases i 8) as [H|H].
  - rewrite N.ones_spec_low by exact H. rewrite N.shiftl_spec_low by exact H. now rewrite Bool.andb_true_r, Bool.xorb_false_r.
  - rewrite N.ones_spec_high by exact H. rewrite N.shiftl_spec_high' by exact H. rewrite N.shiftr_spec'.
    replace (i - 8 + 8) with i by lia. rewrite Bool.andb_false_r. symmetry. apply Bool.xorb_false_l.
Qed.
Lemma shiftr_small b : b < 256 -> N.shiftr b 8 = 0.
Proof. intros H. rewrite N.shiftr_div_pow2. apply N.div_small. exact H. Qed.
Lemma byte_step c b : b < 256 ->
  N.lxor (nth (N.to_nat (N.land (N.lxor c b) 0xff)) crc32_tab 0) (N.shiftr c 8) = steps 8 (N.lxor c b).
Proof.
  intros H. rewrite tab_steps.
  2:{ change 0xff with (N.ones 8). rewrite N.land_ones. apply N.mod_lt. discriminate. }
  rewrite (low_high (N.lxor c b)) at 2. rewrite steps_lxor.
  change (N.shiftl (N.shiftr (N.lxor c b) 8) 8) with (N.shiftl (N.shiftr (N.lxor c b) 8) (N.of_nat 8)).
  rewrite steps_shift. rewrite N.shiftr_lxor, (shiftr_small b H), N.lxor_0_r. reflexivity.
Qed.
Definition is_bytes (l : list N) : Prop := Forall (fun b => b < 256) l.
Lemma bytes_ok s : is_bytes (bytes s).
Proof. apply Forall_forall. intros b H. apply in_map_iff in H. destruct H as (c & <- & _). apply N_ascii_bounded. Qed.

(** * Little-endian number of a text *)
Fixpoint number (l : list N) : N := match l with [] => 0 | b :: r => N.lxor b (N.shiftl (number r) 8) end.
Lemma crc_loop_number l : forall c, is_bytes l -> crc_loop c l = steps (8 * length l) (N.lxor c (number l)).
Proof.
  induction l as [|b l IH]; intros c H.
  - cbn. now rewrite N.lxor_0_r.
  - inversion H as [|? ? Hb Hl]; subst. cbn [crc_loop number length]. rewrite byte_step by exact Hb.
    rewrite IH by exact Hl. replace (8 * S (length l))%nat with (8 + 8 * length l)%nat by lia.
    rewrite steps_add. f_equal. rewrite <- N.lxor_assoc, (steps_lxor 8 (N.lxor c b)). f_equal.
    symmetry. apply (steps_shift 8).
Qed.

(** * Sizes *)
Lemma small_bits a n : a < 2 ^ n -> forall i, n <= i -> N.testbit a i = false.
Proof.
  intros H i Hi. destruct (N.eq_dec a 0) as [->|Ha]; [apply N.bits_0|].
  apply N.bits_above_log2. apply N.log2_lt_pow2 in H; lia.
Qed.
Lemma bits_small a n : (forall i, n <= i -> N.testbit a i = false) -> a < 2 ^ n.
Proof.
  intros H. destruct (N.eq_dec a 0) as [->|Ha]; [apply N.neq_0_lt_0, N.pow_nonzero; discriminate|].
  apply N.log2_lt_pow2; [lia|]. destruct (N.lt_ge_cases (N.log2 a) n) as [|Hc]; [assumption|].
  specialize (H _ Hc). rewrite N.bit_log2 in H by exact Ha. discriminate.
Qed.
Lemma lxor_small a b n : a < 2 ^ n -> b < 2 ^ n -> N.lxor a b < 2 ^ n.
Proof. intros Ha Hb. apply bits_small. intros i Hi. rewrite N.lxor_spec, (small_bits a n Ha i Hi), (small_bits b n Hb i Hi). reflexivity. Qed.
Lemma step_small c : c < 2 ^ 32 -> step c < 2 ^ 32.
Proof.
  intros H. unfold step. apply lxor_small.
  - rewrite N.div2_div. apply N.div_lt_upper_bound; lia.
  - destruct (N.odd c); reflexivity.
Qed.
Lemma steps_small n : forall c, c < 2 ^ 32 -> steps n c < 2 ^ 32.
Proof. induction n as [|n IH]; intros c H; cbn [steps]; [exact H|]. apply IH, step_small, H. Qed.
Lemma lxor_byte_small c b : c < 2 ^ 32 -> b < 256 -> N.lxor c b < 2 ^ 32.
Proof. intros Hc Hb. apply lxor_small; [exact Hc|]. apply N.lt_le_trans with 256; [exact Hb|]. discriminate. Qed.
Lemma crc_loop_small l : forall c, is_bytes l -> c < 2 ^ 32 -> crc_loop c l < 2 ^ 32.
Proof.
  induction l as [|b l IH]; intros c Hl Hc; cbn [crc_loop]; [exact Hc|]. inversion Hl as [|? ? Hb Hr]; subst.
  rewrite byte_step by exact Hb. apply IH; [exact Hr|]. apply steps_small, lxor_byte_small; assumption.
Qed.
Lemma crc32_small c l : is_bytes l -> c < 2 ^ 32 -> crc32 c l < 2 ^ 32.
Proof.
  intros Hl Hc. unfold crc32. apply lxor_small; [|reflexivity]. apply crc_loop_small; [exact Hl|].
  apply lxor_small; [exact Hc|reflexivity].
Qed.

(** * Steps lose nothing *)
Lemma step_zero c : c < 2 ^ 32 -> step c = 0 -> c = 0.
Proof.
  intros H E. unfold step in E. apply N.lxor_eq in E.
  destruct (N.odd c) eqn:Ho.
  - exfalso. assert (Hd : N.div2 c < 2 ^ 31) by (rewrite N.div2_div; apply N.div_lt_upper_bound; [discriminate|]; exact H).
    rewrite E in Hd. vm_compute in Hd. discriminate.
  - rewrite (N.div2_odd c), Ho, E. reflexivity.
Qed.
Lemma steps_zero n : forall c, c < 2 ^ 32 -> steps n c = 0 -> c = 0.
Proof.
  induction n as [|n IH]; intros c H E; cbn [steps] in E; [exact E|].
  apply step_zero; [exact H|]. apply IH; [apply step_small, H|exact E].
Qed.
Lemma steps_inj n a b : a < 2 ^ 32 -> b < 2 ^ 32 -> steps n a = steps n b -> a = b.
Proof.
  intros Ha Hb E. apply N.lxor_eq. apply (steps_zero n); [apply lxor_small; assumption|].
  rewrite steps_lxor, E. apply N.lxor_nilpotent.
Qed.
Lemma crc_loop_inj l : forall a b, is_bytes l -> a < 2 ^ 32 -> b < 2 ^ 32 -> crc_loop a l = crc_loop b l -> a = b.
Proof.
  induction l as [|x l IH]; intros a b Hl Ha Hb; cbn [crc_loop]; [auto|]. inversion Hl as [|? ? Hx Hr]; subst.
  rewrite !byte_step by exact Hx. intros E. apply IH in E; auto; try (apply steps_small, lxor_byte_small; assumption).
  apply steps_inj in E; try (apply lxor_byte_small; assumption).
  rewrite <- (N.lxor_0_r a), <- (N.lxor_0_r b), <- (N.lxor_nilpotent x), <- !N.lxor_assoc. now rewrite E.
Qed.
Lemma number_small l : is_bytes l -> number l < 2 ^ (8 * N.of_nat (length l)).
Proof.
  induction l as [|b l IH]; intros H; [reflexivity|]. inversion H as [|? ? Hb Hl]; subst. specialize (IH Hl). cbn [number length].
  apply lxor_small.
  - apply N.lt_le_trans with (2 ^ 8); [exact Hb|]. apply N.pow_le_mono_r; lia.
  - rewrite N.shiftl_mul_pow2. replace (8 * N.of_nat (S (length l))) with (8 * N.of_nat (length l) + 8) by lia.
    rewrite N.pow_add_r. apply N.mul_lt_mono_pos_r; [reflexivity|exact IH].
Qed.
Lemma number_inj l : forall k, is_bytes l -> is_bytes k -> length l = length k -> number l = number k -> l = k.
Proof.
  induction l as [|b l IH]; intros [|c k] Hl Hk Hn E; try discriminate; [reflexivity|].
  inversion Hl as [|? ? Hb Hl']; subst. inversion Hk as [|? ? Hc Hk']; subst. cbn [number] in E.
  assert (Hs : N.shiftr (N.lxor b (N.shiftl (number l) 8)) 8 = N.shiftr (N.lxor c (N.shiftl (number k) 8)) 8) by now rewrite E.
  rewrite !N.shiftr_lxor, (shiftr_small b Hb), (shiftr_small c Hc), !N.lxor_0_l in Hs.
  rewrite !N.shiftr_shiftl_l, !N.sub_diag, !N.shiftl_0_r in Hs by lia.
  f_equal.
  - rewrite Hs in E. rewrite <- (N.lxor_0_r b), <- (N.lxor_0_r c), <- (N.lxor_nilpotent (N.shiftl (number k) 8)), <- !N.lxor_assoc. now rewrite E.
  - apply IH; auto.
Qed.
Lemma crc_loop_app l : forall k c, crc_loop c (l ++ k) = crc_loop (crc_loop c l) k.
Proof. induction l as [|b l IH]; intros k c; cbn [app crc_loop]; [reflexivity|apply IH]. Qed.
(** A change within four bytes in a row is always noticed. *)
Lemma crc_burst c pre a b post : c < 2 ^ 32 -> is_bytes pre -> is_bytes a -> is_bytes b -> is_bytes post ->
  length a = length b -> (length a <= 4)%nat -> crc32 c (pre ++ a ++ post) = crc32 c (pre ++ b ++ post) -> a = b.
Proof.
  intros Hc Hpre Ha Hb Hpost Hn H4 E. unfold crc32 in E.
  assert (E1 : crc_loop (N.lxor c ones32) (pre ++ a ++ post) = crc_loop (N.lxor c ones32) (pre ++ b ++ post)).
  { rewrite <- (N.lxor_0_r (crc_loop _ (pre ++ a ++ post))), <- (N.lxor_0_r (crc_loop _ (pre ++ b ++ post))),
      <- (N.lxor_nilpotent ones32), <- !N.lxor_assoc. now rewrite E. }
  rewrite !crc_loop_app in E1. set (d := crc_loop (N.lxor c ones32) pre) in *.
  assert (Hd : d < 2 ^ 32) by (apply crc_loop_small; [exact Hpre|apply lxor_small; [exact Hc|reflexivity]]).
  apply crc_loop_inj in E1; try assumption; try (apply crc_loop_small; assumption).
  rewrite !crc_loop_number in E1 by assumption. rewrite Hn in E1.
  assert (Hs : forall l, is_bytes l -> (length l <= 4)%nat -> N.lxor d (number l) < 2 ^ 32).
  { intros l Hl Hl4. apply lxor_small; [exact Hd|]. apply N.lt_le_trans with (1 := number_small l Hl).
    change (2 ^ 32) with (2 ^ (8 * 4)). apply N.pow_le_mono_r; lia. }
  apply steps_inj in E1; try (apply Hs; [assumption|lia]).
  apply number_inj; auto. rewrite <- (N.lxor_0_l (number a)), <- (N.lxor_0_l (number b)), <- (N.lxor_nilpotent d), !N.lxor_assoc. now rewrite E1.
Qed.
Lemma crc_incremental c a b : crc32 (crc32 c a) b = crc32 c (a ++ b).
Proof.
  unfold crc32. rewrite N.lxor_assoc, N.lxor_nilpotent, N.lxor_0_r, crc_loop_app. reflexivity.
Qed.

(** * The checksum is a remainder *)
Definition feed (c : N) (b : bool) : N := step (N.lxor c (N.b2n b)).
Lemma b2n_double a : a = N.lxor (N.b2n (N.odd a)) (N.double (N.div2 a)).
Proof.
  destruct a as [|[p|p|]]; reflexivity.
Qed.
Lemma feed_bits n : forall c z, z < 2 ^ N.of_nat n -> fold_left feed (bits n z) c = steps n (N.lxor c z).
Proof.
  induction n as [|n IH]; intros c z H; cbn [bits fold_left steps].
  - change (z < 1) in H. replace z with 0 by lia. now rewrite N.lxor_0_r.
  - rewrite IH.
    + f_equal. unfold feed. rewrite (b2n_double z) at 3. rewrite <- N.lxor_assoc, (step_lxor (N.lxor c _)), step_double. reflexivity.
    + rewrite Nnat.Nat2N.inj_succ, N.pow_succ_r' in H. rewrite N.div2_div. apply N.div_lt_upper_bound; [discriminate|exact H].
Qed.
(** The bits of a message: bytes in order, the lowest bit of each byte first. *)
Definition message (l : list N) : list bool := flat_map (bits 8) l.
Lemma feed_message l : forall c, is_bytes l -> fold_left feed (message l) c = crc_loop c l.
Proof.
  induction l as [|b l IH]; intros c H; [reflexivity|]. inversion H as [|? ? Hb Hl]; subst.
  unfold message. cbn [flat_map crc_loop]. rewrite fold_left_app, (feed_bits 8) by exact Hb. rewrite byte_step by exact Hb. apply IH, Hl.
Qed.
Lemma double_lxor a b : N.double (N.lxor a b) = N.lxor (N.double a) (N.double b).
Proof. destruct a as [|p], b as [|q]; reflexivity. Qed.
Lemma poly_snoc l b : poly (l ++ [b]) = N.lxor (N.double (poly l)) (N.b2n b).
Proof. unfold poly. now rewrite fold_left_app. Qed.
Lemma poly_cons b l : poly (b :: l) = N.lxor (N.shiftl (N.b2n b) (N.of_nat (length l))) (poly l).
Proof.
  induction l as [|x l IH] using rev_ind.
  - unfold poly. cbn. now destruct b.
  - change (b :: l ++ [x]) with ((b :: l) ++ [x]). rewrite poly_snoc, IH, poly_snoc, double_lxor, N.lxor_assoc. f_equal.
    rewrite app_length. cbn [length]. rewrite Nat.add_1_r, Nnat.Nat2N.inj_succ, N.shiftl_succ_r. reflexivity.
Qed.
Lemma bits_length n : forall z, length (bits n z) = n.
Proof. induction n as [|n IH]; intros z; cbn; [reflexivity|now rewrite IH]. Qed.
Lemma bits_snoc n : forall z, bits (S n) z = bits n z ++ [N.testbit z (N.of_nat n)].
Proof.
  induction n as [|n IH]; intros z.
  - cbn [bits app]. now rewrite N.bit0_odd.
  - change (bits (S (S n)) z) with (N.odd z :: bits (S n) (N.div2 z)). rewrite IH. cbn [bits app]. do 3 f_equal.
    rewrite N.div2_spec, N.shiftr_spec', Nnat.Nat2N.inj_succ, N.add_1_r. reflexivity.
Qed.
Lemma poly_bits_lxor n : forall a b, poly (bits n (N.lxor a b)) = N.lxor (poly (bits n a)) (poly (bits n b)).
Proof.
  induction n as [|n IH]; intros a b; cbn [bits]; [reflexivity|].
  rewrite !poly_cons, !bits_length, div2_lxor, IH, odd_lxor.
  replace (N.b2n (xorb (N.odd a) (N.odd b))) with (N.lxor (N.b2n (N.odd a)) (N.b2n (N.odd b))) by (now destruct (N.odd a), (N.odd b)).
  rewrite N.shiftl_lxor. rewrite !N.lxor_assoc. f_equal. rewrite <- !N.lxor_assoc. f_equal. apply N.lxor_comm.
Qed.
Lemma poly_small l : poly l < 2 ^ N.of_nat (length l).
Proof.
  induction l as [|b l IH] using rev_ind; [reflexivity|]. rewrite poly_snoc, app_length. cbn [length].
  rewrite Nat.add_1_r, Nnat.Nat2N.inj_succ. apply lxor_small.
  - rewrite N.double_spec, N.pow_succ_r'. lia.
  - apply N.le_lt_trans with 1; [destruct b; cbn; lia|]. rewrite N.pow_succ_r'. pose proof (N.pow_nonzero 2 (N.of_nat (length l))). lia.
Qed.
Lemma pmul_step q t g : pmul (N.lxor (N.double q) (N.b2n t)) g = N.lxor (N.double (pmul q g)) (if t then g else 0).
Proof. destruct q as [|q], t; cbn; rewrite ?N.lxor_0_r, ?N.lxor_0_l; reflexivity. Qed.
Lemma poly_half : poly (bits 32 half_poly) = N.lxor crc_poly (N.shiftl 1 32).
Proof. vm_compute. reflexivity. Qed.
Lemma poly_feed c b : c < 2 ^ 32 ->
  poly (bits 32 (feed c b)) =
  N.lxor (N.lxor (N.double (poly (bits 32 c))) (N.shiftl (N.b2n b) 32)) (if xorb (N.odd c) b then crc_poly else 0).
Proof.
  intros H. unfold feed, step. rewrite odd_lxor, div2_lxor.
  replace (N.div2 (N.b2n b)) with 0 by (now destruct b). rewrite N.lxor_0_r.
  replace (N.odd (N.b2n b)) with b by (now destruct b).
  rewrite poly_bits_lxor.
  assert (E1 : poly (bits 32 (N.div2 c)) = N.double (poly (bits 31 (N.div2 c)))).
  { rewrite (bits_snoc 31), poly_snoc. rewrite (small_bits (N.div2 c) 31).
    - apply N.lxor_0_r.
    - rewrite N.div2_div. apply N.div_lt_upper_bound; [discriminate|exact H].
    - apply N.le_refl. }
  assert (E2 : N.double (poly (bits 32 c)) = N.lxor (N.shiftl (N.b2n (N.odd c)) 32) (N.double (poly (bits 31 (N.div2 c))))).
  { change (bits 32 c) with (N.odd c :: bits 31 (N.div2 c)). rewrite poly_cons, double_lxor, bits_length.
    f_equal. destruct (N.odd c); reflexivity. }
  rewrite E1, E2. set (p := N.double (poly (bits 31 (N.div2 c)))). clearbody p. clear.
  destruct (N.odd c), b; cbn [xorb].
  - replace (poly (bits 32 0)) with 0 by reflexivity. rewrite !N.lxor_0_r, (N.lxor_comm (N.shiftl _ _) p), N.lxor_assoc, N.lxor_nilpotent, N.lxor_0_r. reflexivity.
  - rewrite poly_half. change (N.shiftl (N.b2n false) 32) with 0. change (N.shiftl (N.b2n true) 32) with (N.shiftl 1 32).
    rewrite N.lxor_0_r. rewrite (N.lxor_comm (N.shiftl 1 32) p), N.lxor_assoc. reflexivity.
  - rewrite poly_half. change (N.shiftl (N.b2n false) 32) with 0. change (N.shiftl (N.b2n true) 32) with (N.shiftl 1 32).
    rewrite N.lxor_0_l. rewrite N.lxor_assoc. reflexivity.
  - replace (poly (bits 32 0)) with 0 by reflexivity. now rewrite !N.lxor_0_r, N.lxor_0_l.
Qed.
(** The dividend: the message followed by 32 zero bits, its first 32 bits inverted. *)
Definition dividend (init : N) (m : list bool) : N :=
  N.lxor (N.shiftl (poly m) 32) (N.shiftl (poly (bits 32 init)) (N.of_nat (length m))).
Lemma feed_small c b : c < 2 ^ 32 -> feed c b < 2 ^ 32.
Proof. intros H. apply step_small, lxor_small; [exact H|]. now destruct b. Qed.
Lemma feeds_small m : forall c, c < 2 ^ 32 -> fold_left feed m c < 2 ^ 32.
Proof. induction m as [|b m IH]; intros c H; cbn [fold_left]; [exact H|]. apply IH, feed_small, H. Qed.
Lemma feeds_remainder m : forall c, c < 2 ^ 32 ->
  exists q, dividend c m = N.lxor (pmul q crc_poly) (poly (bits 32 (fold_left feed m c))).
Proof.
  induction m as [|b m IH] using rev_ind; intros c H.
  - exists 0. unfold dividend. change (N.of_nat (length (@nil bool))) with 0. rewrite N.shiftl_0_r. reflexivity.
  - destruct (IH c H) as (q & E). rewrite fold_left_app. cbn [fold_left]. set (d := fold_left feed m c) in *.
    assert (Hd : d < 2 ^ 32) by (apply feeds_small, H).
    exists (N.lxor (N.double q) (N.b2n (xorb (N.odd d) b))). rewrite pmul_step, (poly_feed d b Hd).
    transitivity (N.lxor (N.double (dividend c m)) (N.shiftl (N.b2n b) 32)).
    + unfold dividend. rewrite poly_snoc, app_length, double_lxor, N.shiftl_lxor. cbn [length].
      rewrite Nat.add_1_r, Nnat.Nat2N.inj_succ, N.shiftl_succ_r. rewrite N.lxor_assoc, (N.lxor_comm (N.shiftl (N.b2n b) 32)), <- N.lxor_assoc. f_equal. f_equal.
      rewrite !N.double_spec, !N.shiftl_mul_pow2. lia.
    + rewrite E, double_lxor. set (x := N.double (pmul q crc_poly)). set (y := N.double (poly (bits 32 d))). set (z := N.shiftl (N.b2n b) 32).
      set (t := if xorb (N.odd d) b then crc_poly else 0). clearbody x y z t. clear.
      apply N.bits_inj. intros i. rewrite !N.lxor_spec.
      destruct (N.testbit x i), (N.testbit y i), (N.testbit z i), (N.testbit t i); reflexivity.
Qed.
Lemma size_small a n : a < 2 ^ n -> N.size a < N.succ n.
Proof.
  intros H. destruct (N.eq_dec a 0) as [->|Ha]; [cbn; lia|]. rewrite N.size_log2 by exact Ha.
  apply N.log2_lt_pow2 in H; lia.
Qed.
Lemma size_small' a n : N.size a < N.succ n -> a < 2 ^ n.
Proof.
  intros H. apply N.lt_le_trans with (2 ^ N.size a); [apply N.size_gt|]. apply N.pow_le_mono_r; lia.
Qed.
Lemma crc_remainder c l : is_bytes l -> c < 2 ^ 32 ->
  remainder (dividend (N.lxor c ones32) (message l)) crc_poly (poly (bits 32 (N.lxor (crc32 c l) ones32))).
Proof.
  intros Hl Hc. unfold crc32. rewrite N.lxor_assoc, N.lxor_nilpotent, N.lxor_0_r, <- feed_message by exact Hl. split.
  - apply (size_small _ 32). pose proof (poly_small (bits 32 (fold_left feed (message l) (N.lxor c ones32)))) as Hp. rewrite bits_length in Hp. exact Hp.
  - apply feeds_remainder. apply lxor_small; [exact Hc|reflexivity].
Qed.

(** * A remainder is unique *)
Lemma double_div2 a : N.div2 (N.double a) = a.
Proof. apply N.div2_double. Qed.
Lemma pmul_lxor g : forall a b, pmul (N.lxor a b) g = N.lxor (pmul a g) (pmul b g).
Proof.
  assert (H : forall n a b, (N.size_nat a <= n)%nat -> pmul (N.lxor a b) g = N.lxor (pmul a g) (pmul b g)).
  { induction n as [|n IH]; intros a b Hn.
    - destruct a as [|[p|p|]]; cbn in Hn; [now rewrite !N.lxor_0_l|lia..].
    - destruct (N.eq_dec a 0) as [->|Ha]; [now rewrite !N.lxor_0_l|].
      assert (Ea : a = N.lxor (N.double (N.div2 a)) (N.b2n (N.odd a))) by (rewrite N.lxor_comm; apply b2n_double).
      assert (Eb : b = N.lxor (N.double (N.div2 b)) (N.b2n (N.odd b))) by (rewrite N.lxor_comm; apply b2n_double).
      assert (Hd : (N.size_nat (N.div2 a) <= n)%nat) by (destruct a as [|[p|p|]]; cbn in *; lia).
      rewrite Ea, Eb at 1.
      replace (N.lxor (N.lxor (N.double (N.div2 a)) (N.b2n (N.odd a))) (N.lxor (N.double (N.div2 b)) (N.b2n (N.odd b))))
        with (N.lxor (N.double (N.lxor (N.div2 a) (N.div2 b))) (N.b2n (xorb (N.odd a) (N.odd b)))).
      + rewrite pmul_step, (IH _ _ Hd), double_lxor. rewrite Ea at 3. rewrite Eb at 3. rewrite !pmul_step.
        apply N.bits_inj. intros i. rewrite !N.lxor_spec.
        destruct (N.odd a), (N.odd b); cbn [xorb]; rewrite ?N.bits_0;
        destruct (N.testbit (N.double (pmul (N.div2 a) g)) i), (N.testbit (N.double (pmul (N.div2 b) g)) i), (N.testbit g i); reflexivity.
      + rewrite double_lxor. apply N.bits_inj. intros i. rewrite !N.lxor_spec.
        replace (N.testbit (N.b2n (xorb (N.odd a) (N.odd b))) i) with (xorb (N.testbit (N.b2n (N.odd a)) i) (N.testbit (N.b2n (N.odd b)) i)).
        * destruct (N.testbit (N.double (N.div2 a)) i), (N.testbit (N.double (N.div2 b)) i), (N.testbit (N.b2n (N.odd a)) i), (N.testbit (N.b2n (N.odd b)) i); reflexivity.
        * rewrite <- N.lxor_spec. f_equal. now destruct (N.odd a), (N.odd b). }
  intros a b. apply (H (N.size_nat a)). apply Nat.le_refl.
Qed.
Lemma pmulp_size g (p : positive) : g <> 0 -> N.log2 g <= N.log2 (pmulp p g) /\ (p <> xH -> N.log2 g < N.log2 (pmulp p g)) /\ pmulp p g <> 0.
Proof.
  intros Hg. induction p as [p IH|p IH|]; cbn [pmulp].
  - destruct IH as (I1 & _ & I3).
    assert (Hx : N.log2 (N.lxor (N.double (pmulp p g)) g) = N.succ (N.log2 (pmulp p g))).
    { apply N.log2_bits_unique.
      - rewrite N.lxor_spec, N.double_spec, N.testbit_even_succ by apply N.le_0_l.
        rewrite (N.bit_log2 (pmulp p g) I3), (N.bits_above_log2 g) by lia. reflexivity.
      - intros m Hm. rewrite N.lxor_spec, (N.bits_above_log2 g) by lia. rewrite N.bits_above_log2; [reflexivity|].
        rewrite N.double_spec, N.log2_double by lia. exact Hm. }
    rewrite Hx. split; [lia|]. split; [lia|]. intros E. rewrite E in Hx. cbn in Hx. lia.
  - destruct IH as (I1 & _ & I3). rewrite N.double_spec, N.log2_double by lia. split; [lia|]. split; [lia|]. lia.
  - split; [lia|]. split; [congruence|exact Hg].
Qed.
Lemma remainder_unique m g r s : g <> 0 -> remainder m g r -> remainder m g s -> r = s.
Proof.
  intros Hg [Hr [q E]] [Hs [p F]]. apply N.lxor_eq.
  assert (G : N.lxor r s = pmul (N.lxor q p) g).
  { rewrite pmul_lxor. rewrite E in F. apply N.bits_inj. intros i.
    assert (Fi : N.testbit (N.lxor (pmul q g) r) i = N.testbit (N.lxor (pmul p g) s) i) by now rewrite F.
    rewrite !N.lxor_spec in *. destruct (N.testbit r i), (N.testbit s i), (N.testbit (pmul q g) i), (N.testbit (pmul p g) i); try reflexivity; discriminate. }
  assert (Hz : N.lxor r s < 2 ^ N.log2 g).
  { rewrite (N.size_log2 g Hg) in Hr, Hs. apply lxor_small; apply size_small'; assumption. }
  destruct (N.lxor q p) as [|d] eqn:Ed; [exact G|]. exfalso. cbn [pmul] in G. rewrite G in Hz.
  destruct (pmulp_size g d Hg) as (L & _ & Z). apply N.log2_lt_pow2 in Hz; lia.
Qed.
