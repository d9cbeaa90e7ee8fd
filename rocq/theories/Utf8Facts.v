(** The UTF-8 test of PyDictModel against code points (RFC 3629, section 3). *)
From Coq Require Import NArith Lia.
From Verif Require Import CStr CStrFacts PyDictModel.
Local Open Scope N_scope.

(** Code points that are characters, and how each is written. *)
Definition scalar (c : N) : Prop := c < 55296 \/ 57343 < c < 1114112.
Definition encode (c : N) : str :=
  map ascii_of_N
    (if c <? 128 then [c]
     else if c <? 2048 then [192 + c / 64; 128 + c mod 64]
     else if c <? 65536 then [224 + c / 4096; 128 + (c / 64) mod 64; 128 + c mod 64]
     else [240 + c / 262144; 128 + (c / 4096) mod 64; 128 + (c / 64) mod 64; 128 + c mod 64]).

Ltac nz := zify; Z.to_euclidean_division_equations; lia.
Lemma byte_n n : n < 256 -> N_of_ascii (ascii_of_N n) = n. Proof. apply N_ascii_embedding. Qed.
Lemma byte_in_n lo hi n : n < 256 -> byte_in lo hi (ascii_of_N n) = ((lo <=? n) && (n <=? hi)).
Proof. intros H. unfold byte_in. now rewrite byte_n. Qed.
Lemma byte_in_iff lo hi a : byte_in lo hi a = true <-> lo <= N_of_ascii a <= hi.
Proof. unfold byte_in. rewrite Bool.andb_true_iff, !N.leb_le. reflexivity. Qed.
Lemma in_true lo hi n : n < 256 -> lo <= n <= hi -> byte_in lo hi (ascii_of_N n) = true.
Proof. intros L H. apply byte_in_iff. now rewrite byte_n. Qed.
Lemma in_false lo hi n : n < 256 -> n < lo \/ hi < n -> byte_in lo hi (ascii_of_N n) = false.
Proof.
  intros L H. destruct (byte_in lo hi (ascii_of_N n)) eqn:E; [|reflexivity]. apply byte_in_iff in E. rewrite byte_n in E by exact L. lia.
Qed.

Ltac tf := match goal with
  | |- context [byte_in ?lo ?hi (ascii_of_N ?n)] =>
      first [ rewrite (in_true lo hi n) by nz | rewrite (in_false lo hi n) by nz
            | destruct (byte_in lo hi (ascii_of_N n)) ]
  end; cbn [andb orb].
Lemma utf8_encode c r : scalar c -> utf8 (encode c ++ r) = utf8 r.
Proof.
  intros S. unfold scalar in S. unfold encode. destruct (N.ltb_spec c 128) as [H1|H1].
  { cbn [map app utf8]. tf. reflexivity. }
  destruct (N.ltb_spec c 2048) as [H2|H2].
  { cbn [map app utf8]. unfold two, cont. repeat tf. reflexivity. }
  destruct (N.ltb_spec c 65536) as [H3|H3].
  { cbn [map app utf8]. unfold two, three, cont. tf. tf. 
    assert (B : 128 <= 128 + (c / 64) mod 64 <= 191) by nz.
    assert (D : 224 + c / 4096 = 224 \/ 225 <= 224 + c / 4096 <= 236 \/ 224 + c / 4096 = 237 \/ 238 <= 224 + c / 4096 <= 239) by nz.
    destruct D as [D|[D|[D|D]]].
    - assert (B2 : 160 <= 128 + (c / 64) mod 64) by nz. repeat (match goal with |- context [byte_in] => tf end). reflexivity.
    - repeat tf. reflexivity.
    - assert (B2 : 128 + (c / 64) mod 64 <= 159) by nz. repeat tf. reflexivity.
    - repeat tf. reflexivity. }
  cbn [map app utf8]. unfold two, three, four, cont.
  assert (B : 128 <= 128 + (c / 4096) mod 64 <= 191) by nz.
  assert (D : 240 + c / 262144 = 240 \/ 241 <= 240 + c / 262144 <= 243 \/ 240 + c / 262144 = 244) by nz.
  destruct D as [D|[D|D]].
  - assert (B2 : 144 <= 128 + (c / 4096) mod 64) by nz. repeat tf. reflexivity.
  - repeat tf. reflexivity.
  - assert (B2 : 128 + (c / 4096) mod 64 <= 143) by nz. repeat tf. reflexivity.
Qed.
Lemma is_byte a n : n < 256 -> N_of_ascii a = n -> ascii_of_N n = a.
Proof. intros _ <-. apply ascii_N_embedding. Qed.
Lemma byte_lt a : N_of_ascii a < 256. Proof. apply N_ascii_bounded. Qed.
Lemma decode_utf8 n : forall s, (length s <= n)%nat -> utf8 s = true -> exists cs, Forall scalar cs /\ s = flat_map encode cs.
Proof.
  assert (Put : forall c s t, scalar c -> s = encode c ++ t -> (exists cs, Forall scalar cs /\ t = flat_map encode cs) ->
     exists cs, Forall scalar cs /\ s = flat_map encode cs).
  { intros c s t Hc -> (cs & F & ->). exists (c :: cs). split; [now constructor|reflexivity]. }
  induction n as [|n IH]; intros s L U.
  - destruct s; [exists []; split; [constructor|reflexivity]|cbn in L; lia].
  - destruct s as [|a r]; [exists []; split; [constructor|reflexivity]|]. cbn [utf8] in U. cbn [length] in L.
    destruct (byte_in 0 127 a) eqn:A.
    { apply byte_in_iff in A. apply (Put (N_of_ascii a) _ r); [unfold scalar; lia| |apply IH; [lia|exact U]].
      unfold encode. destruct (N.ltb_spec (N_of_ascii a) 128); [|lia]. cbn [map app]. now rewrite ascii_N_embedding. }
    destruct r as [|b r]; [discriminate|]. cbn [length] in L. destruct (two a b) eqn:T.
    { unfold two, cont in T. rewrite Bool.andb_true_iff, !byte_in_iff in T. set (x := N_of_ascii a) in *. set (y := N_of_ascii b) in *.
      apply (Put ((x - 192) * 64 + (y - 128)) _ r); [unfold scalar; lia| |apply IH; [lia|exact U]].
      unfold encode. set (c := (x - 192) * 64 + (y - 128)). assert (Hc : c = (x - 192) * 64 + (y - 128)) by reflexivity. clearbody c.
      destruct (N.ltb_spec c 128); [lia|]. destruct (N.ltb_spec c 2048); [|lia]. cbn [map app].
      replace (192 + c / 64) with x by nz. replace (128 + c mod 64) with y by nz. unfold x, y. now rewrite !ascii_N_embedding. }
    destruct r as [|d r]; [discriminate|]. cbn [length] in L. destruct (three a b && cont d) eqn:T3.
    { unfold three, cont in T3. rewrite !Bool.andb_true_iff, !Bool.orb_true_iff, !Bool.andb_true_iff, Bool.orb_true_iff, !byte_in_iff in T3.
      set (x := N_of_ascii a) in *. set (y := N_of_ascii b) in *. set (z := N_of_ascii d) in *.
      set (c := (x - 224) * 4096 + (y - 128) * 64 + (z - 128)). assert (Hc : c = (x - 224) * 4096 + (y - 128) * 64 + (z - 128)) by reflexivity.
      apply (Put c _ r); [clearbody c; unfold scalar; lia| |apply IH; [lia|exact U]].
      unfold encode. clearbody c.
      destruct (N.ltb_spec c 128); [lia|]. destruct (N.ltb_spec c 2048); [lia|]. destruct (N.ltb_spec c 65536); [|lia]. cbn [map app].
      assert (R : 224 <= x <= 239 /\ 128 <= y <= 191 /\ 128 <= z <= 191) by lia. clear T3.
      replace (224 + c / 4096) with x by nz. replace (128 + (c / 64) mod 64) with y by nz. replace (128 + c mod 64) with z by nz.
      unfold x, y, z. now rewrite !ascii_N_embedding. }
    destruct r as [|e r]; [discriminate|]. cbn [length] in L. rewrite !Bool.andb_true_iff in U. destruct U as [[[U1 U2] U3] U4].
    unfold four, cont in U1, U2, U3. rewrite !Bool.orb_true_iff, !Bool.andb_true_iff, !byte_in_iff in U1. apply byte_in_iff in U2. apply byte_in_iff in U3.
    set (x := N_of_ascii a) in *. set (y := N_of_ascii b) in *. set (z := N_of_ascii d) in *. set (t := N_of_ascii e) in *.
    set (c := (x - 240) * 262144 + (y - 128) * 4096 + (z - 128) * 64 + (t - 128)).
    assert (Hc : c = (x - 240) * 262144 + (y - 128) * 4096 + (z - 128) * 64 + (t - 128)) by reflexivity.
    apply (Put c _ r); [clearbody c; unfold scalar; lia| |apply IH; [lia|exact U4]].
    unfold encode. clearbody c.
    destruct (N.ltb_spec c 128); [lia|]. destruct (N.ltb_spec c 2048); [lia|]. destruct (N.ltb_spec c 65536); [lia|]. cbn [map app].
    assert (R : 240 <= x <= 244 /\ 128 <= y <= 191) by lia. clear U1 T T3 A.
    replace (240 + c / 262144) with x by nz. replace (128 + (c / 4096) mod 64) with y by nz.
    replace (128 + (c / 64) mod 64) with z by nz. replace (128 + c mod 64) with t by nz.
    unfold x, y, z, t. now rewrite !ascii_N_embedding.
Qed.
(** A string is accepted exactly if it is the writing of characters. *)
Theorem utf8_iff s : utf8 s = true <-> exists cs, Forall scalar cs /\ s = flat_map encode cs.
Proof.
  split; [exact (decode_utf8 (length s) s (le_n _))|]. intros (cs & F & ->).
  induction F as [|c cs Hc F IH]; [reflexivity|]. cbn [flat_map]. now rewrite utf8_encode.
Qed.
