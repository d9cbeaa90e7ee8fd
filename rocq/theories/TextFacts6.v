(** Documents through the bytes of a file or a string. *)
From Coq Require Import NArith.
From Verif Require Import CStr CStrFacts HSListModel RTreeModel MRTreeModel ObjModel StrModel ParseModel DocModel DocFacts2 XmlModel XmlFacts SpecF SpecF2 SpecF3 SpecF4 SpecG SpecG2 SpecG5 SpecG6 SpecG7
  Utf8Facts TextModel TextFacts TextFacts2 TextFacts3 TextFacts4 TextFacts5.

(** ** When a whole string survives *)
Lemma chop_after a : forall acc c r, special c = true -> chop acc (map Some (a ++ [c]) ++ r) = chop acc (map Some (a ++ [c])) ++ chop [] r.
Proof.
  induction a as [|x a IH]; intros acc c r Hc; cbn [app map chop].
  - rewrite Hc. cbn [left_over app]. now rewrite <- app_assoc.
  - destruct (special x); [|now apply IH]. rewrite IH by exact Hc. now rewrite <- app_assoc.
Qed.
Lemma chop_plain w : forall acc r, Forall (fun c => special c = false) w -> chop acc (map Some w ++ r) = chop (acc ++ w) r.
Proof.
  induction w as [|c w IH]; intros acc r H; cbn [map app chop]; [now rewrite app_nil_r|]. apply Forall_cons_iff in H. destruct H as [Hc H]. rewrite Hc, IH by exact H. now rewrite <- app_assoc.
Qed.
Lemma chop_cut a : forall acc c r, special c = true -> In [c] (chop acc (map Some (a ++ c :: r))).
Proof.
  induction a as [|x a IH]; intros acc c r Hc; cbn [app map chop].
  - rewrite Hc. apply in_or_app. right. now left.
  - destruct (special x); [|now apply IH]. apply in_or_app. right. right. now apply IH.
Qed.
Lemma solid_iff s : solid s <-> Forall (fun c => ~ blank c) (pieces s).
Proof.
  split; [apply solid_pieces|]. intros H.
  assert (H1 : forall c, In c s -> white c -> ~ cutter c).
  { intros c Hc Hw Hk. apply cutter_special in Hk. apply in_split in Hc. destruct Hc as (a & b & ->). rewrite Forall_forall in H. apply (H [c]); [now apply chop_cut|now constructor]. }
  split; [exact H1|]. intros a w b -> Hn Hw Ha Hb.
  assert (Hp : Forall (fun c => special c = false) w).
  { apply Forall_forall. intros c Hc. destruct (special c) eqn:E; [|reflexivity]. exfalso. apply cutter_special in E. apply (H1 c); [|now apply (proj1 (Forall_forall _ _) Hw)|exact E].
    apply in_or_app. right. apply in_or_app. now left. }
  assert (Hi : In w (chop [] (map Some (w ++ b)))).
  { rewrite map_app, chop_plain by exact Hp. cbn [app]. destruct Hb as [->|(c & b' & -> & Hc)]; cbn [map chop].
    - destruct w; [congruence|now left].
    - apply cutter_special in Hc. rewrite Hc. destruct w; [congruence|now left]. }
  rewrite Forall_forall in H. apply (H w); [|exact Hw]. unfold pieces. destruct Ha as [->|(a' & c & -> & Hc)]; [exact Hi|].
  apply cutter_special in Hc. rewrite map_app, chop_after by exact Hc. apply in_or_app. now right.
Qed.
Lemma squeeze_solid s : squeeze s = s <-> solid s.
Proof. rewrite solid_iff. symmetry. apply squeeze_same. Qed.
(** Ordinary texts: no [<>&] nor line break, no white space at the ends. *)
Definition neat (n : nat) (s : str) : Prop :=
  length s <= n /\ (forall c, In c s -> ~ cutter c) /\ (forall c t, s = c :: t -> ~ white c) /\ (forall c t, s = t ++ [c] -> ~ white c).
Lemma neat_firm n s : neat n s -> firm n s.
Proof.
  intros (Hl & Hc & Hf & Ht). split; [intros c Hi _; now apply Hc|]. intros a w b -> Hn Hw. destruct w as [|c w]; [congruence|].
  assert (Ha : ~ left_edge a).
  { intros [->|(a' & x & -> & Hx)]; [apply (Hf c (w ++ b)); [reflexivity|now apply Forall_inv in Hw]|]. apply (Hc x); [|exact Hx]. rewrite <- app_assoc. apply in_or_app. right. now left. }
  split; [|split; [exact Ha|]].
  - destruct a; [elim Ha; now left|]. rewrite !app_length in Hl. cbn [length] in *. lia.
  - intros [->|(x & b' & -> & Hx)].
    + destruct (exists_last (l := c :: w)) as (w' & y & E); [discriminate|]. apply (Ht y (a ++ w')); [rewrite app_nil_r, E; now rewrite app_assoc|].
      rewrite E in Hw. apply Forall_app in Hw. destruct Hw as [_ Hw]. now apply Forall_inv in Hw.
    + apply (Hc x); [|exact Hx]. apply in_or_app. right. apply in_or_app. right. now left.
Qed.

(** ** Blocks *)
Lemma cut_blocks_concat n k : forall s, 0 < n -> length s <= k -> concat (cut_blocks n k s) = s.
Proof.
  induction k as [|k IH]; intros s Hn Hl; [destruct s; [reflexivity|cbn in Hl; lia]|]. cbn [cut_blocks]. destruct s as [|c s]; [reflexivity|].
  cbn [concat]. rewrite IH; [apply firstn_skipn|exact Hn|]. rewrite skipn_length. cbn [length] in *. lia.
Qed.
Lemma cut_blocks_full n k : forall s bs z, length s <= k -> cut_blocks n k s = bs ++ [z] -> Forall (fun b => n <= length b) bs.
Proof.
  induction k as [|k IH]; intros s bs z Hl E; [destruct bs; discriminate|]. cbn [cut_blocks] in E. destruct s as [|c s]; [destruct bs; discriminate|].
  destruct bs as [|b bs]; [constructor|]. injection E as E1 E2. destruct n as [|n]; [constructor; [lia|]|].
  - apply Forall_forall. intros. lia.
  - constructor.
    + rewrite <- E1, firstn_length. destruct (le_lt_dec (S n) (length (c :: s))) as [L|L]; [lia|]. exfalso. rewrite skipn_all2 in E2 by lia. destruct k; destruct bs; discriminate.
    + eapply IH; [|exact E2]. rewrite skipn_length. cbn [length] in *. lia.
Qed.
Lemma cut_blocks_one n k s : s <> [] -> length s <= n -> length s <= k -> cut_blocks n k s = [s].
Proof.
  intros Hs Hn Hk. destruct k; [destruct s; [congruence|cbn in Hk; lia]|]. cbn [cut_blocks]. destruct s as [|c s]; [congruence|]. rewrite firstn_all2, skipn_all2 by exact Hn. now destruct k.
Qed.

(** ** Saved documents *)
Definition doctype_ok (d : doc) : Prop :=
  match d_name d, d_pubid d, d_sysid d with Some n, Some p, Some s => dtd_ok n p s | _, _, _ => False end.
(** What saving gives: the calls, all accepted. *)
Definition saved_as (x df : _) (d : doc) (cs : list call) : Prop :=
  (exists ac name saved w' r, comps2xml_f ac name saved x df d w0 = Ok (w', r) /\ Forall (fun c => snd c = true) (w_calls w') /\ cs = calls w') \/
  (exists ac w', comps2xml_str ac x df d w0 = Ok (w', tt) /\ Forall (fun c => snd c = true) (w_calls w') /\ cs = calls w').
Lemma saved_file x df d cs : saved_as x df d cs -> enc_str d = ! "UTF-8" -> doctype_ok d ->
  exists n p s t, cs = file_calls n p s t /\ dtd_ok n p s /\ shaped t.
Proof.
  intros [(ac & name & saved & w' & r & E & Ha & ->)|(ac & w' & E & Ha & ->)] He Hd.
  - destruct (xml_f_calls _ _ _ _ _ _ _ _ E Ha) as (n & p & s & t & En & Ep & Es & Et & -> & _). exists n, p, s, (fst t). rewrite He. split; [reflexivity|].
    unfold doctype_ok in Hd. rewrite En, Ep, Es in Hd. split; [exact Hd|]. now apply doc_tree_shaped in Et.
  - destruct (xml_str_calls _ _ _ _ _ E Ha) as (n & p & s & t & En & Ep & Es & Et & ->). exists n, p, s, (fst t). rewrite He. split; [reflexivity|].
    unfold doctype_ok in Hd. rewrite En, Ep, Es in Hd. split; [exact Hd|]. now apply doc_tree_shaped in Et.
Qed.
Definition printable (x df : _) (d : doc) (cs : list call) : Prop :=
  saved_as x df d cs /\ enc_str d = ! "UTF-8" /\ doctype_ok d /\ Forall xml_text (strs cs).
Lemma printable_bytes x df d cs : printable x df d cs -> exists b, printed cs = Some b /\ xml_text b /\ b <> [].
Proof.
  intros (Hs & He & Hd & Hx). destruct (saved_file _ _ _ _ Hs He Hd) as (n & p & s & t & -> & Hk & Ht).
  destruct (dtd_read n p s (mkR (MText []) [] false false) Hk) as (w & raw & Ed & _). eexists. split; [apply printed_file; [exact Ht|exact Ed]|]. split; [|discriminate].
  eapply file_xml; [exact Ht|apply printed_file; [exact Ht|exact Ed]|exact Hx].
Qed.
(** Any property of the symbols up to the last block's end. *)
Lemma printable_read (P : list (option ascii) -> Prop) x df d cs b bs z : P [] -> (forall a b, P (a ++ b) -> P a /\ P b) -> printable x df d cs -> printed cs = Some b ->
  concat (bs ++ [z]) = b -> P (flat_map block bs ++ map Some z) -> exists ess, r_blocks r0 (bs ++ [z]) = Some ess /\ heard_by (cut_by P) [] cs (concat ess).
Proof.
  intros Pn Pa (Hs & He & Hd & Hx) Hb Ec HP. destruct (saved_file _ _ _ _ Hs He Hd) as (n & p & s & t & -> & Hk & Ht).
  destruct (file_read P Pn Pa n p s t b (flat_map block bs ++ map Some z) Ht Hk Hb) as (es & R & K); [|exact HP|].
  { rewrite bytes_app, bytes_blocks, bytes_some, <- Ec, concat_app. cbn. now rewrite app_nil_r. }
  assert (R' : r_run r0 (flat_map block (bs ++ [z])) = Some (mkR (MText []) [] true true, es)).
  { rewrite flat_map_app. change (flat_map block [z]) with ((map Some z ++ [None]) ++ []). rewrite app_nil_r, app_assoc. rewrite <- (app_nil_r es). eapply run_two; [exact R|reflexivity]. }
  destruct (blocks_run _ _ _ _ R' eq_refl eq_refl eq_refl) as (ess & E1 & E2). exists ess. split; [exact E1|]. now rewrite E2.
Qed.
Lemma blocks_last (bs : list str) b : concat bs = b -> b <> [] -> exists bs' z, bs = bs' ++ [z].
Proof. intros E Hb. destruct (exists_last (l := bs)) as (bs' & z & ->); [intros ->; now elim Hb|eauto]. Qed.
Lemma by_heard (ok : str -> list str -> Prop) o cs es : (forall s ch, In s (texts_of cs) -> ok s ch -> concat ch = s /\ Forall (fun c => ~ blank c) ch) -> heard_by ok o cs es -> heard o cs es.
Proof. intros H K. apply heard_by_heard. eapply heard_by_imp; [exact K|]. intros s ch Hi. now apply H. Qed.
Lemma by_any P o cs es : heard_by (cut_by P) o cs es -> heard_any o cs es.
Proof. intros K. apply heard_by_any. eapply heard_by_imp; [exact K|]. intros s ch _. apply any_cut. Qed.

(** C86 *)
Lemma read_any x df d cs b bs : printable x df d cs -> printed cs = Some b -> concat bs = b ->
  exists ess, reads bs ess /\ heard_any [] cs (concat ess) /\ exists cs', Forall2 (retext thinner) cs cs' /\ heard [] cs' (strip (concat ess)).
Proof.
  intros Hp Hb E. destruct (printable_bytes _ _ _ _ Hp) as (b' & Eb & Hx & Hne). assert (b' = b) by congruence. subst b'.
  destruct (blocks_last bs b E Hne) as (bs' & z & ->).
  destruct (printable_read (fun _ => True) x df d cs b bs' z I ltac:(auto) Hp Hb E I) as (ess & R & K). exists ess. split; [split; [now rewrite E|exact R]|].
  split; [now apply (by_any (fun _ => True))|]. eapply by_strip; [|exact K]. intros s ch _ H. apply any_cut in H. destruct H as [<- _]. apply thinner_pieces.
Qed.
(** C87 *)
Definition squeezed (c : call) : call := match c with WText s => WText (squeeze s) | _ => c end.
Lemma retext_fun cs : forall cs', Forall2 (retext (fun s s' => s' = squeeze s)) cs cs' -> cs' = map squeezed cs.
Proof.
  induction cs as [|c cs IH]; intros cs' H; inversion H as [|? c' ? r' Hc Hr]; subst; [reflexivity|]. cbn [map]. f_equal; [|now apply IH].
  destruct Hc as [s s' ->|c Hc]; [reflexivity|]. destruct c; try reflexivity. now elim (Hc s).
Qed.
Lemma whole_str x df d cs b : printable x df d cs -> printed cs = Some b ->
  exists ess, reads [b] ess /\ heard_by (cut_by whole_block) [] cs (concat ess).
Proof.
  intros Hp Hb. destruct (printable_bytes _ _ _ _ Hp) as (b' & Eb & Hx & Hne). assert (b' = b) by congruence. subst b'.
  destruct (printable_read whole_block x df d cs b [] b) as (ess & R & K); auto; [constructor|apply whole_app|cbn; now rewrite app_nil_r| |].
  { cbn [flat_map app]. apply Forall_map, Forall_forall. discriminate. }
  exists ess. split; [split; [cbn [concat]; now rewrite app_nil_r|exact R]|exact K].
Qed.
Lemma str_exact x df d cs b st o : printable x df d cs -> printed cs = Some b ->
  exists es, heard [] (map squeezed cs) es /\ load_str st b o = Some (parse_str false st (es, None) o).
Proof.
  intros Hp Hb. destruct (whole_str _ _ _ _ _ Hp Hb) as (ess & [_ R] & K). exists (strip (concat ess)).
  destruct (by_strip (cut_by whole_block) (fun s s' => s' = squeeze s) _ _ _ ltac:(intros s ch _ H; apply cut_whole in H; now subst ch) K) as (cs' & H1 & H2).
  apply retext_fun in H1. subst cs'. split; [exact H2|]. unfold load_str. rewrite R. cbn [option_map]. f_equal. apply parse_str_events. now rewrite strip_strip.
Qed.
Lemma squeezed_solid cs : Forall solid (texts_of cs) -> map squeezed cs = cs.
Proof.
  induction cs as [|c cs IH]; intros H; [reflexivity|]. cbn [map]. unfold texts_of in H. cbn [flat_map] in H. apply Forall_app in H. destruct H as [Hc H]. rewrite IH by exact H. f_equal.
  destruct c; try reflexivity. cbn [squeezed]. f_equal. apply squeeze_solid. now apply Forall_inv in Hc.
Qed.
Lemma str_round x df d cs b en : docwf d -> parts_normal (opt_xopts x) (doc_parts d) -> (exists ac w', comps2xml_str ac x df d w0 = Ok (w', tt) /\ Forall (fun c => snd c = true) (w_calls w') /\ cs = calls w') ->
  enc_str d = ! "UTF-8" -> doctype_ok d -> Forall xml_text (strs cs) -> Forall solid (texts_of cs) -> printed cs = Some b ->
  exists st' d', load_str (parsed_init en) b df = Some (Ok (st', 0%Z)) /\ ps_log st' = [] /\ ps_doc st' = PLive d' /\ docwf d' /\
    head_carried d d' en /\ parts_carried (opt_dopts df) (opt_xopts x) (doc_parts d) (doc_parts d').
Proof.
  intros Hw Hn (ac & w' & E & Ha & ->) He Hd Hx Hs Hb. assert (Hp : printable x df d (calls w')) by (repeat split; auto; right; eauto).
  destruct (str_exact _ _ _ _ _ (parsed_init en) df Hp Hb) as (es & K & L). rewrite squeezed_solid in K by exact Hs.
  destruct (round_str ac x df d w' en (es, None) Hw Hn E Ha K eq_refl) as (st' & d' & Q & H). exists st', d'. split; [now rewrite L, Q|exact H].
Qed.
(** C88 *)
Definition feeds (ess : list (list event)) : list feed := map (fun e => (e, None)) (ess ++ [[]]).
Lemma feeds_ok ess : Forall (fun f => snd f = None) (feeds ess) /\ concat (map fst (feeds ess)) = concat ess.
Proof.
  unfold feeds. split; [apply Forall_map, Forall_forall; reflexivity|]. rewrite map_map. cbn [fst]. rewrite map_id, concat_app. cbn. now rewrite app_nil_r.
Qed.
Lemma file_events x df d cs b n bs z : printable x df d cs -> printed cs = Some b -> Forall (firm n) (texts_of cs) -> concat (bs ++ [z]) = b -> Forall (fun b => n + 3 <= length b) bs ->
  exists ess, reads (bs ++ [z]) ess /\ heard [] cs (concat ess).
Proof.
  intros Hp Hb Hf E Hl. destruct (printable_bytes _ _ _ _ Hp) as (b' & Eb & Hx & Hne). assert (b' = b) by congruence. subst b'.
  destruct (printable_read (spaced (n + 3) None) x df d cs b bs z) as (ess & R & K); auto; [exact I|apply spaced_split|now apply spaced_blocks|].
  exists ess. split; [split; [now rewrite E|exact R]|]. eapply by_heard; [|exact K]. intros s ch Hi Hc. apply (firm_cut n); [|exact Hc]. rewrite Forall_forall in Hf. now apply Hf.
Qed.
Lemma file_round ac name saved x df d w' r b st n : docwf d -> parts_normal (opt_xopts x) (doc_parts d) -> comps2xml_f ac name saved x df d w0 = Ok (w', r) -> Forall (fun c => snd c = true) (w_calls w') ->
  enc_str d = ! "UTF-8" -> doctype_ok d -> Forall xml_text (strs (calls w')) -> n + 3 = BUFF_SIZE -> Forall (firm n) (texts_of (calls w')) -> printed (calls w') = Some b -> ready st ->
  exists st' d', load_file st b df = Some (Ok (st', 0%Z)) /\ ps_log st' = [] /\ ps_doc st' = PLive d' /\ ready st' /\ docwf d' /\
    head_carried d d' (ps_enc st) /\ parts_carried (opt_dopts df) (opt_xopts x) (doc_parts d) (doc_parts d').
Proof.
  intros Hw Hn E Ha He Hd Hx En Hf Hb Hr. assert (Hp : printable x df d (calls w')) by (repeat split; auto; left; eauto 9).
  destruct (printable_bytes _ _ _ _ Hp) as (b' & Eb & _ & Hne). assert (b' = b) by congruence. subst b'.
  assert (Ec : concat (cut_blocks BUFF_SIZE (length b) b) = b) by (apply cut_blocks_concat; [rewrite <- En; lia|lia]).
  destruct (blocks_last _ _ Ec Hne) as (bs & z & Ez). rewrite Ez in Ec.
  destruct (file_events x df d _ b n bs z Hp Hb Hf Ec) as (ess & [_ R] & K); [rewrite En; eapply cut_blocks_full; [|exact Ez]; lia|].
  destruct (feeds_ok ess) as [F1 F2].
  destruct (round_file ac name saved x df d w' r st (feeds ess) Hw Hn E Ha ltac:(rewrite F2; exact K) F1 Hr) as (st' & d' & Q & H). exists st', d'. split; [|exact H].
  assert (R1 : r_blocks r0 (cut_blocks BUFF_SIZE (length b) b) = Some ess) by (rewrite Ez; exact R). unfold load_file. rewrite R1. cbn [option_map]. f_equal. exact Q.
Qed.
Lemma small_round ac name saved x df d w' r b st : docwf d -> parts_normal (opt_xopts x) (doc_parts d) -> comps2xml_f ac name saved x df d w0 = Ok (w', r) -> Forall (fun c => snd c = true) (w_calls w') ->
  enc_str d = ! "UTF-8" -> doctype_ok d -> Forall xml_text (strs (calls w')) -> Forall solid (texts_of (calls w')) -> printed (calls w') = Some b -> length b <= BUFF_SIZE -> ready st ->
  exists st' d', load_file st b df = Some (Ok (st', 0%Z)) /\ ps_log st' = [] /\ ps_doc st' = PLive d' /\ ready st' /\ docwf d' /\
    head_carried d d' (ps_enc st) /\ parts_carried (opt_dopts df) (opt_xopts x) (doc_parts d) (doc_parts d').
Proof.
  intros Hw Hn E Ha He Hd Hx Hs Hb Hl Hr. assert (Hp : printable x df d (calls w')) by (repeat split; auto; left; eauto 9).
  destruct (printable_bytes _ _ _ _ Hp) as (b' & Eb & _ & Hne). assert (b' = b) by congruence. subst b'.
  destruct (whole_str _ _ _ _ _ Hp Hb) as (ess & [_ R] & K).
  assert (K' : heard [] (calls w') (concat ess)).
  { eapply by_heard; [|exact K]. intros s ch Hi Hc. apply cut_whole in Hc. subst ch. rewrite Forall_forall in Hs. split; [|now apply solid_pieces, Hs].
    unfold pieces. rewrite chop_concat. cbn [app]. apply bytes_some. }
  destruct (feeds_ok ess) as [F1 F2].
  destruct (round_file ac name saved x df d w' r st (feeds ess) Hw Hn E Ha ltac:(rewrite F2; exact K') F1 Hr) as (st' & d' & Q & H). exists st', d'. split; [|exact H].
  assert (R1 : r_blocks r0 (cut_blocks BUFF_SIZE (length b) b) = Some ess) by (rewrite cut_blocks_one by auto; exact R). unfold load_file. rewrite R1. cbn [option_map]. f_equal. exact Q.
Qed.
