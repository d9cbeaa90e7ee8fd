(** Saved files and strings read back: what of the texts survives. *)
From Coq Require Import NArith.
From Verif Require Import CStr CStrFacts HSListModel RTreeModel MRTreeModel ObjModel StrModel ParseModel DocModel XmlModel XmlFacts SpecF SpecF3 SpecG SpecG2 SpecG5 SpecG6 SpecG7
  Utf8Facts TextModel TextFacts TextFacts2 TextFacts3 TextFacts4.

(** ** Blank pieces do not reach the document *)
Definition heavy (s : str) : bool := negb (forallb is_space s).
Lemma heavy_iff s : heavy s = true <-> ~ blank s.
Proof. unfold heavy. rewrite negb_true_iff, <- blank_iff. destruct (forallb is_space s); intuition congruence. Qed.
Lemma heavy_not s : heavy s = false <-> blank s.
Proof. unfold heavy. rewrite negb_false_iff. apply blank_iff. Qed.
Definition heavy_event (e : event) : bool := match e with EChars s => heavy s | _ => true end.
Definition strip (es : list event) : list event := filter heavy_event es.
Lemma run_strip es : forall st, run false st (strip es) = run false st es.
Proof.
  induction es as [|e es IH]; intros st; [reflexivity|]. unfold strip in *. cbn [filter]. destruct (heavy_event e) eqn:He.
  - cbn [run]. destruct (step false st e); cbn [bind]; [apply IH|reflexivity|reflexivity].
  - destruct e as [| |s|]; try discriminate. cbn [heavy_event] in He. unfold heavy in He. apply negb_false_iff in He.
    cbn [run step]. unfold chars_handler. rewrite He. cbn [bind]. apply IH.
Qed.
Lemma run_feeds_concat fs : forall st, Forall (fun f => snd f = None) fs -> run_feeds false st fs = run false st (concat (map fst fs)).
Proof.
  induction fs as [|[es er] fs IH]; intros st H; [reflexivity|]. apply Forall_cons_iff in H. destruct H as [Hn H]. cbn [snd] in Hn. subst er.
  cbn [run_feeds map fst concat]. rewrite SpecF3.run_app. destruct (run false st es); cbn [bind]; [now apply IH|reflexivity|reflexivity].
Qed.
Lemma parse_file_events st fs es o : Forall (fun f => snd f = None) fs -> strip (concat (map fst fs)) = strip es ->
  parse_file false st (Some fs) o = parse_file false st (Some [(es, None)]) o.
Proof.
  intros Hf E. unfold parse_file. destruct (reinit st); cbn [bind]; try reflexivity. rewrite run_feeds_concat by exact Hf. rewrite run_feeds_concat by repeat constructor.
  cbn [map fst concat]. rewrite app_nil_r, <- run_strip, E, run_strip. reflexivity.
Qed.
Lemma parse_str_events st es es' o : strip es = strip es' -> parse_str false st (es, None) o = parse_str false st (es', None) o.
Proof. intros E. unfold parse_str. rewrite !run_feeds_concat by repeat constructor. cbn [map fst concat]. rewrite !app_nil_r, <- run_strip, E, run_strip. reflexivity. Qed.
Lemma strip_strip es : strip (strip es) = strip es.
Proof. unfold strip. induction es as [|e es IH]; [reflexivity|]. cbn [filter]. destruct (heavy_event e) eqn:E; [cbn [filter]; rewrite E; now f_equal|exact IH]. Qed.
Lemma strip_app a b : strip (a ++ b) = strip a ++ strip b.
Proof. apply filter_app. Qed.
Lemma strip_chars ch : strip (map EChars ch) = map EChars (filter heavy ch).
Proof. unfold strip. induction ch as [|c ch IH]; [reflexivity|]. cbn [map filter heavy_event]. destruct (heavy c); cbn [map]; now rewrite IH. Qed.

(** Calls whose texts were replaced. *)
Inductive retext (R : str -> str -> Prop) : call -> call -> Prop :=
| RT_text s s' : R s s' -> retext R (WText s) (WText s')
| RT_same c : (forall s, c <> WText s) -> retext R c c.
Lemma retext_attrs R a : Forall2 (retext R) (map attr_call a) (map attr_call a).
Proof. induction a as [|[k v] a IH]; cbn; constructor; [|exact IH]. apply RT_same. discriminate. Qed.
Lemma retext_no_attr R cs cs' : Forall2 (retext R) cs cs' -> no_attr cs -> no_attr cs'.
Proof. intros H Hn. destruct H as [|c c' cs cs' Hc _]; [exact Hn|]. destruct Hc as [s s' _|c _]; [exact I|exact Hn]. Qed.
Lemma by_strip (ok : str -> list str -> Prop) (R : str -> str -> Prop) o cs es : (forall s ch, In s (texts_of cs) -> ok s ch -> R s (concat (filter heavy ch))) -> heard_by ok o cs es ->
  exists cs', Forall2 (retext R) cs cs' /\ heard o cs' (strip es).
Proof.
  intros HR H. revert HR. induction H as [|o cs s es Hb _ IH|e cs es _ IH|cs es _ IH|n p s cs es _ IH|o n a cs es Hn _ IH|o s ch cs es Hs _ IH|o n cs es _ IH]; intros HR.
  - exists []. split; constructor.
  - destruct (IH HR) as (cs' & H1 & H2). exists cs'. split; [exact H1|]. unfold strip. cbn [filter heavy_event]. apply heavy_not in Hb. rewrite Hb. exact H2.
  - destruct (IH HR) as (cs' & H1 & H2). exists (WStartDoc e :: cs'). split; [constructor; [apply RT_same; discriminate|exact H1]|now constructor].
  - destruct (IH HR) as (cs' & H1 & H2). exists (WEndDoc :: cs'). split; [constructor; [apply RT_same; discriminate|exact H1]|now constructor].
  - destruct (IH HR) as (cs' & H1 & H2). exists (WDTD n p s :: WEndDTD :: cs'). split; [constructor; [apply RT_same; discriminate|]; constructor; [apply RT_same; discriminate|exact H1]|now constructor].
  - destruct IH as (cs' & H1 & H2).
    { intros s ch Hs. apply HR. cbn [texts_of flat_map app]. fold (texts_of (map attr_call a ++ cs)). now rewrite texts_attrs. }
    exists (WStart n :: map attr_call a ++ cs'). split; [constructor; [apply RT_same; discriminate|]; apply Forall2_app; [apply retext_attrs|exact H1]|].
    cbn [strip filter heavy_event]. apply H_start; [now apply (retext_no_attr R cs)|exact H2].
  - destruct IH as (cs' & H1 & H2); [intros s' ch' Hs'; apply HR; now right|]. exists (WText (concat (filter heavy ch)) :: cs').
    split; [constructor; [apply RT_text; apply HR; [now left|exact Hs]|exact H1]|]. rewrite strip_app, strip_chars. apply H_text; [reflexivity| |exact H2].
    apply Forall_forall. intros c Hc. apply filter_In in Hc. now apply heavy_iff.
  - destruct (IH HR) as (cs' & H1 & H2). exists (WEnd :: cs'). split; [constructor; [apply RT_same; discriminate|exact H1]|now constructor].
Qed.
(** Only white characters are lost. *)
Inductive thinner : str -> str -> Prop :=
| TH_nil : thinner [] []
| TH_keep c s s' : thinner s s' -> thinner (c :: s) (c :: s')
| TH_drop c s s' : white c -> thinner s s' -> thinner (c :: s) s'.
Lemma thinner_keep w s s' : thinner s s' -> thinner (w ++ s) (w ++ s').
Proof. intros H. induction w; cbn [app]; [exact H|now constructor]. Qed.
Lemma thinner_drop w s s' : blank w -> thinner s s' -> thinner (w ++ s) s'.
Proof. intros Hw H. induction Hw; cbn [app]; [exact H|now constructor]. Qed.
Lemma thinner_pieces ch : thinner (concat ch) (concat (filter heavy ch)).
Proof.
  induction ch as [|c ch IH]; [constructor|]. cbn [concat filter]. destruct (heavy c) eqn:E; [cbn [concat]; now apply thinner_keep|]. apply heavy_not in E. now apply thinner_drop.
Qed.

(** ** Whole strings *)
Definition pieces (s : str) : list str := chop [] (map Some s).
Definition squeeze (s : str) : str := concat (filter heavy (pieces s)).
Definition whole_block (l : list (option ascii)) : Prop := Forall (fun x => x <> None) l.
Lemma whole_app a b : whole_block (a ++ b) -> whole_block a /\ whole_block b.
Proof. apply Forall_app. Qed.
Lemma whole_some l : whole_block l -> l = map Some (bytes l).
Proof. induction 1 as [|x l Hx _ IH]; [reflexivity|]. destruct x as [c|]; [|congruence]. cbn. now f_equal. Qed.
Lemma escd_whole l m : escd l m -> whole_block l -> whole_block m.
Proof.
  induction 1 as [|l m _ IH|c l m Hc _ IH|c x la l m Hb Hn _ IH]; intros H; [constructor| | |].
  - apply Forall_inv in H. congruence.
  - constructor; [discriminate|]. apply IH. now apply Forall_inv_tail in H.
  - constructor; [discriminate|]. apply IH. apply Forall_inv_tail in H. apply Forall_app in H. apply H.
Qed.
Lemma cut_whole s ch : cut_by whole_block s ch -> ch = pieces s.
Proof. intros (l & m & Hl & He & Hm & ->). unfold pieces. f_equal. rewrite <- Hm. apply whole_some. now apply (escd_whole l). Qed.

(** ** Files in blocks *)
(** At least [n] bytes between the ends of blocks; [k]: bytes since the last. *)
Fixpoint spaced (n : nat) (k : option nat) (l : list (option ascii)) : Prop :=
  match l with
  | [] => True
  | Some _ :: r => spaced n (option_map S k) r
  | None :: r => match k with Some j => n <= j | None => True end /\ spaced n (Some 0) r
  end.
Lemma spaced_weak n l : forall k j, match k, j with Some a, Some b => b <= a | Some _, None => False | None, _ => True end -> spaced n j l -> spaced n k l.
Proof.
  induction l as [|[c|] l IH]; intros k j H; cbn [spaced]; [auto| |].
  - apply IH. destruct k, j; cbn in *; auto; lia.
  - intros [H1 H2]. split; [|exact H2]. destruct k, j; auto; [lia|contradiction].
Qed.
Lemma spaced_app n a b : forall k, spaced n k (a ++ b) -> spaced n k a /\ exists j, spaced n j b.
Proof.
  induction a as [|[c|] a IH]; intros k; cbn [app spaced]; [eauto|apply IH|]. intros [H1 H2]. apply IH in H2. tauto.
Qed.
Lemma spaced_split n a b : spaced n None (a ++ b) -> spaced n None a /\ spaced n None b.
Proof. intros H. apply spaced_app in H. destruct H as [H (j & Hj)]. split; [exact H|]. eapply spaced_weak; [|exact Hj]. exact I. Qed.
Definition cutter (c : ascii) : Prop := In c (! "<>&" ++ [CR; LF]).
Lemma cutter_special c : special c = true <-> cutter c.
Proof.
  unfold special, cutter. rewrite !orb_true_iff, !Ascii.eqb_eq. cbn [In app list_ascii_of_string]. intuition congruence.
Qed.
Definition left_edge (a : str) : Prop := a = [] \/ exists a' c, a = a' ++ [c] /\ cutter c.
Definition right_edge (b : str) : Prop := b = [] \/ exists c b', b = c :: b' /\ cutter c.
(** No run of white characters is a piece. *)
Definition solid (s : str) : Prop :=
  (forall c, In c s -> white c -> ~ cutter c) /\
  forall a w b, s = a ++ w ++ b -> w <> [] -> blank w -> left_edge a -> right_edge b -> False.
(** No run of white characters is at the edge of a piece or of [n] characters. *)
Definition firm (n : nat) (s : str) : Prop :=
  (forall c, In c s -> white c -> ~ cutter c) /\
  forall a w b, s = a ++ w ++ b -> w <> [] -> blank w -> length w < n /\ ~ left_edge a /\ ~ right_edge b.
Lemma firm_solid n s : firm n s -> solid s.
Proof. intros [H1 H2]. split; [exact H1|]. intros a w b E Hw Hb Ha _. now destruct (H2 a w b E Hw Hb) as (_ & H & _). Qed.
Lemma left_over_ok (Q : str -> Prop) acc : (acc <> [] -> Q acc) -> Forall Q (left_over acc).
Proof. destruct acc; intros H; cbn; [constructor|]. constructor; [apply H; discriminate|constructor]. Qed.
Lemma solid_chop s : solid s -> forall r pre acc, s = pre ++ acc ++ r -> left_edge pre -> Forall (fun c => ~ blank c) (chop acc (map Some r)).
Proof.
  intros [S1 S2]. induction r as [|c r IH]; intros pre acc E Hp; cbn [map chop].
  - apply left_over_ok. intros Hn Hb. apply (S2 pre acc [] E Hn Hb Hp). now left.
  - destruct (special c) eqn:Es.
    + apply cutter_special in Es. apply Forall_app. split.
      * apply left_over_ok. intros Hn Hb. apply (S2 pre acc (c :: r) E Hn Hb Hp). right. eauto.
      * constructor.
        -- intros Hb. apply Forall_inv in Hb. apply (S1 c); [|exact Hb|exact Es]. rewrite E. apply in_or_app. right. apply in_or_app. right. now left.
        -- apply (IH (pre ++ acc ++ [c]) []); [rewrite E; now rewrite <- !app_assoc|]. right. exists (pre ++ acc), c. split; [now rewrite app_assoc|exact Es].
    + apply (IH pre (acc ++ [c])); [rewrite E; now rewrite <- !app_assoc|exact Hp].
Qed.
Lemma solid_pieces s : solid s -> Forall (fun c => ~ blank c) (pieces s).
Proof. intros H. apply (solid_chop s H s [] []); [reflexivity|now left]. Qed.
Lemma filter_all {A} (f : A -> bool) l : Forall (fun x => f x = true) l -> filter f l = l.
Proof. induction 1 as [|x l Hx _ IH]; [reflexivity|]. cbn [filter]. now rewrite Hx, IH. Qed.
Lemma squeeze_same s : Forall (fun c => ~ blank c) (pieces s) <-> squeeze s = s.
Proof.
  unfold squeeze. assert (Hc : concat (pieces s) = s) by (unfold pieces; rewrite chop_concat; cbn [app]; now rewrite bytes_some). split.
  - intros H. rewrite filter_all; [exact Hc|]. eapply Forall_impl; [|exact H]. intros c. apply heavy_iff.
  - intros H. assert (Hn : Forall (fun c => c <> []) (pieces s)) by apply chop_ne. rewrite <- Hc in H at 2. clear Hc. revert H Hn. generalize (pieces s). clear.
    assert (Hlen : forall ch, length (concat (filter heavy ch)) <= length (concat ch)).
    { induction ch as [|c ch IH]; [cbn; lia|]. cbn [filter concat]. destruct (heavy c); cbn [concat]; rewrite ?app_length; lia. }
    induction l as [|c ch IH]; intros H Hn; [constructor|]. apply Forall_cons_iff in Hn. destruct Hn as [Hc Hn]. cbn [filter concat] in H. destruct (heavy c) eqn:E.
    + cbn [concat] in H. apply app_inv_head in H. constructor; [now apply heavy_iff|now apply IH].
    + exfalso. apply (f_equal (@length ascii)) in H. rewrite app_length in H. specialize (Hlen ch). destruct c; [congruence|]. cbn [length] in H. lia.
Qed.
Lemma held_rev acc : snd (held acc) = rev (firstn (kept_back (rev acc)) (rev acc)).
Proof. unfold held. cbn [snd]. rewrite firstn_rev, rev_involutive. reflexivity. Qed.
Lemma kept_small r : kept_back r <= 3.
Proof.
  unfold kept_back. destruct r as [|a [|b [|c r]]]; repeat match goal with |- context [if ?x then _ else _] => destruct x end; lia.
Qed.
Lemma white_small c : white c -> Ascii.eqb c "]" = false /\ (N_of_ascii c <? 128)%N = true.
Proof. intros H. unfold white in H. repeat (destruct H as [->|H]; [split; reflexivity|]). subst c. split; reflexivity. Qed.
Lemma kept_head r c t : rev (firstn (kept_back r) r) = c :: t -> ~ white c.
Proof.
  intros E Hw. apply white_small in Hw. destruct Hw as [H1 H2]. apply N.ltb_lt in H2. unfold kept_back in E.
  destruct r as [|x r]; [discriminate|]. destruct (Ascii.eqb_spec x "]") as [->|Hx].
  - destruct r as [|y r]; [cbn in E; injection E as <- <-; discriminate|]. destruct (Ascii.eqb_spec y "]") as [->|Hy]; cbn in E; injection E as <- <-; discriminate.
  - destruct (192 <=? N_of_ascii x)%N eqn:E1; [cbn in E; injection E as <- <-; apply N.leb_le in E1; lia|].
    destruct r as [|y r]; [discriminate|]. destruct ((128 <=? N_of_ascii x)%N && (224 <=? N_of_ascii y)%N) eqn:E2.
    + cbn in E. injection E as <- <-. apply andb_true_iff in E2. destruct E2 as [_ E2]. apply N.leb_le in E2. lia.
    + destruct r as [|z r]; [discriminate|]. destruct ((128 <=? N_of_ascii x) && (128 <=? N_of_ascii y) && (240 <=? N_of_ascii z))%N eqn:E3; [|discriminate].
      cbn in E. injection E as <- <-. apply andb_true_iff in E3. destruct E3 as [_ E3]. apply N.leb_le in E3. lia.
Qed.
(** Where the data at hand began: at a piece's start, or at the end of a block. *)
Definition began (k : option nat) (pre acc : str) : Prop :=
  match acc with [] => left_edge pre \/ k = Some 0 | c :: _ => white c -> k = Some (length acc) end.
Lemma firm_chop n s : firm n s -> forall l m, escd l m -> forall k pre acc, spaced (n + 3) k l -> s = pre ++ acc ++ bytes m -> began k pre acc ->
  Forall (fun c => ~ blank c) (chop acc m).
Proof.
  intros [F1 F2]. assert (Hsp : forall k pre acc c m, special c = true -> s = pre ++ acc ++ c :: bytes m ->
    (forall k', s = (pre ++ acc ++ [c]) ++ [] ++ bytes m -> began k' (pre ++ acc ++ [c]) [] -> Forall (fun c => ~ blank c) (chop [] m)) -> began k pre acc ->
    Forall (fun c => ~ blank c) (left_over acc ++ [c] :: chop [] m)).
  { intros k pre acc c m Es E H _. apply cutter_special in Es. apply Forall_app. split.
    - apply left_over_ok. intros Hn Hb. destruct (F2 pre acc (c :: bytes m) E Hn Hb) as (_ & _ & H'). apply H'. right. eauto.
    - constructor.
      + intros Hb. apply Forall_inv in Hb. apply (F1 c); [|exact Hb|exact Es]. rewrite E. apply in_or_app. right. apply in_or_app. right. now left.
      + apply (H None); [rewrite E; now rewrite <- !app_assoc|]. left. right. exists (pre ++ acc), c. split; [now rewrite app_assoc|exact Es]. }
  induction 1 as [|l m He IH|c l m Hc He IH|c x la l m Hb Hn He IH]; intros k pre acc Hs E Hg; cbn [chop].
  - apply left_over_ok. intros Hn Hb. destruct (F2 pre acc [] E Hn Hb) as (_ & _ & H'). apply H'. now left.
  - cbn [spaced] in Hs. destruct Hs as [Hk Hs]. change (bytes (None :: m)) with (bytes m) in E. apply Forall_app. split.
    + apply left_over_ok. intros Hn Hb.
      assert (E' : s = pre ++ fst (held acc) ++ (snd (held acc) ++ bytes m)) by (rewrite E, <- (held_app acc) at 1; now rewrite <- !app_assoc).
      destruct (F2 _ _ _ E' Hn Hb) as (Hlen & _). pose proof (held_app acc) as Ha.
      assert (Hl : length acc = length (fst (held acc)) + length (snd (held acc))) by (rewrite <- Ha at 1; apply app_length).
      assert (H3 : length (snd (held acc)) <= 3) by (rewrite held_rev, rev_length, firstn_length; pose proof (kept_small (rev acc)); lia).
      destruct acc as [|c acc]; [now elim Hn|]. cbn [began] in Hg. destruct (fst (held (c :: acc))) as [|c' f] eqn:Ef; [congruence|]. cbn [app] in Ha. injection Ha as Hc' _. subst c'.
      apply Forall_inv in Hb. specialize (Hg Hb). rewrite Hg in Hk. lia.
    + apply (IH (Some 0) (pre ++ fst (held acc))); [exact Hs|rewrite E, <- (held_app acc) at 1; now rewrite <- !app_assoc|].
      unfold began. destruct (snd (held acc)) as [|c t] eqn:Eh; [now right|]. intros Hw. exfalso. rewrite held_rev in Eh. now apply kept_head in Eh.
  - cbn [spaced] in Hs. change (bytes (Some c :: m)) with (c :: bytes m) in E. destruct (special c) eqn:Es.
    + apply (Hsp k pre); auto. intros k' E' Hg'. apply (IH (option_map S k) (pre ++ acc ++ [c]) []); [exact Hs|exact E'|]. destruct Hg' as [Hg'|Hg']; [now left|].
      left. right. exists (pre ++ acc), c. split; [now rewrite app_assoc|now apply cutter_special].
    + apply (IH (option_map S k) pre (acc ++ [c])); [exact Hs|rewrite E; now rewrite <- !app_assoc|]. unfold began in *. destruct acc as [|c0 acc]; cbn [app].
      * intros Hw. destruct Hg as [Hg| ->]; [|reflexivity]. exfalso. destruct (F2 pre [c] (bytes m)) as (_ & H' & _); [exact E|discriminate|now constructor|]. now apply H'.
      * intros Hw. rewrite (Hg Hw). cbn [option_map]. f_equal. cbn [length]. rewrite app_length. cbn. lia.
  - assert (Es : special c = true) by (destruct (esc_cases c) as [[E1 _]|[E1 _]]; [congruence|exact E1]).
    change (bytes (Some c :: m)) with (c :: bytes m) in E. rewrite Es. apply (Hsp k pre); auto. intros k' E' Hg'.
    change (Some x :: la ++ l) with ((Some x :: la) ++ l) in Hs. apply spaced_app in Hs. destruct Hs as [_ (j & Hj)].
    apply (IH j (pre ++ acc ++ [c]) []); [exact Hj|exact E'|]. left. right. exists (pre ++ acc), c. split; [now rewrite app_assoc|now apply cutter_special].
Qed.
Lemma firm_cut n s ch : firm n s -> cut_by (spaced (n + 3) None) s ch -> concat ch = s /\ Forall (fun c => ~ blank c) ch.
Proof.
  intros Hf (l & m & Hl & He & Hm & ->). split; [rewrite chop_concat; exact Hm|]. apply (firm_chop n s Hf l m He None [] []); [exact Hl|now rewrite Hm|]. left. now left.
Qed.
Lemma any_cut P s ch : cut_by P s ch -> concat ch = s /\ Forall (fun c => c <> []) ch.
Proof. intros (l & m & Hl & He & Hm & ->). split; [rewrite chop_concat; exact Hm|apply chop_ne]. Qed.
(** Blocks of at least [n] bytes but for the last. *)
Lemma spaced_some n s r : forall k, spaced n k (map Some s ++ r) <-> spaced n (match k with Some j => Some (length s + j) | None => None end) r.
Proof.
  induction s as [|c s IH]; intros k; cbn [map app spaced length]; [now destruct k|]. rewrite IH. destruct k as [j|]; cbn [option_map]; [|reflexivity].
  replace (length s + S j) with (S (length s) + j) by lia. reflexivity.
Qed.
Lemma spaced_blocks n bs z : Forall (fun b => n <= length b) bs -> forall k, spaced n k (flat_map block bs ++ map Some z).
Proof.
  induction 1 as [|b bs Hb _ IH]; intros k; cbn [flat_map app].
  - rewrite <- (app_nil_r (map Some z)). apply spaced_some. exact I.
  - unfold block at 1. rewrite <- !app_assoc. apply spaced_some. cbn [app spaced]. split; [destruct k; lia || exact I|apply IH].
Qed.
