(** Saving a document in Python and loading what was saved. *)
From Coq Require Import Lia NArith.
From Verif Require Import CStr CStrFacts HSListModel HSListFacts SetModel RTreeModel RTreeFacts RTreeFacts2 RTreeFacts3 RTreeFacts4 MRTreeModel MRTreeFacts
  ObjModel ObjFacts ObjFacts2 SpecA SpecB SpecC DocModel DocFacts DocFacts2 SpecD SpecD2 ParseModel SpecF SpecF2 SpecF3 SpecF4 XmlModel XmlFacts SpecG SpecG2 SpecG3 SpecG4 SpecG5 SpecG6 SpecG7 ValidateModel PyObjModel PyDictModel
  PyDocModel PyDocFacts PyDocFacts2 PyDocFacts3 PyDocFacts4 PyDocFacts5 PyDocFacts6 PyDocFacts7
  TextModel TextFacts TextFacts2 TextFacts3 TextFacts4 TextFacts5 TextFacts6 TextFacts7 SpecR SpecR2 SpecR3 SpecR4 SpecR5 SpecR6 SpecT.

(** ** Statements *)
(** What fromxml_str gives to the library for the bytes [b], and what fromxml_f
    gives it for a file of these bytes: the events of one block, and of blocks of
    BUFF_SIZE bytes (comps_parse.c:254-262, 283-326; the reader is TextModel's).
    [None]: not in the subset of XML that TextModel reads. *)
Definition text_feed (b : str) : option feed := option_map (fun ess => (concat ess, None)) (r_blocks r0 [b]).
Definition file_feeds (b : str) : option (list feed) := option_map (fun ess => map (fun e => (e, None)) (ess ++ [[]])) (r_blocks r0 (cut_blocks BUFF_SIZE (length b) b)).
(** The Comps object [e] of [w'] is as if it had just been made by reading [m]; the
    other documents and all Python objects are as they were in [w]. *)
Definition replaced_by (w w' : world) (e : nat) (z : pydoc) (m : doc) : Prop :=
  nth_error (w_docs w') e = Some z /\ view w' z = Ok m /\ (forall p, pd_cache z p = None) /\
  (forall d q v, d <> e -> (doc_shows w' d q v <-> doc_shows w d q v)) /\
  (forall d x, d <> e -> nth_error (w_docs w) d = Some x -> nth_error (w_docs w') d = Some x) /\
  (forall wr v, content w wr = Some v -> content w' wr = Some v).

Lemma Some_inj {A} (a b : A) : Some a = Some b -> a = b.
Proof. congruence. Qed.
(** ** Documents with the same parts *)
Lemma parts_shown f g : (forall p, match f (part_key p) with Some v => v | None => empty_of (part_type p) end = match g (part_key p) with Some v => v | None => empty_of (part_type p) end) ->
  parts_of f = parts_of g.
Proof.
  intros H. unfold parts_of.
  pose proof (H Groups) as H1. pose proof (H Categories) as H2. pose proof (H Environments) as H3. pose proof (H Langpacks) as H4. pose proof (H Blacklist) as H5. pose proof (H Whiteout) as H6.
  cbn [part_key part_type empty_of] in *. clear H.
  f_equal.
  - destruct (f k_groups) as [u|], (g k_groups) as [v|]; try subst; reflexivity.
  - destruct (f k_cats) as [u|], (g k_cats) as [v|]; try subst; reflexivity.
  - destruct (f k_envs) as [u|], (g k_envs) as [v|]; try subst; reflexivity.
  - destruct (f k_langpacks) as [u|], (g k_langpacks) as [v|]; try subst; reflexivity.
  - destruct (f k_blacklist) as [u|], (g k_blacklist) as [v|]; try subst; reflexivity.
  - destruct (f k_whiteout) as [u|], (g k_whiteout) as [v|]; try subst; reflexivity.
Qed.
Lemma same_parts w d x w' x' n n' : inv w -> inv w' -> nth_error (w_docs w) d = Some x -> nth_error (w_docs w') d = Some x' ->
  view w x = Ok n -> view w' x' = Ok n' -> (forall p v, doc_shows w' d p v <-> doc_shows w d p v) -> doc_parts n' = doc_parts n.
Proof.
  intros I I' X X' V V' S. apply parts_shown. intros p.
  destruct (view_spec w x (proj1 (good_at _ _ _ I X))) as (m & E & _ & L & _). rewrite V in E. assert (m = n) by congruence. subst m.
  destruct (view_spec w' x' (proj1 (good_at _ _ _ I' X'))) as (m & E' & _ & L' & _). rewrite V' in E'. assert (m = n') by congruence. subst m.
  rewrite L, L'. apply (doc_shows_fun w d p); [apply S|]; now apply doc_shows_held.
Qed.

(** ** Loading *)
Section Load.
Lemma replaced w e st w' x0 n : inv w -> Forall sound (w_heap w) -> nth_error (w_docs w) e = Some x0 -> replace_doc w e st = Ok w' -> ps_doc st = PLive n -> docwf n ->
  inv w' /\ Forall sound (w_heap w') /\ exists z m, replaced_by w w' e z m /\ docwf m /\ doc_parts m = doc_parts n /\ same_head n m /\ pd_log z = map FromParser (ps_log st).
Proof.
  intros I F X0 E D Hw. destruct (replace_doc_inv _ _ _ _ I E (ex_intro _ _ X0)) as [I' _].
  destruct (replace_shows _ _ _ _ _ I X0 E) as (n' & z & Lb & Z & Lg & Sh & H1 & H2 & H3 & H4 & Ot & Ct).
  assert (n' = n) by (destruct Lb as [Lb|[Lb _]]; congruence). subst n'.
  unfold replace_doc in E. rewrite D in E. cbn [bind] in E.
  destruct (adopt (w_heap w) n (map FromParser (ps_log st))) as [[h z']| |] eqn:A; cbn [bind fst snd] in E; try discriminate.
  pose proof (adopt_sound _ _ _ _ _ Hw F A) as F'. destruct (adopt_all _ _ _ _ _ A) as (_ & _ & _ & Ca & _).
  assert (Ew : w' = with_pd (mkWorld h (w_wraps w) (w_docs w)) e z') by congruence. clear E.
  assert (z' = z). { rewrite Ew in Z. cbn in Z. rewrite set_at_same in Z by (apply nth_lt with x0; exact X0). congruence. } subst z'.
  assert (F2 : Forall sound (w_heap w')) by (rewrite Ew; exact F').
  split; [exact I'|]. split; [exact F2|].
  destruct (view_wf w' e z I' F2 Z) as (m & V & Wm & L & G1 & G2 & G3 & G4). exists z, m.
  split; [|split; [exact Wm|split; [|split; [|exact Lg]]]].
  - split; [exact Z|]. split; [exact V|]. split; [exact Ca|]. split; [exact Ot|]. split; [|exact Ct].
    intros d x Hd X. rewrite Ew. cbn. rewrite set_at_other by congruence. exact X.
  - apply parts_shown. intros p. rewrite L. pose proof (proj1 (Sh p _) (doc_shows_held w' e z p I' Z)) as K.
    unfold doc_part in K. rewrite rt_get_look in K. cbn [bind] in K. congruence.
  - unfold same_head. rewrite G1, G2, G3, G4. auto.
Qed.
Lemma replace_live w e st n : inv w -> e < length (w_docs w) -> ps_doc st = PLive n -> docwf n -> exists w', replace_doc w e st = Ok w'.
Proof.
  intros I L D Hw. unfold replace_doc. rewrite D. cbn [bind]. destruct (adopt_wf (w_heap w) n (map FromParser (ps_log st)) Hw) as (h & x & ->). cbn [bind]. eauto.
Qed.
(** A load that the parser can finish with a document. *)
Lemma load_text w e b o df st c n : inv w -> Forall sound (w_heap w) -> e < length (w_docs w) -> def_arg o = Some (df, false) ->
  TextModel.load_str (parsed_init (Some utf8_name)) b df = Some (Ok (st, c)) -> ps_doc st = PLive n -> docwf n -> (c = 0 \/ c = 1)%Z ->
  exists f w' z m, text_feed b = Some f /\ PyDocModel.load_str false w e f o = Ok (w', DRet (VNum c)) /\ inv w' /\ Forall sound (w_heap w') /\
    replaced_by w w' e z m /\ docwf m /\ doc_parts m = doc_parts n /\ same_head n m /\ pd_log z = map FromParser (ps_log st).
Proof.
  intros I F Le Ho L D Hw Hc. unfold TextModel.load_str in L. unfold text_feed. destruct (r_blocks r0 [b]) as [ess|]; [|discriminate]. cbn [option_map] in *.
  apply Some_inj in L. destruct (replace_live w e st n I Le D Hw) as [w' R].
  destruct (nth_error (w_docs w) e) as [x0|] eqn:X; [|apply nth_error_None in X; lia].
  destruct (replaced w e st w' x0 n I F X R D Hw) as (I' & F' & z & m & Q). exists (concat ess, None), w', z, m. split; [reflexivity|]. split; [|tauto].
  unfold PyDocModel.load_str, at_. rewrite X, Ho. cbn [bind]. rewrite L. cbn [bind fst snd].
  replace (c =? -1)%Z with false by (destruct Hc as [-> | ->]; reflexivity). now rewrite R.
Qed.
Lemma load_bytes w e b o df st c n : inv w -> Forall sound (w_heap w) -> e < length (w_docs w) -> def_arg o = Some (df, false) ->
  TextModel.load_file (parsed_init (Some utf8_name)) b df = Some (Ok (st, c)) -> ps_doc st = PLive n -> docwf n -> (c = 0 \/ c = 1)%Z ->
  exists f w' z m, file_feeds b = Some f /\ PyDocModel.load_file false w e (Some f) o = Ok (w', DRet (VNum c)) /\ inv w' /\ Forall sound (w_heap w') /\
    replaced_by w w' e z m /\ docwf m /\ doc_parts m = doc_parts n /\ same_head n m /\ pd_log z = map FromParser (ps_log st).
Proof.
  intros I F Le Ho L D Hw Hc. unfold TextModel.load_file in L. unfold file_feeds. destruct (r_blocks r0 _) as [ess|]; [|discriminate]. cbn [option_map] in *.
  apply Some_inj in L. destruct (replace_live w e st n I Le D Hw) as [w' R].
  destruct (nth_error (w_docs w) e) as [x0|] eqn:X; [|apply nth_error_None in X; lia].
  destruct (replaced w e st w' x0 n I F X R D Hw) as (I' & F' & z & m & Q). eexists _, w', z, m. split; [reflexivity|]. split; [|tauto].
  unfold PyDocModel.load_file, at_. rewrite X, Ho. cbn [bind].
  match goal with |- context [parse_file ?a ?b ?c ?d] => change (parse_file a b c d) with (parse_file false (parsed_init (Some utf8_name)) (Some (map (fun e => (e, None)) (ess ++ [[]]))) df) end. rewrite L. cbn [bind fst snd]. rewrite R. cbn [bind].
  replace (c =? -1)%Z with false by (destruct Hc as [-> | ->]; reflexivity). reflexivity.
Qed.
End Load.

(** ** Saving and loading *)
(** A document as it is written: a missing encoding is set first (pycomps.c:142-146). *)
Definition encoded (n : doc) : doc := mkDoc (d_objs n) (named (d_enc n)) (d_name n) (d_sysid n) (d_pubid n).
Section Through.
Variable accepts : list (call * bool) -> call -> bool.
Variable text : logitem -> str.
Notation step := (step_doc false accepts text).
Lemma give_ret {R} (pending : bool) (a b : R) : (if pending then DRetSet a else DRet a) = DRet b -> pending = false /\ a = b.
Proof. destruct pending; [discriminate|]. intros E. split; congruence. Qed.
Lemma saved_str w d x o w1 cs : inv w -> Forall sound (w_heap w) -> step w (OSaveStr d x o) = Ok (w1, DRet (VCalls cs)) ->
  inv w1 /\ Forall sound (w_heap w1) /\ exists xo df y n out, xml_arg x = Some xo /\ def_arg o = Some (df, false) /\ nth_error (w_docs w) d = Some y /\ view w y = Ok n /\ docwf n /\
    comps2xml_str accepts xo df n w0 = Ok (out, tt) /\ w_calls out = cs /\ length (w_docs w1) = length (w_docs w) /\ (exists y1, nth_error (w_docs w1) d = Some y1 /\ view w1 y1 = Ok n) /\ (forall d' p v, doc_shows w1 d' p v <-> doc_shows w d' p v).
Proof.
  intros I F E. pose proof (step_sound accepts text w (OSaveStr d x o) w1 _ I F Logic.I E) as F1. destruct (step_inv _ _ _ _ _ _ _ I E) as [I1 _].
  split; [exact I1|]. split; [exact F1|]. pose proof (save_str_result accepts w d x o w1 _ I E) as H.
  destruct (xml_arg x) as [xo|] eqn:Ex; [|destruct H; discriminate]. destruct (def_arg o) as [[df pending]|] eqn:Eo; [|destruct H; discriminate].
  destruct H as (y & n & out & y' & Y & V & C & Ed & _ & _ & R & Sh). symmetry in R. apply give_ret in R. destruct R as [-> R].
  exists xo, df, y, n, out. split; [reflexivity|]. split; [reflexivity|]. split; [exact Y|]. split; [exact V|]. split; [|split; [exact C|split; [congruence|split; [|split; [|exact Sh]]]]].
  - destruct (view_wf w d y I F Y) as (n' & V' & W & _). congruence.
  - rewrite Ed. apply set_at_length.
  - cbn [step_doc] in E. unfold save_str in E. rewrite (proj2 (at_ok _ _ _) Y) in E. cbn [bind] in E. rewrite Ex, Eo, V in E. cbn [bind] in E. rewrite C in E. cbn [bind fst snd] in E.
    assert (Ew : w1 = with_pd w d (with_log_pd y (pd_log y ++ map FromWriter (w_log out)))) by congruence. rewrite Ew.
    eexists. split; [cbn; apply set_at_same, nth_lt with y; exact Y|]. exact V.
Qed.
Theorem string_through w d x o w1 cs e : inv w -> Forall sound (w_heap w) -> step w (OSaveStr d x o) = Ok (w1, DRet (VCalls cs)) ->
  exists xo df y n, xml_arg x = Some xo /\ def_arg o = Some (df, false) /\ nth_error (w_docs w) d = Some y /\ view w y = Ok n /\
    (e < length (w_docs w) -> Forall (fun c => snd c = true) cs -> enc_str n = ! "UTF-8" -> doctype_ok n -> Forall xml_text (strs (map fst cs)) -> parts_fit (doc_parts n) ->
     exists b f w2 z m c, printed (map fst cs) = Some b /\ text_feed b = Some f /\ step w1 (OLoadStr e f o) = Ok (w2, DRet (VNum c)) /\ replaced_by w1 w2 e z m /\
       (forall d' q v, d' <> e -> (doc_shows w2 d' q v <-> doc_shows w d' q v)) /\
       head_carried n m (Some utf8_name) /\ parts_read (RD := squeeze_reader) (opt_dopts df) (opt_xopts xo) (doc_parts n) (doc_parts m) c /\ (pd_log z = [] <-> c = 0%Z)).
Proof.
  intros I F E. destruct (saved_str _ _ _ _ _ _ I F E) as (I1 & F1 & xo & df & y & n & out & Ex & Eo & Y & V & W & C & Ec & Ln & _ & Sh).
  exists xo, df, y, n. do 4 (split; [assumption|]). intros Le Ha He Hd Hx Hf.
  assert (Ecs : map fst cs = calls out) by (unfold calls; now rewrite Ec). rewrite Ecs in *. rewrite <- Ec in Ha.
  destruct (str_again accepts xo df n out (Some utf8_name) W Hf C Ha He Hd Hx) as (b & st & c & Eb & El & n' & D & Wn & Hh & Hl & Pr).
  assert (Hc : (c = 0 \/ c = 1)%Z) by (destruct Pr as (? & ? & ? & Pr); tauto).
  rewrite <- Ln in Le. destruct (load_text w1 e b o df st c n' I1 F1 Le Eo El D Wn Hc) as (f & w2 & z & m & Ef & Es & _ & _ & R & _ & Pm & (G1 & G2 & G3 & G4) & Lg).
  exists b, f, w2, z, m, c. split; [exact Eb|]. split; [exact Ef|]. split; [exact Es|]. split; [exact R|]. split; [|split; [|split]].
  - intros d' q v Hd'. rewrite <- Sh. now apply R.
  - destruct Hh as (K1 & K2 & K3 & K4). unfold head_carried. rewrite G1, G2, G3, G4. auto.
  - rewrite Pm. exact Pr.
  - rewrite <- Hl, Lg. destruct (ps_log st); cbn; split; congruence.
Qed.
Lemma saved_file w d name saved x o w1 ts : inv w -> Forall sound (w_heap w) -> step w (OSaveFile d name saved x o) = Ok (w1, DRet (VTexts ts)) ->
  inv w1 /\ Forall sound (w_heap w1) /\ exists xo df y n out c, xml_arg x = Some xo /\ def_arg o = Some (df, false) /\ nth_error (w_docs w) d = Some y /\ view w y = Ok n /\ docwf (encoded n) /\
    comps2xml_f accepts name saved xo df (encoded n) w0 = Ok (out, c) /\ length (w_docs w1) = length (w_docs w) /\ (forall d' p v, doc_shows w1 d' p v <-> doc_shows w d' p v).
Proof.
  intros I F E. pose proof (step_sound accepts text w (OSaveFile d name saved x o) w1 _ I F Logic.I E) as F1. destruct (step_inv _ _ _ _ _ _ _ I E) as [I1 _].
  split; [exact I1|]. split; [exact F1|]. pose proof (save_file_result accepts text w d name saved x o w1 _ I E) as H.
  destruct (xml_arg x) as [xo|] eqn:Ex; [|destruct H; discriminate]. destruct (def_arg o) as [[df pending]|] eqn:Eo; [|destruct H; discriminate].
  destruct H as (y & n & out & c & y' & Y & V & C & Ed & _ & _ & _ & _ & R & Sh). symmetry in R. apply give_ret in R. destruct R as [R _]. apply orb_false_iff in R. destruct R as [-> _].
  exists xo, df, y, n, out, c. split; [reflexivity|]. split; [reflexivity|]. split; [exact Y|]. split; [exact V|]. split; [|split; [exact C|split; [|exact Sh]]].
  - destruct (view_wf w d y I F Y) as (n' & V' & W & _). assert (n' = n) by congruence. subst n'. exact W.
  - rewrite Ed. apply set_at_length.
Qed.
Theorem file_through w d name saved x o w1 ts e : inv w -> Forall sound (w_heap w) -> step w (OSaveFile d name saved x o) = Ok (w1, DRet (VTexts ts)) ->
  exists xo df y n out r, xml_arg x = Some xo /\ def_arg o = Some (df, false) /\ nth_error (w_docs w) d = Some y /\ view w y = Ok n /\ comps2xml_f accepts name saved xo df (encoded n) w0 = Ok (out, r) /\
    (e < length (w_docs w) -> Forall (fun c => snd c = true) (w_calls out) -> enc_str (encoded n) = ! "UTF-8" -> doctype_ok n -> Forall xml_text (strs (calls out)) -> parts_fit (doc_parts n) ->
     exists b f w2 z m c, printed (calls out) = Some b /\ file_feeds b = Some f /\ step w1 (OLoadFile e (Some f) o) = Ok (w2, DRet (VNum c)) /\ replaced_by w1 w2 e z m /\
       (forall d' q v, d' <> e -> (doc_shows w2 d' q v <-> doc_shows w d' q v)) /\
       head_carried n m (Some utf8_name) /\ parts_read (RD := thin_reader) (opt_dopts df) (opt_xopts xo) (doc_parts n) (doc_parts m) c /\ (pd_log z = [] <-> c = 0%Z)).
Proof.
  intros I F E. destruct (saved_file _ _ _ _ _ _ _ _ I F E) as (I1 & F1 & xo & df & y & n & out & r & Ex & Eo & Y & V & W & C & Ln & Sh).
  exists xo, df, y, n, out, r. do 5 (split; [assumption|]). intros Le Ha He Hd Hx Hf.
  destruct (any_file accepts name saved xo df (encoded n) out r (parsed_init (Some utf8_name)) W Hf C Ha He Hd Hx) as (b & st & c & Eb & El & _ & n' & D & Wn & Hh & Hl & Pr); [split; [reflexivity|discriminate]|].
  assert (Hc : (c = 0 \/ c = 1)%Z) by (destruct Pr as (? & ? & ? & Pr); tauto).
  rewrite <- Ln in Le. destruct (load_bytes w1 e b o df st c n' I1 F1 Le Eo El D Wn Hc) as (f & w2 & z & m & Ef & Es & _ & _ & R & _ & Pm & (G1 & G2 & G3 & G4) & Lg).
  exists b, f, w2, z, m, c. split; [exact Eb|]. split; [exact Ef|]. split; [exact Es|]. split; [exact R|]. split; [|split; [|split]].
  - intros d' q v Hd'. rewrite <- Sh. now apply R.
  - destruct Hh as (K1 & K2 & K3 & K4). unfold head_carried. rewrite G1, G2, G3, G4. auto.
  - rewrite Pm. exact Pr.
  - rewrite <- Hl, Lg. destruct (ps_log st); cbn; split; congruence.
Qed.
(** ** The loaded document equals the saved one *)
Theorem string_same w d x o w1 cs e : inv w -> Forall sound (w_heap w) -> step w (OSaveStr d x o) = Ok (w1, DRet (VCalls cs)) ->
  exists xo df y n, xml_arg x = Some xo /\ def_arg o = Some (df, false) /\ nth_error (w_docs w) d = Some y /\ view w y = Ok n /\
    (e < length (w_docs w) -> e <> d -> Forall (fun c => snd c = true) cs -> d_enc n = Some (Some utf8_name) -> doctype_ok n -> Forall xml_text (strs (map fst cs)) ->
     parts_normal (opt_xopts xo) (doc_parts n) -> parts_exact (opt_xopts xo) (doc_parts n) -> Forall TextFacts5.solid (texts_of (map fst cs)) ->
     exists b f w2 y2 z, printed (map fst cs) = Some b /\ text_feed b = Some f /\ step w1 (OLoadStr e f o) = Ok (w2, DRet (VNum 0)) /\
       nth_error (w_docs w2) d = Some y2 /\ nth_error (w_docs w2) e = Some z /\ pd_log z = [] /\
       compare w2 OpEq y2 (DSame z) = Ok (DAnswer true) /\ compare w2 OpEq z (DSame y2) = Ok (DAnswer true)).
Proof.
  intros I F E. destruct (saved_str _ _ _ _ _ _ I F E) as (I1 & F1 & xo & df & y & n & out & Ex & Eo & Y & V & W & C & Ec & Ln & (y1 & Y1 & V1) & Sh).
  exists xo, df, y, n. do 4 (split; [assumption|]). intros Le Ne Ha He Hd Hx Hn Hex Hs.
  assert (Ecs : map fst cs = calls out) by (unfold calls; now rewrite Ec). rewrite Ecs in *. rewrite <- Ec in Ha.
  assert (Hp : printable xo df n (calls out)) by (repeat split; auto; [right; eauto|]; unfold enc_str; rewrite He; reflexivity).
  destruct (printable_bytes _ _ _ _ Hp) as (b & Hb & _).
  assert (He' : enc_str n = ! "UTF-8") by (unfold enc_str; rewrite He; reflexivity).
  destruct (str_round xo df n (calls out) b (Some utf8_name) W Hn (ex_intro _ accepts (ex_intro _ out (conj C (conj Ha eq_refl)))) He' Hd Hx Hs Hb) as (st & n' & El & Lg & D & Wn & Hh & Pc).
  rewrite <- Ln in Le. destruct (load_text w1 e b o df st 0 n' I1 F1 Le Eo El D Wn (or_introl eq_refl)) as (f & w2 & z & m & Ef & Es & I2 & F2 & R & Wm & Pm & G & Lz).
  rewrite Lg in Lz. pose proof R as (Z & Vz & _ & Sh2 & Dt & _). assert (Ned : d <> e) by congruence.
  pose proof (Dt d y1 Ned Y1) as Y2. destruct (view_wf w2 d y1 I2 F2 Y2) as (n2 & V2 & W2 & L2 & K1 & K2 & K3 & K4).
  destruct (view_wf w1 d y1 I1 F1 Y1) as (n1 & V1' & _ & _ & J1 & J2 & J3 & J4). assert (n1 = n) by congruence. subst n1.
  assert (P2 : doc_parts n2 = doc_parts n) by (apply (same_parts w1 d y1 w2 y1); auto).
  assert (S : docs_same n2 m).
  { assert (S0 : docs_same n n') by (apply (carried_same (opt_dopts df) (opt_xopts xo) n n' (Some utf8_name)); auto).
    destruct G as (G1 & G2 & G3 & G4). destruct S0 as (A1 & A2 & A3 & A4 & A). unfold docs_same. rewrite P2, Pm.
    split; [congruence|]. split; [congruence|]. split; [congruence|]. split; [congruence|exact A]. }
  exists b, f, w2, y1, z. split; [exact Hb|]. split; [exact Ef|]. split; [exact Es|]. split; [exact Y2|]. split; [exact Z|]. split; [exact Lz|].
  destruct (compare_iff w2 d e y1 z n2 m I2 F2 Y2 Z V2 Vz) as (c1 & Q1 & _ & Q2). destruct (compare_iff w2 e d z y1 m n2 I2 F2 Z Y2 Vz V2) as (c2 & Q3 & _ & Q4).
  split; [rewrite Q1; do 2 f_equal; now apply Q2|]. rewrite Q3. do 2 f_equal. apply Q4. now apply docs_same_equiv.
Qed.
End Through.
