(** The reader of TextModel on printed documents, in blocks; the printed bytes are
    XML characters; saved documents have the shape needed. *)
From Coq Require Import NArith.
From Verif Require Import CStr CStrFacts ObjModel ParseModel XmlModel XmlFacts SpecF SpecG SpecG2 SpecG7
  Utf8Facts TextModel TextFacts TextFacts2.

(** ** The head of a file *)
Definition calmb (st : rs) : bool := match r_mode st with MText (_ :: _) => false | _ => true end.
Lemma calmb_calm st : calmb st = true -> calm st.
Proof. unfold calmb, calm. destruct (r_mode st) as [[|]| | | | | | | | | | | |]; intros E; try exact I. discriminate. Qed.
Fixpoint calmsb (st : rs) (s : str) : option (rs * list event) :=
  if calmb st then
    match s with
    | [] => Some (st, [])
    | c :: r => match r_step st c with
                | Some (st1, e1) => match calmsb st1 r with Some (st2, e2) => Some (st2, e1 ++ e2) | None => None end
                | None => None
                end
    end
  else None.
Lemma calmsb_calms s : forall st st' es, calmsb st s = Some (st', es) -> calms st s st' es.
Proof.
  induction s as [|c s IH]; intros st st' es; cbn [calmsb]; destruct (calmb st) eqn:Ec; try discriminate; apply calmb_calm in Ec.
  - intros E. injection E as <- <-. now constructor.
  - destruct (r_step st c) as [[st1 e1]|] eqn:E1; [|discriminate]. destruct (calmsb st1 s) as [[st2 e2]|] eqn:E2; [|discriminate].
    intros E. injection E as <- <-. eapply K_cons; eauto.
Qed.
Definition quote (c : ascii) : Prop := c = DQ \/ c = SQ.
Definition decl_char (c : ascii) : Prop := ~ quote c /\ c <> ">"%char /\ c <> "<"%char /\ c <> "["%char.
Lemma calms_decl w : forall raw st, Forall decl_char w -> calms (in_mode (MDecl raw None) st) w (in_mode (MDecl (raw ++ w) None) st) [].
Proof.
  induction w as [|c w IH]; intros raw st H; [rewrite app_nil_r; now constructor|]. apply Forall_cons_iff in H. destruct H as [(H1 & H2 & H3 & H4) H].
  apply calms_cons with (st1 := in_mode (MDecl (raw ++ [c]) None) st); [exact I| |change (c :: w) with ([c] ++ w); rewrite app_assoc; now apply IH].
  unfold r_step. st_simpl. apply Ascii.eqb_neq in H2, H3, H4. rewrite H2, H3, H4. cbn [orb].
  destruct (Ascii.eqb_spec c DQ) as [E|_]; [elim H1; now left|]. destruct (Ascii.eqb_spec c SQ) as [E|_]; [elim H1; now right|]. reflexivity.
Qed.
Lemma calms_decl_in q w : forall raw st, ~ In q w -> calms (in_mode (MDecl raw (Some q)) st) (w ++ [q]) (in_mode (MDecl (raw ++ w ++ [q]) None) st) [].
Proof.
  induction w as [|c w IH]; intros raw st H; cbn [app].
  - apply calms_step; [exact I| |exact I]. unfold r_step. st_simpl. now rewrite Ascii.eqb_refl.
  - apply calms_cons with (st1 := in_mode (MDecl (raw ++ [c]) (Some q)) st); [exact I| |].
    + unfold r_step. st_simpl. destruct (Ascii.eqb_spec c q) as [->|_]; [elim H; now left|reflexivity].
    + change (c :: w ++ [q]) with ([c] ++ (w ++ [q])). rewrite app_assoc. apply IH. intros Hi. apply H. now right.
Qed.
Lemma calms_decl_quoted q w raw st : quote q -> ~ In q w -> calms (in_mode (MDecl raw None) st) (q :: w ++ [q]) (in_mode (MDecl (raw ++ q :: w ++ [q]) None) st) [].
Proof.
  intros Hq Hw. apply calms_cons with (st1 := in_mode (MDecl (raw ++ [q]) (Some q)) st); [exact I|destruct Hq as [->| ->]; reflexivity|].
  change (q :: w ++ [q]) with ([q] ++ (w ++ [q])). rewrite app_assoc. now apply calms_decl_in.
Qed.
Lemma calms_two st a st1 b st2 : calms st a st1 [] -> calms st1 b st2 [] -> calms st (a ++ b) st2 [].
Proof. intros H1 H2. change (@nil event) with (@nil event ++ []). eapply calms_app; eauto. Qed.
Lemma name_decl n : Forall (fun c => name_char c = true) n -> Forall decl_char n.
Proof.
  intros H. eapply Forall_impl; [|exact H]. intros c Hc. repeat split; try (intros ->; discriminate). intros [->| ->]; discriminate.
Qed.
(** Words of a declaration. *)
Definition word_char (c : ascii) : Prop := xml_space c = false /\ ~ quote c.
Lemma dw_plain w : forall cur r, Forall word_char w -> decl_words cur None (w ++ r) = decl_words (cur ++ w) None r.
Proof.
  induction w as [|c w IH]; intros cur r H; [now rewrite app_nil_r|]. apply Forall_cons_iff in H. destruct H as [[H1 H2] H]. cbn [app decl_words]. rewrite H1.
  destruct (Ascii.eqb_spec c DQ) as [E|_]; [elim H2; now left|]. destruct (Ascii.eqb_spec c SQ) as [E|_]; [elim H2; now right|]. cbn [orb].
  rewrite IH by exact H. now rewrite <- app_assoc.
Qed.
Lemma dw_space c w r : decl_words (c :: w) None (" "%char :: r) = option_map (cons (false, c :: w)) (decl_words [] None r).
Proof. reflexivity. Qed.
Lemma dw_space0 r : decl_words [] None (" "%char :: r) = option_map (fun l => l) (decl_words [] None r).
Proof. reflexivity. Qed.
Lemma dw_in q w : forall cur r, ~ In q w -> decl_words cur (Some q) (w ++ q :: r) = option_map (cons (true, cur ++ w)) (decl_words [] None r).
Proof.
  induction w as [|c w IH]; intros cur r H; cbn [app decl_words].
  - now rewrite Ascii.eqb_refl, app_nil_r.
  - destruct (Ascii.eqb_spec c q) as [->|_]; [elim H; now left|]. rewrite IH by (intros Hi; apply H; now right). now rewrite <- app_assoc.
Qed.
Lemma dw_quote q w r : quote q -> ~ In q w -> decl_words [] None (q :: w ++ q :: r) = option_map (cons (true, w)) (decl_words [] None r).
Proof.
  intros Hq Hw. rewrite <- (app_nil_l w) at 2. rewrite <- (dw_in q w [] r Hw). destruct Hq as [->| ->]; cbn [decl_words xml_space Ascii.eqb Bool.eqb orb];
    [change (xml_space DQ) with false|change (xml_space SQ) with false]; cbn [Ascii.eqb Bool.eqb orb]; cbn; now destruct (decl_words _ _ _).
Qed.
Lemma name_word n : Forall (fun c => name_char c = true) n -> Forall word_char n.
Proof.
  intros H. eapply Forall_impl; [|exact H]. intros c Hc. split.
  - unfold xml_space. destruct (Ascii.eqb_spec c " ") as [->|_]; [discriminate|]. destruct (Ascii.eqb_spec c TAB) as [->|_]; [discriminate|].
    destruct (Ascii.eqb_spec c LF) as [->|_]; [discriminate|]. destruct (Ascii.eqb_spec c CR) as [->|_]; [discriminate|]. reflexivity.
  - intros [->| ->]; discriminate.
Qed.
(** Document types that can be written and read. *)
Definition quotable (s : str) : Prop := ~ (In DQ s /\ In SQ s).
Definition pubid_ok (p : str) : Prop := Forall (fun c => pubid_char c = true) p /\ norm_pubid true p = p.
Definition dtd_ok (n p s : ostr) : Prop :=
  match n, p, s with
  | Some n, Some p, Some s => okname n /\ pubid_ok p /\ quotable s
  | Some n, None, Some s => okname n /\ quotable s
  | Some n, None, None => okname n
  | _, _, _ => False
  end.
Lemma existsb_eqb q s : existsb (Ascii.eqb q) s = true <-> In q s.
Proof.
  rewrite existsb_exists. split; [|intros H; exists q; split; [exact H|apply Ascii.eqb_refl]]. intros (x & Hx & E). apply Ascii.eqb_eq in E. now subst.
Qed.
Lemma quoted_ok s : quotable s -> exists q, quote q /\ ~ In q s /\ quoted s = q :: s ++ [q].
Proof.
  intros H. unfold quoted. destruct (existsb (Ascii.eqb DQ) s) eqn:E1.
  - apply existsb_eqb in E1. destruct (existsb (Ascii.eqb SQ) s) eqn:E2; [apply existsb_eqb in E2; now elim H|].
    exists SQ. split; [now right|]. split; [|reflexivity]. intros Hi. apply existsb_eqb in Hi. congruence.
  - exists DQ. split; [now left|]. split; [|reflexivity]. intros Hi. apply existsb_eqb in Hi. congruence.
Qed.
Lemma pubid_quotable p : Forall (fun c => pubid_char c = true) p -> quotable p.
Proof. intros H [Hd _]. rewrite Forall_forall in H. specialize (H _ Hd). discriminate. Qed.
(** The same for public ids in any form. *)
Definition dtd_ok2 (n p s : ostr) : Prop :=
  match n, p, s with
  | Some n, Some p, Some s => okname n /\ Forall (fun c => pubid_char c = true) p /\ quotable s
  | _, _, _ => dtd_ok n p s
  end.
Lemma dtd_read_any n p s st : dtd_ok2 n p s -> exists w raw, dtd_bytes n p s = Some (! "<!" ++ w ++ ! ">") /\
  calms (in_mode (MDecl [] None) st) w (in_mode (MDecl raw None) st) [] /\ doctype_of raw = Some (EDoctype n s (option_map (norm_pubid true) p)).
Proof.
  destruct n as [n|]; [|now intros []]. destruct p as [p|], s as [s|]; cbn [dtd_ok2 dtd_ok dtd_bytes option_map].
  - intros ([Hn Hc] & Hp & Hs). destruct (quoted_ok p (pubid_quotable p Hp)) as (q1 & Q1 & N1 & ->). destruct (quoted_ok s Hs) as (q2 & Q2 & N2 & ->).
    set (w := ! "DOCTYPE" ++ ! " " ++ n ++ ! " PUBLIC " ++ (q1 :: p ++ [q1]) ++ ! " " ++ (q2 :: s ++ [q2])).
    exists w, w. split; [f_equal; subst w; cbn [list_ascii_of_string app]; repeat (rewrite <- app_assoc; cbn [app]); reflexivity|]. split.
    + subst w. assert (D : forall x, Forall decl_char x -> forall raw, calms (in_mode (MDecl raw None) st) x (in_mode (MDecl (raw ++ x) None) st) []) by (intros; now apply calms_decl).
      assert (L : forall x y, Forall decl_char x -> (forall raw, calms (in_mode (MDecl raw None) st) y (in_mode (MDecl (raw ++ y) None) st) []) -> forall raw, calms (in_mode (MDecl raw None) st) (x ++ y) (in_mode (MDecl (raw ++ x ++ y) None) st) []).
      { intros x y Hx Hy raw. eapply calms_two; [apply D, Hx|]. rewrite app_assoc. apply Hy. }
      assert (L2 : forall x y, (forall raw, calms (in_mode (MDecl raw None) st) x (in_mode (MDecl (raw ++ x) None) st) []) -> (forall raw, calms (in_mode (MDecl raw None) st) y (in_mode (MDecl (raw ++ y) None) st) []) -> forall raw, calms (in_mode (MDecl raw None) st) (x ++ y) (in_mode (MDecl (raw ++ x ++ y) None) st) []).
      { intros x y Hx Hy raw. eapply calms_two; [apply Hx|]. rewrite app_assoc. apply Hy. }
      assert (F : forall x, forallb (fun c => negb (Ascii.eqb c DQ || Ascii.eqb c SQ || Ascii.eqb c ">" || Ascii.eqb c "<" || Ascii.eqb c "[")) x = true -> Forall decl_char x).
      { intros x Hx. apply Forall_forall. intros c Hi. rewrite forallb_forall in Hx. specialize (Hx c Hi). apply negb_true_iff in Hx. rewrite !orb_false_iff, !Ascii.eqb_neq in Hx.
        destruct Hx as ((((X1 & X2) & X3) & X4) & X5). repeat split; auto. intros [?|?]; contradiction. }
      change [] with (@nil ascii) at 1. match goal with |- calms (in_mode (MDecl [] None) st) ?y (in_mode (MDecl ?z None) st) [] => change (calms (in_mode (MDecl [] None) st) y (in_mode (MDecl ([] ++ y) None) st) []) end.
      apply L; [now apply F|]. apply L; [now apply F|]. apply L; [now apply name_decl|]. apply L; [now apply F|]. apply L2; [intros raw; now apply calms_decl_quoted|].
      apply L; [now apply F|]. intros raw. now apply calms_decl_quoted.
    + subst w. unfold doctype_of. rewrite dw_plain by (repeat constructor; try (intros [E|E]; discriminate E)). cbn [app].
      match goal with |- context [decl_words (! "DOCTYPE") None (! " " ++ ?r)] => change (decl_words (! "DOCTYPE") None (! " " ++ r)) with (option_map (cons (false, ! "DOCTYPE")) (decl_words [] None r)) end.
      destruct n as [|c n]; [congruence|]. rewrite dw_plain by now apply name_word. cbn [app].
      match goal with |- context [decl_words (c :: n) None (! " PUBLIC " ++ ?r)] => change (decl_words (c :: n) None (! " PUBLIC " ++ r)) with (option_map (cons (false, c :: n)) (option_map (cons (false, ! "PUBLIC")) (decl_words [] None r))) end.
      replace (q1 :: (p ++ [q1]) ++ ! " " ++ q2 :: s ++ [q2]) with (q1 :: p ++ q1 :: (" "%char :: q2 :: s ++ q2 :: [])) by (cbn [app list_ascii_of_string]; now rewrite <- app_assoc).
      rewrite dw_quote by assumption. rewrite dw_space0, dw_quote by assumption. cbn [decl_words option_map].
      cbn [app]. change (streq (! "DOCTYPE") (! "DOCTYPE")) with true. assert (Hf : forallb name_char (c :: n) = true) by (apply forallb_forall; now apply Forall_forall). rewrite Hf.
      cbn [andb]. change (streq (! "PUBLIC") (! "PUBLIC")) with true. assert (Hg : forallb pubid_char p = true) by (apply forallb_forall; now apply Forall_forall). now rewrite Hg.
  - intros [].
  - intros ([Hn Hc] & Hs). destruct (quoted_ok s Hs) as (q2 & Q2 & N2 & ->).
    exists (! "DOCTYPE " ++ n ++ ! " SYSTEM " ++ (q2 :: s ++ [q2])), (! "DOCTYPE " ++ n ++ ! " SYSTEM " ++ (q2 :: s ++ [q2])).
    split; [f_equal; cbn [list_ascii_of_string app]; repeat (rewrite <- app_assoc; cbn [app]); reflexivity|]. split.
    + eapply calms_two; [apply (calms_decl (! "DOCTYPE ") [] st); repeat constructor; try discriminate; intros [E|E]; discriminate E|].
      eapply calms_two; [apply calms_decl; now apply name_decl|].
      eapply calms_two; [apply (calms_decl (! " SYSTEM ") _ st); repeat constructor; try discriminate; intros [E|E]; discriminate E|].
      cbn [app]. replace (! "DOCTYPE " ++ n ++ ! " SYSTEM " ++ q2 :: s ++ [q2]) with (((! "DOCTYPE " ++ n) ++ ! " SYSTEM ") ++ q2 :: s ++ [q2]) by now rewrite <- !app_assoc.
      now apply calms_decl_quoted.
    + unfold doctype_of.
      match goal with |- context [decl_words [] None (! "DOCTYPE " ++ ?r)] => change (decl_words [] None (! "DOCTYPE " ++ r)) with (option_map (cons (false, ! "DOCTYPE")) (decl_words [] None r)) end.
      destruct n as [|c n]; [congruence|]. rewrite dw_plain by now apply name_word. cbn [app].
      match goal with |- context [decl_words (c :: n) None (! " SYSTEM " ++ ?r)] => change (decl_words (c :: n) None (! " SYSTEM " ++ r)) with (option_map (cons (false, c :: n)) (option_map (cons (false, ! "SYSTEM")) (decl_words [] None r))) end.
      rewrite dw_quote by assumption. cbn [decl_words option_map].
      change (streq (! "DOCTYPE") (! "DOCTYPE")) with true. assert (Hf : forallb name_char (c :: n) = true) by (apply forallb_forall; now apply Forall_forall). rewrite Hf.
      reflexivity.
  - intros [Hn Hc]. exists (! "DOCTYPE " ++ n), (! "DOCTYPE " ++ n).
    split; [f_equal; cbn [list_ascii_of_string app]; repeat (rewrite <- app_assoc; cbn [app]); reflexivity|]. split.
    + eapply calms_two; [apply (calms_decl (! "DOCTYPE ") [] st); repeat constructor; try discriminate; intros [E|E]; discriminate E|].
      cbn [app]. apply calms_decl. now apply name_decl.
    + unfold doctype_of.
      match goal with |- context [decl_words [] None (! "DOCTYPE " ++ ?r)] => change (decl_words [] None (! "DOCTYPE " ++ r)) with (option_map (cons (false, ! "DOCTYPE")) (decl_words [] None r)) end.
      destruct n as [|c n]; [congruence|]. rewrite <- (app_nil_r (c :: n)), dw_plain by now apply name_word. cbn [app decl_words option_map].
      change (streq (! "DOCTYPE") (! "DOCTYPE")) with true. assert (Hf : forallb name_char (c :: n) = true) by (apply forallb_forall; now apply Forall_forall). rewrite app_nil_r, Hf. reflexivity.
Qed.
Lemma dtd_read n p s st : dtd_ok n p s -> exists w raw, dtd_bytes n p s = Some (! "<!" ++ w ++ ! ">") /\
  calms (in_mode (MDecl [] None) st) w (in_mode (MDecl raw None) st) [] /\ doctype_of raw = Some (EDoctype n s p).
Proof.
  intros H. destruct (dtd_read_any n p s st) as (w & raw & E1 & C & E2); [destruct n, p, s; cbn [dtd_ok dtd_ok2] in *; try exact H; unfold pubid_ok in H; tauto|].
  exists w, raw. split; [exact E1|]. split; [exact C|]. rewrite E2. destruct n, p, s; cbn [dtd_ok option_map] in *; try reflexivity; try contradiction; destruct H as (_ & [_ Hq] & _); now rewrite Hq.
Qed.

(** ** Whole files *)
Definition file_calls (n p s : ostr) (t : xml) : list call := WStartDoc (! "UTF-8") :: dtd_calls n p s ++ ser t ++ [WEndDoc].
Definition xml_head : str := ! "<?xml version=" ++ DQ :: ! "1.0" ++ DQ :: ! " encoding=" ++ DQ :: ! "UTF-8" ++ DQ :: ! "?>" ++ [LF].
Lemma printed_file n p s t d : shaped t -> dtd_bytes n p s = Some d -> printed (file_calls n p s t) = Some (xml_head ++ d ++ LF :: print true 0 t ++ [LF]).
Proof.
  intros Ht Hd. unfold file_calls, dtd_calls, printed. cbn [app]. rewrite Hd. 
  assert (Et : build [] (ser t ++ [WEndDoc]) = Some (t, [WEndDoc])) by (destruct Ht; apply build_root). rewrite Et. reflexivity.
Qed.
Section Doc.
Variable P : list (option ascii) -> Prop.
Hypotheses (P_nil : P []) (P_app : forall a b, P (a ++ b) -> P a /\ P b).
Lemma file_read n p s t b l : shaped t -> dtd_ok n p s -> printed (file_calls n p s t) = Some b -> bytes l = b -> P l ->
  exists es, r_run r0 l = Some (mkR (MText []) [] true true, es) /\ heard_by (cut_by P) [] (file_calls n p s t) es.
Proof.
  intros Ht Hd Hb El HP. destruct (dtd_read n p s (mkR (MText []) [] false false) Hd) as (w & raw & Ed & C & Er).
  rewrite (printed_file n p s t _ Ht Ed) in Hb. injection Hb as Hb. destruct (print_lt 0 t Ht) as (pt & Ept).
  assert (E : bytes l = ((xml_head ++ ! "<!") ++ w ++ (">"%char :: LF :: ["<"%char])) ++ pt ++ [LF]).
  { rewrite El, <- Hb, Ept. repeat (rewrite <- app_assoc; cbn [app list_ascii_of_string]). reflexivity. }
  clear El Hb. apply bytes_split in E. destruct E as (l1 & l2 & -> & E1 & E2). apply bytes_split in E2. destruct E2 as (l3 & l4 & -> & E3 & E4).
  apply P_app in HP. destruct HP as [_ HP]. apply P_app in HP. destruct HP as [HP _].
  destruct (tree_reads P P_nil P_app t Ht 0 l3 [] false true HP) as (es & R & K); [rewrite E3; now rewrite Ept|now right|].
  exists (EDoctype n s p :: es). split.
  - change (EDoctype n s p :: es) with ([EDoctype n s p] ++ es). eapply run_two; [refine (calms_run _ _ _ _ l1 _ E1)|].
    + change [EDoctype n s p] with ([] ++ [] ++ [EDoctype n s p]). eapply calms_app; [apply calmsb_calms; vm_compute; reflexivity|]. eapply calms_app; [exact C|].
      change [EDoctype n s p] with ([EDoctype n s p] ++ [] ++ [] ++ []). eapply K_cons; [exact I| |].
      * unfold r_step. st_simpl. cbn [Ascii.eqb Bool.eqb]. rewrite Er. reflexivity.
      * eapply K_cons; [exact I|reflexivity|]. eapply K_cons; [exact I|reflexivity|]. constructor. exact I.
    + rewrite <- (app_nil_r es). eapply run_two; [exact R|]. refine (calms_run _ _ _ _ l4 _ E4). apply calms_step; [exact I|reflexivity|exact I].
  - unfold file_calls, dtd_calls. cbn [app]. apply B_startdoc, B_dtd. rewrite <- (app_nil_r es). apply K; [exact I|]. repeat constructor.
Qed.
End Doc.
Lemma blocks_run bs : forall st st' es, r_run st (flat_map block bs) = Some (st', es) -> r_mode st' = MText [] -> r_open st' = [] -> r_root st' = true ->
  exists ess, r_blocks st bs = Some ess /\ concat ess = es.
Proof.
  induction bs as [|b bs IH]; intros st st' es E Hm Ho Hr; cbn [flat_map r_blocks] in *.
  - cbn in E. injection E as -> <-. rewrite Hm, Ho, Hr. now exists [].
  - rewrite run_app in E. destruct (r_run st (block b)) as [[st1 e1]|]; [|discriminate]. destruct (r_run st1 (flat_map block bs)) as [[st2 e2]|] eqn:E2; [|discriminate].
    injection E as -> <-. destruct (IH st1 st' e2 E2 Hm Ho Hr) as (ess & -> & <-). now exists (e1 :: ess).
Qed.
Lemma bytes_blocks bs : bytes (flat_map block bs) = concat bs.
Proof. induction bs as [|b bs IH]; [reflexivity|]. cbn [flat_map concat]. unfold block at 1. rewrite !bytes_app, bytes_some, IH. cbn [bytes flat_map]. now rewrite app_nil_r. Qed.
