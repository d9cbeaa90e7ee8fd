(** The reader of TextModel on printed trees and documents. *)
From Verif Require Import CStr CStrFacts ParseModel XmlModel XmlFacts SpecF SpecG SpecG2 SpecG7 Utf8Facts TextModel TextFacts.

(** As [heard] (SpecG2), with [ok] saying into which pieces a text may be cut. *)
Inductive heard_by (ok : str -> list str -> Prop) : list str -> list call -> list event -> Prop :=
| B_end : heard_by ok [] [] []
| B_blank o cs s es : blank s -> heard_by ok o cs es -> heard_by ok o cs (EChars s :: es)
| B_startdoc e cs es : heard_by ok [] cs es -> heard_by ok [] (WStartDoc e :: cs) es
| B_enddoc cs es : heard_by ok [] cs es -> heard_by ok [] (WEndDoc :: cs) es
| B_dtd n p s cs es : heard_by ok [] cs es -> heard_by ok [] (WDTD n p s :: WEndDTD :: cs) (EDoctype n s p :: es)
| B_start o n a cs es : no_attr cs -> heard_by ok (n :: o) cs es -> heard_by ok o (WStart n :: map attr_call a ++ cs) (EStart n a :: es)
| B_text o s ch cs es : ok s ch -> heard_by ok o cs es -> heard_by ok o (WText s :: cs) (map EChars ch ++ es)
| B_close o n cs es : heard_by ok o cs es -> heard_by ok (n :: o) (WEnd :: cs) (EEnd n :: es).
Lemma texts_attrs a cs : texts_of (map attr_call a ++ cs) = texts_of cs.
Proof. induction a as [|[k v] a IH]; cbn; auto. Qed.
Lemma heard_by_imp (ok1 ok2 : str -> list str -> Prop) o cs es : heard_by ok1 o cs es ->
  (forall s ch, In s (texts_of cs) -> ok1 s ch -> ok2 s ch) -> heard_by ok2 o cs es.
Proof.
  induction 1 as [|o cs s es Hb _ IH|e cs es _ IH|cs es _ IH|n p s cs es _ IH|o n a cs es Hn _ IH|o s ch cs es Hs _ IH|o n cs es _ IH]; intros HI;
    try (constructor; auto; fail).
  - constructor; [exact Hn|]. apply IH. intros s ch Hs. apply HI. cbn [texts_of flat_map app]. fold (texts_of (map attr_call a ++ cs)). now rewrite texts_attrs.
  - constructor; [apply HI; [now left|exact Hs]|]. apply IH. intros s' ch' Hs'. apply HI. now right.
Qed.
Lemma heard_by_heard o cs es : heard_by (fun s ch => concat ch = s /\ Forall (fun c => ~ blank c) ch) o cs es -> heard o cs es.
Proof. induction 1; try (constructor; auto; fail). destruct H. now constructor. Qed.
Lemma heard_by_any o cs es : heard_by (fun s ch => concat ch = s /\ Forall (fun c => c <> []) ch) o cs es -> heard_any o cs es.
Proof. induction 1; try (constructor; auto; fail). destruct H. now constructor. Qed.
Lemma by_blanks ok bl o cs es : blanks bl -> heard_by ok o cs es -> heard_by ok o cs (map EChars bl ++ es).
Proof. induction 1; cbn [map app]; [auto|]. intros He. constructor; auto. Qed.

(** Trees with the shape and the names of saved documents. *)
Definition okattrs (a : list (str * str)) : Prop := Forall (fun kv => okname (fst kv)) a /\ NoDup (map fst a).
Inductive shaped : xml -> Prop :=
| SH_text n a s : okname n -> okattrs a -> shaped (Elem n a [Text s])
| SH_elem n a b : okname n -> okattrs a -> shapeds b -> shaped (Elem n a b)
with shapeds : list xml -> Prop :=
| SN : shapeds []
| SC x l : shaped x -> shapeds l -> shapeds (x :: l).
Scheme shaped_ind2 := Induction for shaped Sort Prop with shapeds_ind2 := Induction for shapeds Sort Prop.
Lemma shapeds_Forall l : shapeds l <-> Forall shaped l.
Proof. split; intros H; induction H; constructor; auto. Qed.
Lemma shapeds_app a b : shapeds (a ++ b) <-> shapeds a /\ shapeds b.
Proof. rewrite !shapeds_Forall. apply Forall_app. Qed.

Section Reading.
Variable P : list (option ascii) -> Prop.
Hypotheses (P_nil : P []) (P_app : forall a b, P (a ++ b) -> P a /\ P b).
(** The pieces of [s] read from symbols with the property [P]. *)
Definition cut_by (s : str) (ch : list str) : Prop := exists l m, P l /\ escd l m /\ bytes m = s /\ ch = chop [] m.
Definition no_ref (c : ascii) : bool := negb (special c).
Lemma spaces_esc k : flat_map esc_text (LF :: indent k) = LF :: indent k.
Proof. cbn [flat_map]. change (esc_text LF) with [LF]. cbn [app]. f_equal. unfold indent. induction k as [|k IH]; [reflexivity|]. cbn [repeat concat]. rewrite flat_map_app, IH. reflexivity. Qed.
Lemma blank_concat ch : blank (concat ch) -> blanks ch.
Proof. induction ch as [|c ch IH]; cbn [concat]; [constructor|]. intros H. apply Forall_app in H. constructor; [apply H|now apply IH]. Qed.
Lemma blank_indent k : blank (LF :: indent k).
Proof.
  constructor; [right; right; now left|]. unfold indent. induction k as [|k IH]; cbn [repeat concat]; [constructor|]. apply Forall_app. split; [|exact IH].
  repeat constructor; now left.
Qed.
Lemma gap_run k l x o r d : bytes l = LF :: indent k -> exists bl, blanks bl /\
  r_run (mkR (MText []) (x :: o) r d) (l ++ [Some "<"%char]) = Some (mkR MOpen (x :: o) r d, map EChars bl).
Proof.
  intros E. destruct (data_run (length l) l (LF :: indent k) [] o x r d (le_n _)) as (m & _ & Hm & Hr); [now rewrite spaces_esc|].
  exists (chop [] m). split; [|exact Hr]. apply blank_concat. rewrite chop_concat, Hm. apply blank_indent.
Qed.
(** A closing tag after its opening bracket. *)
Lemma calms_close n o r d : okname n -> calms (mkR MOpen (n :: o) r d) ("/"%char :: n ++ [">"%char]) (mkR (MText []) o r d) [EEnd n].
Proof.
  intros [_ Hn]. apply calms_cons with (st1 := mkR (MClose []) (n :: o) r d); [exact I|reflexivity|].
  change [EEnd n] with ([] ++ [EEnd n]). eapply calms_app; [apply (calms_closing n [] (mkR MOpen (n :: o) r d)); exact Hn|].
  apply calms_step; [exact I| |exact I]. unfold r_step. st_simpl. cbn [Ascii.eqb Bool.eqb app]. now rewrite streq_refl.
Qed.
Lemma gt_run n a m o r d : tag_mode n a m -> r_run (mkR m o r d) [Some ">"%char] = Some (mkR (MText []) (n :: o) true d, [EStart n a]).
Proof.
  intros Hm. cbn [r_run r_symbol]. change (mkR m o r d) with (in_mode m (mkR MOpen o r d)). now rewrite (tag_gt n a m _ Hm).
Qed.
Lemma sers_cons x b : sers (x :: b) = ser x ++ sers b.
Proof. reflexivity. Qed.

Definition tree_read (t : xml) : Prop := forall lv l o r d, P l -> "<"%char :: bytes l = print true lv t -> o <> [] \/ r = false ->
  exists es, r_run (mkR MOpen o r d) l = Some (mkR (MText []) o true d, es) /\
    forall cs es', no_attr cs -> heard_by cut_by o cs es' -> heard_by cut_by o (ser t ++ cs) (es ++ es').
Lemma print_lt lv t : shaped t -> exists w, print true lv t = "<"%char :: w.
Proof. intros [n a s H1 H2|n a b H1 H2 H3]; cbn [print]; eauto. Qed.
Lemma shaped_node t : shaped t -> node_of t = true /\ is_text t = false.
Proof. now intros [ | ]. Qed.
Lemma shapeds_nodes b : shapeds b -> existsb is_text b = false /\ existsb node_of b = match b with [] => false | _ => true end.
Proof.
  intros H. apply shapeds_Forall in H. split; [|destruct H as [|x b Hx H]; [reflexivity|]; cbn; now rewrite (proj1 (shaped_node x Hx))].
  induction H as [|x b Hx _ IH]; [reflexivity|]. cbn. now rewrite (proj2 (shaped_node x Hx)).
Qed.
(** The content of an element with elements, up to the bracket of its closing tag. *)
Lemma body_read lv b : Forall tree_read b -> Forall shaped b -> forall l x o d, P l ->
  bytes l = flat_map (fun y => (LF :: indent (S lv)) ++ print true (S lv) y) b ++ LF :: indent lv ++ ["<"%char] ->
  exists es, r_run (mkR (MText []) (x :: o) true d) l = Some (mkR MOpen (x :: o) true d, es) /\
    forall cs es', no_attr cs -> heard_by cut_by (x :: o) cs es' -> heard_by cut_by (x :: o) (sers b ++ cs) (es ++ es').
Proof.
  induction b as [|y b IHb]; intros HT HS l x o d HP E; cbn [flat_map app] in E.
  - change (LF :: indent lv ++ ["<"%char]) with ((LF :: indent lv) ++ "<"%char :: []) in E. apply bytes_split1 in E. destruct E as (l1 & l2 & -> & E1 & E2).
    destruct (gap_run lv l1 x o true d E1) as (bl & Hb & Hr). exists (map EChars bl). split.
    + change (Some "<"%char :: l2) with ([Some "<"%char] ++ l2). rewrite app_assoc, <- (app_nil_r (map EChars bl)). eapply run_two; [exact Hr|].
      apply (calms_run _ []); [now constructor|exact E2].
    + intros cs es' _ H. cbn [sers flat_map app]. now apply by_blanks.
  - apply Forall_cons_iff in HT, HS. destruct HT as [Hy HT], HS as [Sy HS]. destruct (print_lt (S lv) y Sy) as (w & Ew). rewrite Ew in E.
    assert (E0 : bytes l = (LF :: indent (S lv)) ++ "<"%char :: w ++ flat_map (fun y => (LF :: indent (S lv)) ++ print true (S lv) y) b ++ LF :: indent lv ++ ["<"%char]).
    { rewrite E. cbn [app]. f_equal. rewrite <- !app_assoc. cbn [app]. reflexivity. }
    apply bytes_split1 in E0. destruct E0 as (l1 & l2 & -> & E1 & E2). apply bytes_split in E2. destruct E2 as (l3 & l4 & -> & E3 & E4).
    destruct (gap_run (S lv) l1 x o true d E1) as (bl & Hb & Hr). apply P_app in HP. destruct HP as [_ HP].
    change (Some "<"%char :: l3 ++ l4) with ([Some "<"%char] ++ (l3 ++ l4)) in HP. apply P_app in HP. destruct HP as [_ HP]. apply P_app in HP. destruct HP as [HP3 HP4].
    destruct (Hy (S lv) l3 (x :: o) true d HP3) as (e1 & R1 & K1); [rewrite E3; now rewrite Ew|left; discriminate|].
    destruct (IHb HT HS l4 x o d HP4 E4) as (e2 & R2 & K2).
    exists (map EChars bl ++ e1 ++ e2). split.
    + change (Some "<"%char :: l3 ++ l4) with ([Some "<"%char] ++ (l3 ++ l4)). rewrite app_assoc. eapply run_two; [exact Hr|]. eapply run_two; eassumption.
    + intros cs es' Hc H. rewrite sers_cons, <- !app_assoc. apply by_blanks; [exact Hb|]. apply K1; [|now apply K2].
      destruct b as [|z b]; [exact Hc|]. apply Forall_inv in HS. destruct HS; exact I.
Qed.
Lemma tree_reads t : shaped t -> tree_read t.
Proof.
  intros H. induction H as [n a s Hn Ha|n a b Hn Ha Hb IH| |x l Hx IHx Hl IHl] using shaped_ind2 with (P0 := fun b _ => Forall tree_read b); [| |constructor|now constructor].
  - destruct Ha as [Ha Hd]. intros lv l o r d HP E Ho. destruct (calms_tag n a o r d Hn Ha Hd Ho) as (m & Hm & C).
    destruct s as [|c s].
    + cbn [print existsb node_of orb] in E. injection E as E. rewrite app_assoc in E. apply bytes_split in E. destruct E as (l1 & l2 & -> & E1 & E2).
      exists [EStart n a; EEnd n]. split.
      * change [EStart n a; EEnd n] with ([] ++ [EStart n a; EEnd n]). eapply run_two; [exact (calms_run _ _ _ _ l1 C E1)|].
        refine (calms_run _ _ _ _ l2 _ E2). apply calms_cons with (st1 := mkR (MEmpty n a) o r d);
          [apply (tag_calm n a m (mkR MOpen o r d) Hm)|exact (tag_slash n a m (mkR MOpen o r d) Hm)|]. apply calms_step; [exact I|reflexivity|exact I].
      * intros cs es' Hc H. cbn [ser flat_map app]. rewrite <- app_assoc. cbn [app]. apply B_start; [exact I|].
        change (EEnd n :: es') with (map EChars [] ++ EEnd n :: es'). apply B_text; [exists [], []; repeat split; [exact P_nil|constructor]|]. now apply B_close.
    + assert (E' : bytes l = (n ++ flat_map attr_bytes a) ++ ">"%char :: flat_map esc_text (c :: s) ++ "<"%char :: ("/"%char :: n ++ [">"%char])).
      { cbn [print existsb node_of is_text orb andb negb] in E. injection E as E. rewrite E. cbn [flat_map print app]. rewrite !app_nil_r, <- !app_assoc. reflexivity. }
      clear E. apply bytes_split1 in E'. destruct E' as (l1 & l2 & -> & E1 & E2). apply bytes_split1 in E2. destruct E2 as (l3 & l4 & -> & E3 & E4).
      destruct (data_run (length l3) l3 (c :: s) [] o n true d (le_n _) E3) as (mm & M1 & M2 & M3).
      exists (EStart n a :: map EChars (chop [] mm) ++ [EEnd n]). split.
      * change (EStart n a :: map EChars (chop [] mm) ++ [EEnd n]) with ([] ++ [EStart n a] ++ map EChars (chop [] mm) ++ [EEnd n]).
        eapply run_two; [exact (calms_run _ _ _ _ l1 C E1)|]. change (Some ">"%char :: l3 ++ Some "<"%char :: l4) with ([Some ">"%char] ++ (l3 ++ Some "<"%char :: l4)).
        eapply run_two.
        { exact (gt_run n a m o r d Hm). }
        change (Some "<"%char :: l4) with ([Some "<"%char] ++ l4). rewrite app_assoc. eapply run_two; [exact M3|].
        refine (calms_run _ _ _ _ l4 _ E4). now apply calms_close.
      * intros cs es' Hc H. cbn [ser flat_map app]. rewrite <- app_assoc. cbn [app]. apply B_start; [exact I|]. rewrite <- app_assoc. cbn [app].
        apply B_text; [|now apply B_close]. exists l3, mm. split; [|auto]. apply P_app in HP. destruct HP as [_ HP].
        change (Some ">"%char :: l3 ++ Some "<"%char :: l4) with ([Some ">"%char] ++ (l3 ++ Some "<"%char :: l4)) in HP. apply P_app in HP. destruct HP as [_ HP]. now apply P_app in HP.
  - destruct Ha as [Ha Hd]. intros lv l o r d HP E Ho. destruct (calms_tag n a o r d Hn Ha Hd Ho) as (m & Hm & C).
    destruct (shapeds_nodes b Hb) as [N1 N2]. cbn [print] in E. rewrite N1, N2 in E. cbn [andb negb] in E. injection E as E.
    destruct b as [|y b].
    + rewrite app_assoc in E. apply bytes_split in E. destruct E as (l1 & l2 & -> & E1 & E2).
      exists [EStart n a; EEnd n]. split.
      * change [EStart n a; EEnd n] with ([] ++ [EStart n a; EEnd n]). eapply run_two; [exact (calms_run _ _ _ _ l1 C E1)|].
        refine (calms_run _ _ _ _ l2 _ E2). apply calms_cons with (st1 := mkR (MEmpty n a) o r d);
          [apply (tag_calm n a m (mkR MOpen o r d) Hm)|exact (tag_slash n a m (mkR MOpen o r d) Hm)|]. apply calms_step; [exact I|reflexivity|exact I].
      * intros cs es' Hc H. cbn [ser flat_map app]. rewrite <- app_assoc. cbn [app]. apply B_start; [exact I|]. now apply B_close.
    + apply shapeds_Forall in Hb. set (bb := y :: b) in *.
      assert (Ef : flat_map (fun x => if node_of x then (LF :: indent (S lv)) ++ print true (S lv) x else []) bb = flat_map (fun x => (LF :: indent (S lv)) ++ print true (S lv) x) bb).
      { clear - Hb. induction Hb as [|z bb Hz _ IHb]; [reflexivity|]. cbn [flat_map]. now rewrite (proj1 (shaped_node z Hz)), IHb. }
      assert (E' : bytes l = (n ++ flat_map attr_bytes a) ++ ">"%char :: (flat_map (fun x => (LF :: indent (S lv)) ++ print true (S lv) x) bb ++ LF :: indent lv ++ ["<"%char]) ++ ("/"%char :: n ++ [">"%char])).
      { rewrite E, <- Ef. cbn [app]. rewrite <- !app_assoc. cbn [app]. rewrite <- !app_assoc. reflexivity. }
      clear E. apply bytes_split1 in E'. destruct E' as (l1 & l2 & -> & E1 & E2). apply bytes_split in E2. destruct E2 as (l3 & l4 & -> & E3 & E4).
      apply P_app in HP. destruct HP as [_ HP]. change (Some ">"%char :: l3 ++ l4) with ([Some ">"%char] ++ (l3 ++ l4)) in HP. apply P_app in HP. destruct HP as [_ HP]. apply P_app in HP. destruct HP as [HP3 HP4].
      destruct (body_read lv bb IH Hb l3 n o d HP3 E3) as (e & R & K).
      exists (EStart n a :: e ++ [EEnd n]). split.
      * change (EStart n a :: e ++ [EEnd n]) with ([] ++ [EStart n a] ++ e ++ [EEnd n]).
        eapply run_two; [exact (calms_run _ _ _ _ l1 C E1)|]. change (Some ">"%char :: l3 ++ l4) with ([Some ">"%char] ++ (l3 ++ l4)). eapply run_two.
        { exact (gt_run n a m o r d Hm). }
        eapply run_two; [exact R|]. refine (calms_run _ _ _ _ l4 _ E4). now apply calms_close.
      * intros cs es' Hc H. cbn [ser app]. rewrite <- !app_assoc. fold (sers bb). cbn [app]. apply B_start.
        -- apply Forall_inv in Hb. subst bb. cbn [sers flat_map]. destruct Hb; exact I.
        -- cbn [app]. apply K; [exact I|]. now apply B_close.
Qed.
End Reading.
