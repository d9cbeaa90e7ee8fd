(** Public ids as an XML reader reports them. *)
From Coq Require Import NArith.
From Verif Require Import CStr CStrFacts HSListModel RTreeModel MRTreeModel ObjModel StrModel StrFacts ParseModel DocModel DocFacts2 XmlModel XmlFacts SpecF SpecF2 SpecF3 SpecF4 SpecG SpecG2 SpecG5 SpecG6 SpecG7
  Utf8Facts TextModel TextFacts TextFacts2 TextFacts3 TextFacts4 TextFacts5.
(** The words of a public id: what stands between white space. *)
Inductive spaced : str -> list str -> Prop :=
| Sp_end g : Forall (fun c => xml_space c = true) g -> spaced g []
| Sp_word g w s ws : Forall (fun c => xml_space c = true) g -> w <> [] -> Forall (fun c => xml_space c = false) w ->
    (s = [] \/ exists c r, s = c :: r /\ xml_space c = true) -> spaced s ws -> spaced (g ++ w ++ s) (w :: ws).
Lemma norm_gap g s : Forall (fun c => xml_space c = true) g -> norm_pubid true (g ++ s) = norm_pubid true s.
Proof. induction 1 as [|c g Hc _ IH]; [reflexivity|]. cbn [app norm_pubid]. now rewrite Hc. Qed.
Lemma norm_run w s : Forall (fun c => xml_space c = false) w -> w <> [] -> forall b, norm_pubid b (w ++ s) = w ++ norm_pubid false s.
Proof.
  intros Hw. induction Hw as [|c w Hc Hw IH]; intros Hne b; [congruence|]. cbn [app norm_pubid]. rewrite Hc. f_equal. destruct w as [|d w]; [reflexivity|]. now apply IH.
Qed.
Lemma spaced_nil s ws : spaced s ws -> s = [] -> ws = [].
Proof. intros [g H|g w r l Hg Hne Hw Hs Hr] E; [reflexivity|]. apply app_eq_nil in E. destruct E as [_ E]. apply app_eq_nil in E. tauto. Qed.
Lemma spaced_first s w ws : spaced s (w :: ws) -> w <> [].
Proof. intros H. remember (w :: ws) as l eqn:El. destruct H as [g H|g w' r l' Hg Hne Hw Hs Hr]; [discriminate|]. injection El as -> _. exact Hne. Qed.
Lemma norm_spaced s ws : spaced s ws -> norm_pubid true s = join (! " ") ws.
Proof.
  induction 1 as [g Hg|g w s ws Hg Hne Hw Hs Hsp IH]; [rewrite <- (app_nil_r g); now rewrite norm_gap|]. rewrite norm_gap, norm_run by assumption.
  destruct Hs as [->|(c & r & -> & Hc)].
  - rewrite (spaced_nil _ _ Hsp eq_refl). cbn. now rewrite app_nil_r.
  - cbn [norm_pubid]. rewrite Hc. cbn [norm_pubid] in IH. rewrite Hc in IH. rewrite IH. destruct ws as [|w0 ws]; [cbn; now rewrite app_nil_r|].
    rewrite (join_cons _ w (w0 :: ws)) by discriminate. f_equal. destruct (join (! " ") (w0 :: ws)) eqn:E; [|reflexivity]. apply spaced_first in Hsp. destruct w0; [congruence|]. destruct ws; discriminate.
Qed.
Lemma spaced_all s : exists ws, spaced s ws.
Proof.
  assert (H : forall n s, length s <= n -> exists ws, spaced s ws); [|exact (H _ s (le_n _))]. clear s.
  induction n as [|n IH]; intros s Hn; [destruct s; [exists []; now constructor|cbn in Hn; lia]|].
  assert (G : exists g s1, s = g ++ s1 /\ Forall (fun c => xml_space c = true) g /\ (s1 = [] \/ exists c r, s1 = c :: r /\ xml_space c = false)).
  { clear. induction s as [|c s (g & s1 & -> & Hg & H)]; [exists [], []; auto|]. destruct (xml_space c) eqn:E; [exists (c :: g), s1; auto|]. exists [], (c :: g ++ s1). split; [reflexivity|]. split; [constructor|]. right. eauto. }
  destruct G as (g & s1 & -> & Hg & [->|(c & r & -> & Hc)]); [exists []; rewrite app_nil_r; now constructor|].
  assert (W : exists w s2, c :: r = w ++ s2 /\ w <> [] /\ Forall (fun c => xml_space c = false) w /\ (s2 = [] \/ exists c r, s2 = c :: r /\ xml_space c = true)).
  { clear - Hc. revert c Hc. induction r as [|d r IH]; intros c Hc; [exists [c], []; split; [reflexivity|]; split; [discriminate|]; auto|]. destruct (xml_space d) eqn:E.
    - exists [c], (d :: r). split; [reflexivity|]. split; [discriminate|]. split; [auto|]. right. eauto.
    - destruct (IH d E) as (w & s2 & -> & _ & Hw & H). exists (c :: w), s2. split; [reflexivity|]. split; [discriminate|]. auto. }
  destruct W as (w & s2 & E & Hne & Hw & H). rewrite E in *. destruct (IH s2) as (ws & Hs).
  { rewrite !app_length in Hn. destruct w; [congruence|]. cbn in Hn. lia. }
  exists (w :: ws). now constructor.
Qed.
Lemma pubid_words p : exists ws, spaced p ws /\ norm_pubid true p = join (! " ") ws.
Proof. destruct (spaced_all p) as (ws & H). exists ws. split; [exact H|now apply norm_spaced]. Qed.
(** Reading a document type whose public id may have white space in any form. *)
Lemma pubid_read n p s : okname n -> Forall (fun c => pubid_char c = true) p -> quotable s ->
  exists w ws, dtd_bytes (Some n) (Some p) (Some s) = Some w /\ spaced p ws /\
    forall bs, concat bs = w ++ ! "<a/>" ->
      exists ess, r_blocks r0 bs = Some ess /\ concat ess = [EDoctype (Some n) (Some s) (Some (join (! " ") ws)); EStart (! "a") []; EEnd (! "a")].
Proof.
  intros Hn Hp Hs. destruct (dtd_read_any (Some n) (Some p) (Some s) (mkR (MText []) [] false false)) as (w & raw & Ed & C & Er); [repeat split; try apply Hn; assumption|].
  destruct (pubid_words p) as (ws & Hw & Ew). exists (! "<!" ++ w ++ ! ">"), ws. split; [exact Ed|]. split; [exact Hw|]. intros bs E.
  cbn [option_map] in Er. rewrite Ew in Er. set (e := EDoctype (Some n) (Some s) (Some (join (! " ") ws))) in *.
  assert (R : r_run r0 (flat_map block bs) = Some (mkR (MText []) [] true true, [e; EStart (! "a") []; EEnd (! "a")])).
  { refine (calms_run _ _ _ _ (flat_map block bs) _ ltac:(rewrite bytes_blocks; exact E)). rewrite <- app_assoc.
    change [e; EStart (! "a") []; EEnd (! "a")] with ([] ++ [e; EStart (! "a") []; EEnd (! "a")]).
    eapply calms_app; [apply calmsb_calms; vm_compute; reflexivity|]. rewrite <- app_assoc. change [e; EStart (! "a") []; EEnd (! "a")] with ([] ++ [e; EStart (! "a") []; EEnd (! "a")]).
    eapply calms_app; [exact C|]. cbn [list_ascii_of_string app].
    match goal with |- calms _ _ _ (e :: ?x) => change (e :: x) with ([e] ++ x) end. eapply K_cons; [exact I| |].
    - unfold r_step. st_simpl. cbn [Ascii.eqb Bool.eqb]. rewrite Er. reflexivity.
    - apply calmsb_calms. vm_compute. reflexivity. }
  exact (blocks_run _ _ _ _ R eq_refl eq_refl eq_refl).
Qed.
