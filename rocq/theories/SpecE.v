(** Specifications for rendering, log and validation, and the lemmas that connect
    them to the models. *)
From Coq Require Import NArith Nnat Sorted.
From Verif Require Import CStr CStrFacts HSListModel HSListFacts SetModel SetFacts RTreeModel RTreeFacts RTreeFacts2 RTreeFacts3
  RTreeFacts4 MRTreeModel SpecA ObjModel ObjFacts ObjFacts2 SpecC DocModel DocFacts DocFacts2 SpecD SpecD2
  Dec StrModel StrFacts LogModel ValidateModel ValidateFacts.

Lemma Forall2_length {A B} (R : A -> B -> Prop) l l' : Forall2 R l l' -> length l = length l'.
Proof. induction 1; cbn; congruence. Qed.

(** ** Rendering *)
(** [s] is the decimal numeral of [n]: digits only, of value [n], no longer than
    necessary. *)
Definition numeral_of (n : N) (s : str) : Prop :=
  forallb is_digit s = true /\ value s = n /\
  (length s = 1 \/ (10 ^ (N.of_nat (length s) - 1) <= n)%N) /\ s <> [].
Lemma dec_numeral n : numeral_of n (dec n).
Proof.
  destruct (dec_spec n) as (V & D & NE & B & Z). split; [exact D|]. split; [exact V|]. split; [|exact NE].
  destruct (N.eq_dec n 0) as [E|E]; [left; now apply Z|right; apply B; lia].
Qed.
Lemma num_rendered z : (0 <= z)%Z -> exists s, num_tostr z = Ok s /\ numeral_of (Z.to_N z) s.
Proof. intros H. exists (dec (Z.to_N z)). split; [now apply num_tostr_ok|apply dec_numeral]. Qed.

(** The text of a property: nothing, the string, the numeral, the list. *)
Definition brackets (items : list str) : str := S_ "[" ++ join (S_ ", ") items ++ S_ "]".
Definition prop_shown (v : option pval) (s : str) : Prop :=
  match v with
  | None | Some (PStr None) => s = []
  | Some (PStr (Some x)) => s = x
  | Some (PNum z) => numeral_of (Z.to_N z) s
  | Some (PList l) => s = brackets (map (fun x => match x with Some t => t | None => [] end) l)
  end.
(** No negative number among the properties named. *)
Definition numbers_ok (b : base) (keys : list str) : Prop :=
  forall k z, In k keys -> rt_get (b_props b) k = Ok (Some (PNum z)) -> (0 <= z)%Z.
Definition shown (b : base) (k s : str) : Prop := exists v, rt_get (b_props b) k = Ok v /\ prop_shown v s.
Definition pkg_shown (p : pkg) : str :=
  S_ "<COMPS_DocGroupPackage name='" ++ ostr_tostr (p_name p) ++ S_ "' type='" ++ pkg_type_str (p_type p)
  ++ S_ "' requires='" ++ ostr_tostr (p_requires p) ++ S_ "' basearchonly='"
  ++ (match p_bao p with Some z => if (z =? 0)%Z then S_ "False" else S_ "True" | None => S_ "False" end) ++ S_ "'>".
Definition gid_shown (g : gid) : str :=
  S_ "<COMPS_DocGroupId name='" ++ ostr_tostr (gi_name g) ++ S_ "' default='"
  ++ (if gi_def g then S_ "True" else S_ "False") ++ S_ "'>".
Lemma pkg_rendered p : pkg_tostr p = Ok (pkg_shown p).
Proof. destruct (pkg_tostr_ok p) as (s & E & ->). exact E. Qed.
Lemma gid_rendered g : gid_tostr g = Ok (gid_shown g).
Proof. destruct (gid_tostr_ok g) as (s & E & ->). exact E. Qed.

Lemma props_rendered b : forall keys, numbers_ok b keys ->
  exists l, props_tostr b keys = Ok l /\ Forall2 (shown b) keys l.
Proof.
  induction keys as [|k keys IH]; intros H; cbn [props_tostr]; [exists []; split; [reflexivity|constructor]|].
  destruct IH as (l & El & Hl); [intros k' z Hk; apply H; now right|].
  unfold base_get. rewrite rt_get_look. cbn [bind].
  assert (Hg := rt_get_look (b_props b) k). set (v := look (troot (b_props b)) k) in *.
  assert (exists s, pval_tostr v = Ok s /\ prop_shown v s) as (s & Es & Hs).
  { destruct v as [[x|z|x]|]; cbn [pval_tostr].
    - eexists; split; [reflexivity|]. destruct x; reflexivity.
    - apply num_rendered. apply (H k z); [now left|exact Hg].
    - rewrite list_tostr_ok. eexists; split; [reflexivity|]. unfold prop_shown, brackets. do 2 f_equal.
    - eexists; split; reflexivity. }
  rewrite Es. cbn [bind]. rewrite El. cbn [bind]. exists (s :: l). split; [reflexivity|].
  constructor; [exists v; auto|exact Hl].
Qed.
Lemma members_rendered {A} (f : A -> res str) (g : A -> str) l : (forall x, f x = Ok (g x)) ->
  (t <- map_r f l ;; list_tostr t) = Ok (brackets (map g l)).
Proof. intros H. rewrite (map_r_ok f g l) by (intros; apply H). cbn [bind]. apply list_tostr_ok. Qed.

Definition group_keys : list str := [S_ "id"; S_ "name"; S_ "desc"; S_ "display_order"; S_ "def"; S_ "langonly"].
Definition other_keys : list str := [S_ "id"; S_ "name"; S_ "desc"; S_ "display_order"].
(** The dictionaries of translations render as nothing. *)
Definition object_text (head : str) (props members : list str) : str :=
  head ++ join (S_ ", ") (props ++ [[]; []] ++ members) ++ S_ ">".
Lemma group_rendered g : numbers_ok (g_base g) group_keys ->
  exists ps, Forall2 (shown (g_base g)) group_keys ps /\
    group_tostr g = Ok (object_text (S_ "<COMPS_Group ") ps [brackets (map pkg_shown (g_pkgs g))]).
Proof.
  intros H. destruct (props_rendered _ _ H) as (ps & E & Hps). exists ps. split; [exact Hps|].
  unfold group_tostr. unfold group_keys in E. rewrite E. cbn [bind].
  rewrite (map_r_ok pkg_tostr pkg_shown) by (intros; apply pkg_rendered). cbn [bind].
  rewrite list_tostr_ok. cbn [bind]. apply obj_render_ok.
  apply Forall2_length in Hps. rewrite <- Hps. cbn. lia.
Qed.
Lemma category_rendered c : numbers_ok (c_base c) other_keys ->
  exists ps, Forall2 (shown (c_base c)) other_keys ps /\
    category_tostr c = Ok (object_text (S_ "<COMPS_Category ") ps [brackets (map gid_shown (c_gids c))]).
Proof.
  intros H. destruct (props_rendered _ _ H) as (ps & E & Hps). exists ps. split; [exact Hps|].
  unfold category_tostr. unfold other_keys in E. rewrite E. cbn [bind].
  rewrite (map_r_ok gid_tostr gid_shown) by (intros; apply gid_rendered). cbn [bind].
  rewrite list_tostr_ok. cbn [bind]. apply obj_render_ok.
  apply Forall2_length in Hps. rewrite <- Hps. cbn. lia.
Qed.
Lemma env_rendered e : numbers_ok (e_base e) other_keys ->
  exists ps, Forall2 (shown (e_base e)) other_keys ps /\
    env_tostr e = Ok (object_text (S_ "<COMPS_Env ") ps
      [brackets (map gid_shown (e_groups e)); brackets (map gid_shown (e_options e))]).
Proof.
  intros H. destruct (props_rendered _ _ H) as (ps & E & Hps). exists ps. split; [exact Hps|].
  unfold env_tostr. unfold other_keys in E. rewrite E. cbn [bind].
  rewrite (map_r_ok gid_tostr gid_shown) by (intros; apply gid_rendered). cbn [bind].
  rewrite list_tostr_ok. cbn [bind].
  rewrite (map_r_ok gid_tostr gid_shown) by (intros; apply gid_rendered). cbn [bind].
  rewrite list_tostr_ok. cbn [bind]. apply obj_render_ok.
  apply Forall2_length in Hps. rewrite <- Hps. cbn. lia.
Qed.

(** ** Architectures *)
(** A word: not empty, without spaces and commas. *)
Definition word (s : str) : Prop := s <> [] /\ ~ In " "%char s /\ ~ In ","%char s.
(** [tokens s l]: [l] are the maximal runs of [s] free of spaces and commas. *)
Inductive tokens : str -> list str -> Prop :=
| Tok_end : tokens [] []
| Tok_sep c s l : c = " "%char \/ c = ","%char -> tokens s l -> tokens (c :: s) l
| Tok_last w : word w -> tokens w [w]
| Tok_word w c s l : word w -> c = " "%char \/ c = ","%char -> tokens s l -> tokens (w ++ c :: s) (w :: l).
Lemma sep_iff c : arch_sep c = true <-> c = " "%char \/ c = ","%char.
Proof. unfold arch_sep. rewrite Bool.orb_true_iff, !Ascii.eqb_eq. reflexivity. Qed.
Lemma word_iff s : word s <-> arch_name s.
Proof.
  unfold word, arch_name. rewrite forallb_forall. split.
  - intros (N & A & B). split; [exact N|]. intros c Hc. destruct (arch_sep c) eqn:E; [|reflexivity].
    apply sep_iff in E. destruct E as [->| ->]; contradiction.
  - intros (N & H). split; [exact N|]. split; intros Hc; specialize (H _ Hc); discriminate.
Qed.
Lemma arch_roundtrip l : Forall word l ->
  exists s, arch_str (Some (map Some l)) = Ok s /\ split_arches s = map Some l.
Proof.
  intros H. rewrite arch_str_ok. eexists; split; [reflexivity|].
  rewrite map_map. cbn [str_tostr]. rewrite map_id. unfold split_arches. rewrite strtok_join; [reflexivity|].
  eapply Forall_impl; [|exact H]. intros w. apply word_iff.
Qed.
Lemma strtok_tokens : forall s cur, (cur = [] \/ word (rev cur)) -> tokens (rev cur ++ s) (strtok_loop s cur).
Proof.
  induction s as [|c s IH]; intros cur H; cbn [strtok_loop].
  - rewrite app_nil_r. destruct H as [-> |H]; [constructor|]. destruct cur as [|x cur]; [constructor|]. now constructor.
  - destruct (arch_sep c) eqn:E.
    + apply sep_iff in E. specialize (IH [] (or_introl eq_refl)). cbn [rev app] in IH.
      destruct H as [-> |H]; [cbn [rev app]; now constructor|].
      destruct cur as [|x cur]; [destruct H as [[] _]; reflexivity|]. now constructor.
    + specialize (IH (c :: cur)). cbn [rev] in IH. rewrite <- app_assoc in IH. cbn [app] in IH. apply IH. right.
      assert (C : c <> " "%char /\ c <> ","%char).
      { split; intros ->; discriminate. }
      destruct C as [C1 C2]. split; [destruct (rev cur); discriminate|].
      destruct H as [-> |(_ & A & B)]; cbn [rev app].
      * split; intros [X|[]]; congruence.
      * split; intros X; apply in_app_or in X; destruct X as [X|[X|[]]]; try contradiction; congruence.
Qed.
Lemma tokens_split s l : tokens s l -> split_arches s = map Some l.
Proof.
  unfold split_arches. intros H. f_equal.
  assert (R : forall w r, word w -> strtok_loop (w ++ r) [] = strtok_loop r (rev w)).
  { intros w r Hw. apply word_iff in Hw. rewrite strtok_run by apply Hw. now rewrite app_nil_r. }
  induction H as [|c s l Hc _ IH|w Hw|w c s l Hw Hc _ IH].
  - reflexivity.
  - apply sep_iff in Hc. cbn [strtok_loop]. now rewrite Hc.
  - rewrite <- (app_nil_r w) at 1. rewrite R by exact Hw. cbn [strtok_loop]. rewrite rev_involutive.
    destruct Hw as [N _]. destruct (rev w) eqn:E; [|reflexivity].
    destruct N. rewrite <- (rev_involutive w), E. reflexivity.
  - rewrite R by exact Hw. cbn [strtok_loop]. apply sep_iff in Hc. rewrite Hc, rev_involutive.
    destruct Hw as [N _]. destruct (rev w) eqn:E; [|now rewrite IH].
    destruct N. rewrite <- (rev_involutive w), E. reflexivity.
Qed.
Lemma arch_split s : exists l, split_arches s = map Some l /\ tokens s l.
Proof. exists (strtok_loop s []). split; [reflexivity|]. apply (strtok_tokens s []). now left. Qed.

(** ** Log *)
(** The entry a call is to record. *)
Definition entry_of (c : lcall) : entry :=
  match c with LCall w _ code args => mkEn code (if w then ENTRY_WAR else ENTRY_ERR) args end.
Lemma larg_copies args : map (obj_copy larg_copy) args = args.
Proof.
  rewrite <- (map_id args) at 2. apply map_ext. intros [[s|z]|]; [|reflexivity|reflexivity].
  destruct s; reflexivity.
Qed.
Lemma log_do_put l c : log_do l c = log_put l (entry_of c).
Proof.
  destruct c as [[|] [|] code args]; cbn [log_do entry_of]; unfold log_error, log_error_x, log_warning, log_warning_x,
    log_entry, log_entry_x; rewrite ?larg_copies; reflexivity.
Qed.
Lemma log_do_spec l c l' : good (lg_entries l) -> log_do l c = Ok l' ->
  good (lg_entries l') /\ hitems (lg_entries l') = hitems (lg_entries l) ++ [entry_of c] /\ lg_std l' = lg_std l /\
  (if lg_std l then exists s, entry_str (entry_of c) = Ok s /\ lg_err l' = lg_err l ++ [s] else lg_err l' = lg_err l).
Proof.
  intros Hg. rewrite log_do_put. unfold log_put.
  destruct (good_append _ (entry_of c) Hg) as (h & Eh & Hi & Hg').
  destruct (lg_std l) eqn:Es.
  - destruct (entry_str (entry_of c)) as [s| |] eqn:E; cbn [bind]; [|discriminate|discriminate].
    rewrite Eh. cbn [bind]. intros [= <-]. cbn. eauto 10.
  - cbn [bind]. rewrite Eh. cbn [bind]. intros [= <-]. cbn. auto.
Qed.
Lemma log_do_silent l c : good (lg_entries l) -> lg_std l = false -> exists l', log_do l c = Ok l'.
Proof.
  intros Hg Hs. rewrite log_do_put. unfold log_put. rewrite Hs. cbn [bind].
  destruct (good_append _ (entry_of c) Hg) as (h & -> & _). cbn [bind]. eauto.
Qed.
Lemma log_run_spec cs : forall l l', good (lg_entries l) -> log_run l cs = Ok l' ->
  good (lg_entries l') /\ hitems (lg_entries l') = hitems (lg_entries l) ++ map entry_of cs /\ lg_std l' = lg_std l /\
  (if lg_std l then exists ss, Forall2 (fun c s => entry_str (entry_of c) = Ok s) cs ss /\ lg_err l' = lg_err l ++ ss
   else lg_err l' = lg_err l).
Proof.
  induction cs as [|c cs IH]; intros l l' Hg; cbn [log_run].
  - intros [= <-]. rewrite app_nil_r. split; [exact Hg|]. split; [reflexivity|]. split; [reflexivity|].
    destruct (lg_std l); [|reflexivity]. exists []. split; [constructor|]. now rewrite app_nil_r.
  - destruct (log_do l c) as [l1| |] eqn:E; cbn [bind]; [|discriminate|discriminate]. intros H.
    destruct (log_do_spec l c l1 Hg E) as (Hg1 & Hi1 & Hs1 & He1).
    destruct (IH l1 l' Hg1 H) as (Hg' & Hi' & Hs' & He'). split; [exact Hg'|].
    split; [rewrite Hi', Hi1; cbn [map]; now rewrite <- app_assoc|]. split; [congruence|].
    rewrite Hs1 in He'. destruct (lg_std l); [|congruence].
    destruct He1 as (s & Es & He1). destruct He' as (ss & Hss & He').
    exists (s :: ss). split; [constructor; auto|]. rewrite He', He1. now rewrite <- app_assoc.
Qed.
Lemma log_run_silent cs : forall l, good (lg_entries l) -> lg_std l = false -> exists l', log_run l cs = Ok l'.
Proof.
  induction cs as [|c cs IH]; intros l Hg Hs; cbn [log_run]; [eauto|].
  destruct (log_do_silent l c Hg Hs) as (l1 & E). rewrite E. cbn [bind].
  destruct (log_do_spec l c l1 Hg E) as (Hg1 & _ & Hs1 & _). apply IH; [exact Hg1|congruence].
Qed.

(** Text pieces and arguments alternating: piece, argument, piece, ..., piece. *)
Fixpoint weave (pieces args : list str) : str :=
  match pieces, args with
  | p :: ps, a :: r => p ++ a ++ weave ps r
  | p :: _, [] => p
  | [], _ => []
  end.
Definition conv_free (p : str) : Prop := ~ In "%"%char p.
(** [fmt] is the format with [n] arguments and the given pieces around them. *)
Definition format_of (fmt : str) (n : nat) (pieces : list str) : Prop :=
  length pieces = S n /\ Forall conv_free pieces /\ fmt = weave pieces (repeat (S_ "%s") n).
(** The text of an argument; negative numbers have none. *)
Definition arg_text (a : option larg) (s : str) : Prop :=
  match a with
  | None | Some (LStr None) => s = []
  | Some (LStr (Some x)) => s = x
  | Some (LNum z) => (0 <= z)%Z /\ numeral_of (Z.to_N z) s
  end.
Definition printable (a : option larg) : Prop := match a with Some (LNum z) => (0 <= z)%Z | _ => True end.

Lemma vformat_piece p : conv_free p -> forall fmt args,
  vformat (p ++ fmt) args = (t <- vformat fmt args ;; Ok (p ++ t)).
Proof.
  intros H fmt args. induction p as [|c p IH]; cbn [app].
  - now destruct (vformat fmt args).
  - cbn [vformat]. destruct (Ascii.eqb c "%") eqn:E.
    + apply Ascii.eqb_eq in E. exfalso. apply H. now left.
    + rewrite IH by (intros Hin; apply H; now right). now destruct (vformat fmt args).
Qed.
Lemma vformat_weave : forall args pieces, length pieces = S (length args) -> Forall conv_free pieces ->
  vformat (weave pieces (repeat (S_ "%s") (length args))) args = Ok (weave pieces args).
Proof.
  induction args as [|a args IH]; intros [|p ps] Hl Hc; cbn [length] in Hl; try lia.
  - cbn [length repeat weave]. replace p with (p ++ []) at 1 by apply app_nil_r.
    inversion Hc; subst. rewrite vformat_piece by assumption. cbn. now rewrite app_nil_r.
  - cbn [length repeat weave]. inversion Hc; subst. rewrite vformat_piece by assumption.
    change (S_ "%s" ++ weave ps (repeat (S_ "%s") (length args)))
      with ("%"%char :: "s"%char :: weave ps (repeat (S_ "%s") (length args))).
    cbn [vformat]. change (Ascii.eqb "%" "%") with true. change (Ascii.eqb "s" "s") with true.
    cbv iota. rewrite IH by (assumption || lia). reflexivity.
Qed.
Lemma weave_length : forall args pieces, length pieces = S (length args) ->
  length (weave pieces args) = sum_len pieces + sum_len args.
Proof.
  induction args as [|a args IH]; intros [|p ps] Hl; cbn [length] in Hl; try lia.
  - destruct ps; [|discriminate]. cbn. lia.
  - cbn [weave]. rewrite !app_length, IH by lia.
    change (sum_len (p :: ps)) with (length p + sum_len ps). change (sum_len (a :: args)) with (length a + sum_len args). lia.
Qed.
Lemma sum_len_repeat n : sum_len (repeat (S_ "%s") n) = 2 * n.
Proof. induction n as [|n IH]; [reflexivity|]. cbn [repeat]. change (sum_len (S_ "%s" :: repeat (S_ "%s") n)) with (2 + sum_len (repeat (S_ "%s") n)). lia. Qed.
Lemma args_rendered args : Forall printable args ->
  exists ss, map_r larg_tostr args = Ok ss /\ Forall2 arg_text args ss.
Proof.
  intros H. induction H as [|a args Ha _ (ss & E & Hss)]; [exists []; split; [reflexivity|constructor]|].
  cbn [map_r]. assert (exists s, larg_tostr a = Ok s /\ arg_text a s) as (s & Es & Hs).
  { destruct a as [[x|z]|]; cbn [larg_tostr].
    - eexists; split; [reflexivity|]. destruct x; reflexivity.
    - destruct (num_rendered z Ha) as (s & E' & Hs). exists s. split; [exact E'|split; [exact Ha|exact Hs]].
    - eexists; split; reflexivity. }
  rewrite Es, E. cbn [bind]. eexists; split; [reflexivity|]. now constructor.
Qed.
Lemma entry_text e fmt pieces : log_format (en_code e) = Some fmt -> format_of fmt (length (en_args e)) pieces ->
  length (en_args e) <= 5 -> Forall printable (en_args e) ->
  exists ss, Forall2 arg_text (en_args e) ss /\ entry_str e = Ok (weave pieces ss) /\
    entry_print e = Ok (weave pieces ss ++ NL).
Proof.
  intros Hf (Hl & Hc & ->) H5 Hp. destruct (args_rendered _ Hp) as (ss & E & Hss). exists ss. split; [exact Hss|].
  assert (Hlen := Forall2_length _ _ _ Hss). rewrite Hlen in *.
  unfold entry_str, entry_print. rewrite E. cbn [bind]. rewrite Hf.
  assert (N5 : (5 <? length ss) = false) by (apply Nat.ltb_ge; lia). rewrite N5.
  rewrite vformat_weave by assumption. cbn [bind]. split; [|reflexivity].
  apply put_ok. rewrite !weave_length by (rewrite ?repeat_length; assumption). rewrite sum_len_repeat. lia.
Qed.
(** Splitting a format at its conversions, to find the pieces by computation. *)
Fixpoint pieces_of (fmt cur : str) : list str :=
  match fmt with
  | [] => [rev cur]
  | c :: r =>
      if Ascii.eqb c "%" then match r with _ :: r' => rev cur :: pieces_of r' [] | [] => [rev cur] end
      else pieces_of r (c :: cur)
  end.
Definition conv_free_b (p : str) : bool := forallb (fun c => negb (Ascii.eqb c "%")) p.
Lemma conv_free_b_ok p : conv_free_b p = true -> conv_free p.
Proof.
  intros H Hin. unfold conv_free_b in H. rewrite forallb_forall in H. specialize (H _ Hin). discriminate.
Qed.
Definition format_of_b (fmt : str) (n : nat) (pieces : list str) : bool :=
  (length pieces =? S n) && forallb conv_free_b pieces && streq fmt (weave pieces (repeat (S_ "%s") n)).
Lemma format_of_b_ok fmt n pieces : format_of_b fmt n pieces = true -> format_of fmt n pieces.
Proof.
  unfold format_of_b. intros H. apply andb_prop in H. destruct H as [H H3]. apply andb_prop in H. destruct H as [H1 H2].
  split; [now apply Nat.eqb_eq|]. split; [|now apply streq_iff].
  apply Forall_forall. intros p Hp. apply conv_free_b_ok. rewrite forallb_forall in H2. now apply H2.
Qed.
Lemma sites_checked : forall s, In s call_sites ->
  exists fmt pieces, log_format (fst s) = Some fmt /\ format_of fmt (snd s) pieces /\ snd s <= 5.
Proof.
  intros [code n] H. cbn [fst snd].
  exists (match log_format code with Some f => f | None => [] end),
         (pieces_of (match log_format code with Some f => f | None => [] end) []).
  assert (B : forallb (fun s => match log_format (fst s) with
     | Some f => format_of_b f (snd s) (pieces_of f []) && (snd s <=? 5) | None => false end) call_sites = true)
    by (vm_compute; reflexivity).
  rewrite forallb_forall in B. specialize (B _ H). cbn [fst snd] in B.
  destruct (log_format code) as [f|]; [|discriminate]. apply andb_prop in B. destruct B as [B1 B2].
  split; [reflexivity|]. split; [now apply format_of_b_ok|]. now apply Nat.leb_le.
Qed.
Lemma call_site_text code n type args : In (code, n) call_sites -> length args = n -> Forall printable args ->
  exists fmt pieces ss, log_format code = Some fmt /\ format_of fmt n pieces /\ Forall2 arg_text args ss /\
    entry_str (mkEn code type args) = Ok (weave pieces ss).
Proof.
  intros H Hl Hp. destruct (sites_checked _ H) as (fmt & pieces & Hf & Ho & H5). cbn [fst snd] in *.
  subst n. destruct (entry_text (mkEn code type args) fmt pieces Hf Ho H5 Hp) as (ss & Hss & He & _).
  exists fmt, pieces, ss. auto.
Qed.

(** ** Validation *)
(** [ps]: for every position holding an element equal to an earlier one, the
    first such earlier position and its own, in order. *)
Definition dup_pairs {A} (cmp : A -> A -> bool) (vs : list A) (ps : list (nat * nat)) : Prop :=
  StronglySorted (fun p q => snd p < snd q) ps /\ forall i x, In (i, x) ps <-> first_equal cmp vs i x.
Definition distinct {A} (cmp : A -> A -> bool) (vs : list A) : Prop :=
  forall i x a b, i < x -> nth_error vs i = Some a -> nth_error vs x = Some b -> cmp a b = false.
Lemma dup_pairs_none {A} (cmp : A -> A -> bool) vs ps : dup_pairs cmp vs ps -> (ps = [] <-> distinct cmp vs).
Proof.
  intros [_ H]. split.
  - intros -> i x a b Hi Ha Hb. destruct (cmp a b) eqn:E; [exfalso|reflexivity].
    destruct (find (fun c => cmp c b) vs) as [y|] eqn:F.
    + destruct (find_index _ _ _ F) as (j & Hj & Hc & _ & Hm). apply (H j x).
      split; [|exists y, b; repeat split; auto].
      destruct (Nat.lt_ge_cases j x) as [|G]; [assumption|]. exfalso.
      assert (cmp a b = false) by (apply (Hm i a); [lia|exact Ha]). congruence.
    + pose proof (find_none_nth _ _ F i a Ha) as N. cbn in N. congruence.
  - intros D. destruct ps as [|[i x] ps]; [reflexivity|exfalso].
    destruct (proj1 (H i x) (or_introl eq_refl)) as (Hi & a & b & Ha & Hb & E & _).
    rewrite (D i x a b Hi Ha Hb) in E. discriminate.
Qed.
Lemma dup_pairs_unique {A} (cmp : A -> A -> bool) vs : forall ps qs, dup_pairs cmp vs ps -> dup_pairs cmp vs qs -> ps = qs.
Proof.
  intros ps qs [S1 H1] [S2 H2].
  assert (E : forall p, In p ps <-> In p qs) by (intros [i x]; rewrite H1, H2; tauto).
  clear H1 H2. revert qs S2 E. induction S1 as [|p ps S1 IH F1]; intros qs S2 E.
  - destruct qs as [|q qs]; [reflexivity|]. exfalso. apply (E q). now left.
  - destruct S2 as [|q qs S2 F2]; [exfalso; apply (E p); now left|].
    assert (p = q) as ->.
    { destruct (proj1 (E p) (or_introl eq_refl)) as [->|Hp]; [reflexivity|].
      destruct (proj2 (E q) (or_introl eq_refl)) as [->|Hq]; [reflexivity|].
      rewrite Forall_forall in F1, F2. specialize (F1 _ Hq). specialize (F2 _ Hp). cbn in *. lia. }
    f_equal. apply IH; [exact S2|]. intros r. split; intros Hr.
    + destruct (proj1 (E r) (or_intror Hr)) as [<-|]; [|assumption].
      rewrite Forall_forall in F1. specialize (F1 _ Hr). cbn in F1. lia.
    + destruct (proj2 (E r) (or_intror Hr)) as [<-|]; [|assumption].
      rewrite Forall_forall in F2. specialize (F2 _ Hr). cbn in F2. lia.
Qed.
Definition transitive {A} (cmp : A -> A -> bool) : Prop :=
  forall a b c, cmp a b = true -> cmp b c = true -> cmp a c = true.
Lemma unique_reports {A} (cmp : A -> A -> bool) o (l : list (nat * A)) : transitive cmp -> consistent l ->
  (N.of_nat (length l) <= 10 ^ 9)%N ->
  exists ps, dup_pairs cmp (map snd l) ps /\
    unique_check cmp o l = Ok (verdict (map (fun p => (o, dup_text p)) ps)).
Proof.
  intros Ht Hc Hl. destruct (unique_check_spec cmp o Ht l Hc Hl) as (ps & E & S & H).
  exists ps. split; [split; assumption|]. rewrite E. destruct ps; reflexivity.
Qed.
Lemma members_reports {A} (cmp : A -> A -> bool) o (l : list A) : transitive cmp -> (N.of_nat (length l) <= 10 ^ 9)%N ->
  exists ps, dup_pairs cmp l ps /\ unique_check cmp o (own_tags l) = Ok (verdict (map (fun p => (o, dup_text p)) ps)).
Proof.
  intros Ht Hl. destruct (unique_reports cmp o (own_tags l) Ht (own_tags_consistent l)) as (ps & H & E).
  - rewrite own_tags_length. exact Hl.
  - rewrite own_tags_snd in H. eauto.
Qed.
Lemma pkg_cmp_trans : transitive pkg_cmp.
Proof.
  intros a b c H1 H2. destruct pkg_equivalence as (_ & _ & _ & _ & Ht & _).
  specialize (Ht a b c I I I ltac:(now rewrite H1) ltac:(now rewrite H2)). now injection Ht.
Qed.
Lemma gid_cmp_trans : transitive gid_cmp.
Proof.
  intros a b c H1 H2. destruct gid_equivalence as (_ & _ & _ & _ & Ht & _).
  specialize (Ht a b c I I I ltac:(now rewrite H1) ltac:(now rewrite H2)). now injection Ht.
Qed.

(** What the id check of an object says. *)
Definition id_says (b : base) (ms : list str) : Prop :=
  (rt_get (b_props b) (S_ "id") = Ok None /\ ms = [S_ "attr not set"]) \/
  (rt_get (b_props b) (S_ "id") = Ok (Some (PStr (Some []))) /\ ms = [S_ "attr empty"]) \/
  (exists s, rt_get (b_props b) (S_ "id") = Ok (Some (PStr s)) /\ s <> Some [] /\ ms = []).
(** What a duplicate check says. *)
Definition dups_say {A} (cmp : A -> A -> bool) (l : list A) (ms : list str) : Prop :=
  exists ps, dup_pairs cmp l ps /\
    ms = map (fun p => S_ "Duplicate items at " ++ dec (N.of_nat (fst p)) ++ S_ " and " ++ dec (N.of_nat (snd p))) ps.
Definition group_says (g : group) (ms : list str) : Prop :=
  exists a b, id_says (g_base g) a /\ dups_say pkg_cmp (g_pkgs g) b /\
    ms = map (app (S_ "Group id check: ")) a ++ map (app (S_ "Group unique package list check: ")) b.
Definition category_says (c : category) (ms : list str) : Prop :=
  exists a b, id_says (c_base c) a /\ dups_say gid_cmp (c_gids c) b /\
    ms = map (app (S_ "Category id check: ")) a ++ map (app (S_ "Category unique package list check: ")) b.
Definition env_says (e : env) (ms : list str) : Prop :=
  exists a b c, id_says (e_base e) a /\ dups_say gid_cmp (e_groups e) b /\ dups_say gid_cmp (e_options e) c /\
    ms = map (app (S_ "Environment id check: ")) a ++ map (app (S_ "Environment unique group list check: ")) b
         ++ map (app (S_ "Environment unique option list check: ")) c.
(** Every message with its object and the position of the object in the list. *)
Fixpoint list_said {A} (head : str) (inj : A -> vobj) (i : N) (l : list A) (mss : list (list str)) : list (vobj * str) :=
  match l, mss with
  | o :: l', ms :: mss' =>
      map (fun m => (inj o, head ++ dec i ++ S_ "." ++ m)) ms ++ list_said head inj (N.succ i) l' mss'
  | _, _ => []
  end.
Definition doc_says (p : parts) (out : list (vobj * str)) : Prop :=
  exists gs cs es, Forall2 group_says (pt_groups p) gs /\ Forall2 category_says (pt_cats p) cs /\
    Forall2 env_says (pt_envs p) es /\
    out = list_said (S_ "Groups check:") VGroup 0 (pt_groups p) gs
          ++ list_said (S_ "Categories check:") VCategory 0 (pt_cats p) cs
          ++ list_said (S_ "Environments check:") VEnv 0 (pt_envs p) es.
(** The ids are strings and the lists are not gigantic. *)
Definition id_string (b : base) : Prop :=
  forall v, rt_get (b_props b) (S_ "id") = Ok (Some v) -> exists s, v = PStr s.
Definition small {A} (l : list A) : Prop := (N.of_nat (length l) <= 10 ^ 9)%N.
Definition checkable (p : parts) : Prop :=
  Forall (fun g => id_string (g_base g) /\ small (g_pkgs g)) (pt_groups p) /\
  Forall (fun c => id_string (c_base c) /\ small (c_gids c)) (pt_cats p) /\
  Forall (fun e => id_string (e_base e) /\ small (e_groups e) /\ small (e_options e)) (pt_envs p) /\
  small (pt_groups p) /\ small (pt_cats p) /\ small (pt_envs p).
(** What validity is meant to be. *)
Definition id_given (b : base) : Prop :=
  exists s, rt_get (b_props b) (S_ "id") = Ok (Some (PStr s)) /\ s <> Some [].
Definition doc_valid (p : parts) : Prop :=
  Forall (fun g => id_given (g_base g) /\ distinct pkg_cmp (g_pkgs g)) (pt_groups p) /\
  Forall (fun c => id_given (c_base c) /\ distinct gid_cmp (c_gids c)) (pt_cats p) /\
  Forall (fun e => id_given (e_base e) /\ distinct gid_cmp (e_groups e) /\ distinct gid_cmp (e_options e)) (pt_envs p).

Lemma id_check o b : id_string b -> exists ms, id_says b ms /\
  (v <- base_get b (S_ "id") ;; empty_check o v) = Ok (verdict (map (fun m => (o, m)) ms)).
Proof.
  intros H. unfold base_get. assert (G := rt_get_look (b_props b) (S_ "id")).
  rewrite G. cbn [bind]. destruct (look _ _) as [v|].
  - destruct (H v G) as (s & ->). destruct s as [[|c s]|].
    + exists [S_ "attr empty"]. split; [right; left; now split|reflexivity].
    + exists []. split; [right; right; exists (Some (c :: s)); split; [exact G|split; [discriminate|reflexivity]]|reflexivity].
    + exists []. split; [right; right; exists None; split; [exact G|split; [discriminate|reflexivity]]|reflexivity].
  - exists [S_ "attr not set"]. split; [left; now split|reflexivity].
Qed.
Lemma dup_check {A} (cmp : A -> A -> bool) o (l : list A) : transitive cmp -> small l ->
  exists ms, dups_say cmp l ms /\ unique_check cmp o (own_tags l) = Ok (verdict (map (fun m => (o, m)) ms)).
Proof.
  intros Ht Hl. destruct (members_reports cmp o l Ht Hl) as (ps & H & E).
  exists (map dup_text ps). split; [exists ps; split; [exact H|reflexivity]|]. rewrite E. now rewrite map_map.
Qed.
Lemma pfx_said p o ms : pfx p (map (fun m => (o, m)) ms) = map (fun m => (o, m)) (map (app p) ms).
Proof. unfold pfx. rewrite !map_map. reflexivity. Qed.
Lemma group_checked g : id_string (g_base g) -> small (g_pkgs g) ->
  exists ms, group_says g ms /\ execute g group_rules = Ok (verdict (map (fun m => (VGroup g, m)) ms)).
Proof.
  intros Hi Hs. destruct (id_check (VGroup g) _ Hi) as (a & Ha & Ea).
  destruct (dup_check pkg_cmp (VGroup g) _ pkg_cmp_trans Hs) as (b & Hb & Eb).
  eexists. split; [exists a, b; split; [exact Ha|split; [exact Hb|reflexivity]]|].
  rewrite (execute_ok g group_rules [map (fun m => (VGroup g, m)) a; map (fun m => (VGroup g, m)) b])
    by (constructor; [exact Ea|constructor; [exact Eb|constructor]]).
  cbn [reports group_rules fst]. rewrite !pfx_said, app_nil_r, map_app. reflexivity.
Qed.
Lemma category_checked c : id_string (c_base c) -> small (c_gids c) ->
  exists ms, category_says c ms /\ execute c category_rules = Ok (verdict (map (fun m => (VCategory c, m)) ms)).
Proof.
  intros Hi Hs. destruct (id_check (VCategory c) _ Hi) as (a & Ha & Ea).
  destruct (dup_check gid_cmp (VCategory c) _ gid_cmp_trans Hs) as (b & Hb & Eb).
  eexists. split; [exists a, b; split; [exact Ha|split; [exact Hb|reflexivity]]|].
  rewrite (execute_ok c category_rules [map (fun m => (VCategory c, m)) a; map (fun m => (VCategory c, m)) b])
    by (constructor; [exact Ea|constructor; [exact Eb|constructor]]).
  cbn [reports category_rules fst]. rewrite !pfx_said, app_nil_r, map_app. reflexivity.
Qed.
Lemma env_checked e : id_string (e_base e) -> small (e_groups e) -> small (e_options e) ->
  exists ms, env_says e ms /\ execute e env_rules = Ok (verdict (map (fun m => (VEnv e, m)) ms)).
Proof.
  intros Hi Hs Ho. destruct (id_check (VEnv e) _ Hi) as (a & Ha & Ea).
  destruct (dup_check gid_cmp (VEnv e) _ gid_cmp_trans Hs) as (b & Hb & Eb).
  destruct (dup_check gid_cmp (VEnv e) _ gid_cmp_trans Ho) as (c & Hc & Ec).
  eexists. split; [exists a, b, c; split; [exact Ha|split; [exact Hb|split; [exact Hc|reflexivity]]]|].
  rewrite (execute_ok e env_rules [map (fun m => (VEnv e, m)) a; map (fun m => (VEnv e, m)) b; map (fun m => (VEnv e, m)) c])
    by (constructor; [exact Ea|constructor; [exact Eb|constructor; [exact Ec|constructor]]]).
  cbn [reports env_rules fst]. rewrite !pfx_said, app_nil_r, !map_app. reflexivity.
Qed.
Lemma numbered_said {A} head (inj : A -> vobj) : forall l mss i, length l = length mss ->
  pfx head (numbered i l (map (fun p => map (fun m => (inj (fst p), m)) (snd p)) (combine l mss)))
  = list_said head inj i l mss.
Proof.
  induction l as [|o l IH]; intros [|ms mss] i H; try discriminate; [reflexivity|].
  cbn [combine map numbered list_said fst snd]. cbn in H.
  assert (P : forall a b, pfx head (a ++ b) = pfx head a ++ pfx head b) by (intros; apply map_app).
  rewrite P, IH by lia. f_equal. unfold pfx. rewrite !map_map. apply map_ext. intros m. cbn. now rewrite <- app_assoc.
Qed.
Lemma list_checked {A} head (rules : list (rule A)) (inj : A -> vobj) (says : A -> list str -> Prop) l :
  Forall (fun o => exists ms, says o ms /\ execute o rules = Ok (verdict (map (fun m => (inj o, m)) ms))) l ->
  small l ->
  exists mss out, Forall2 says l mss /\ listobjs_validate rules l = Ok (verdict out) /\
    pfx head out = list_said head inj 0 l mss.
Proof.
  intros H Hs.
  assert (exists mss, Forall2 says l mss /\
    Forall2 (fun o ms => execute o rules = Ok (verdict ms)) l
      (map (fun p => map (fun m => (inj (fst p), m)) (snd p)) (combine l mss))) as (mss & H1 & H2).
  { clear Hs. induction H as [|o l (ms & Hm & He) _ (mss & H1 & H2)]; [exists []; split; constructor|].
    exists (ms :: mss). cbn. split; constructor; auto. }
  eexists mss, _. split; [exact H1|]. split; [apply listobjs_ok; [exact H2|]|].
  - unfold small in Hs. assert (10 ^ 9 = 1000000000)%N by reflexivity. assert (2 ^ 32 = 4294967296)%N by reflexivity. lia.
  - apply numbered_said. exact (Forall2_length _ _ _ H1).
Qed.
Lemma doc_checked d : docwf d -> checkable (doc_parts d) ->
  exists out, doc_says (doc_parts d) out /\ doc_validate d = Ok (verdict out).
Proof.
  intros Hw (Hg & Hc & He & Lg & Lc & Le).
  destruct (list_checked (S_ "Groups check:") group_rules VGroup group_says (pt_groups (doc_parts d))) as (gs & og & G1 & G2 & G3); [|exact Lg|].
  { eapply Forall_impl; [|exact Hg]. intros g [H1 H2]. now apply group_checked. }
  destruct (list_checked (S_ "Categories check:") category_rules VCategory category_says (pt_cats (doc_parts d))) as (cs & oc & C1 & C2 & C3); [|exact Lc|].
  { eapply Forall_impl; [|exact Hc]. intros g [H1 H2]. now apply category_checked. }
  destruct (list_checked (S_ "Environments check:") env_rules VEnv env_says (pt_envs (doc_parts d))) as (es & oe & E1 & E2 & E3); [|exact Le|].
  { eapply Forall_impl; [|exact He]. intros g (H1 & H2 & H3). now apply env_checked. }
  eexists. split; [exists gs, cs, es; split; [exact G1|split; [exact C1|split; [exact E1|reflexivity]]]|].
  unfold doc_validate. rewrite (execute_ok d doc_rules [og; oc; oe]).
  - cbn [reports doc_rules fst]. rewrite app_nil_r, G3, C3, E3. reflexivity.
  - destruct (doc_groups_ok d Hw) as (d1 & E4 & _). destruct (doc_cats_ok d Hw) as (d2 & E5 & _).
    destruct (doc_envs_ok d Hw) as (d3 & E6 & _).
    constructor; [|constructor; [|constructor; [|constructor]]]; cbn [snd doc_rules];
      [rewrite E4|rewrite E5|rewrite E6]; cbn [bind snd]; assumption.
Qed.
Lemma id_says_none b ms : id_says b ms -> (ms = [] <-> id_given b).
Proof.
  intros [(E & ->)|[(E & ->)|(s & E & Hs & ->)]]; split; try discriminate.
  - intros (s' & E' & _). congruence.
  - intros (s' & E' & Hs). rewrite E in E'. injection E' as <-. now destruct Hs.
  - intros _. exists s. now split.
  - reflexivity.
Qed.
Lemma dups_say_none {A} (cmp : A -> A -> bool) l ms : dups_say cmp l ms -> (ms = [] <-> distinct cmp l).
Proof.
  intros (ps & H & ->). rewrite <- (dup_pairs_none cmp l ps H). split; [apply map_eq_nil|now intros ->].
Qed.
Lemma app_nil_iff {A} (a b : list A) : a ++ b = [] <-> a = [] /\ b = [].
Proof. split; [apply app_eq_nil|intros [-> ->]; reflexivity]. Qed.
Lemma map_nil_iff {A B} (f : A -> B) l : map f l = [] <-> l = [].
Proof. split; [apply map_eq_nil|now intros ->]. Qed.
Lemma list_said_none {A} head (inj : A -> vobj) (says : A -> list str -> Prop) (P : A -> Prop) :
  (forall o ms, says o ms -> (ms = [] <-> P o)) ->
  forall l mss, Forall2 says l mss -> forall i, list_said head inj i l mss = [] <-> Forall P l.
Proof.
  intros Hp l mss H. induction H as [|o ms l mss Ho H IH]; intros i; [split; constructor|].
  cbn [list_said]. rewrite app_nil_iff, map_nil_iff, (Hp o ms Ho), IH. split.
  - intros [H1 H2]. now constructor.
  - intros HF. inversion HF; auto.
Qed.
Lemma doc_says_none p out : doc_says p out -> (out = [] <-> doc_valid p).
Proof.
  intros (gs & cs & es & G & C & E & ->). rewrite !app_nil_iff. unfold doc_valid.
  rewrite (list_said_none _ _ group_says (fun g => id_given (g_base g) /\ distinct pkg_cmp (g_pkgs g))) with (2 := G).
  rewrite (list_said_none _ _ category_says (fun c => id_given (c_base c) /\ distinct gid_cmp (c_gids c))) with (2 := C).
  rewrite (list_said_none _ _ env_says (fun e => id_given (e_base e) /\ distinct gid_cmp (e_groups e) /\ distinct gid_cmp (e_options e))) with (2 := E).
  - reflexivity.
  - intros o ms (a & b & c & Ha & Hb & Hc & ->). rewrite !app_nil_iff, !map_nil_iff, (id_says_none _ _ Ha), (dups_say_none _ _ _ Hb), (dups_say_none _ _ _ Hc). reflexivity.
  - intros o ms (a & b & Ha & Hb & ->). rewrite !app_nil_iff, !map_nil_iff, (id_says_none _ _ Ha), (dups_say_none _ _ _ Hb). reflexivity.
  - intros o ms (a & b & Ha & Hb & ->). rewrite !app_nil_iff, !map_nil_iff, (id_says_none _ _ Ha), (dups_say_none _ _ _ Hb). reflexivity.
Qed.
Lemma doc_ok_iff d : docwf d -> checkable (doc_parts d) -> (doc_validate d = Ok VOk <-> doc_valid (doc_parts d)).
Proof.
  intros Hw Hc. destruct (doc_checked d Hw Hc) as (out & Hs & ->). rewrite <- (doc_says_none _ _ Hs).
  destruct out; cbn; split; congruence.
Qed.
