(** Property theorems for saving and loading documents of every kind (C40, C92).

    [load_file] and [load_str] (TextModel) load the bytes that saving printed;
    [loaded_any] (SpecR6) says what is then there: every object that is not left
    out, its texts less some of their white space, and return code 0 exactly when
    nothing of it is missing. *)
From Coq Require Import NArith.
From Verif Require Import CStr CStrFacts HSListModel HSListFacts RTreeModel RTreeFacts RTreeFacts2 RTreeFacts3 RTreeFacts4 MRTreeModel MRTreeFacts MRTreeFacts2
  ObjModel ObjFacts ObjFacts2 Dec StrModel StrFacts DocModel DocFacts DocFacts2 SpecA SpecB SpecC PropertiesC SpecD SpecD2 PropertiesD SpecE ParseModel ParseFacts SpecF SpecF2 SpecF3 SpecF4
  XmlModel XmlFacts SpecG SpecG2 SpecG3 SpecG4 SpecG5 SpecG6 SpecG7 PropertiesG PropertiesG2 Utf8Facts TextModel TextFacts TextFacts2 TextFacts3 TextFacts4 TextFacts5 TextFacts6 TextFacts7 PropertiesP
  SpecR SpecR2 SpecR3 SpecR4 SpecR5 SpecR6.

(** * C92 *)
(** [parts_fit]: the display orders are absent or numbers that an int can hold, as
    the accessors of the library ensure. *)
Theorem C92_file : forall ac name saved x df d w' r st, docwf d -> parts_fit (doc_parts d) ->
  comps2xml_f ac name saved x df d w0 = Ok (w', r) -> Forall (fun c => snd c = true) (w_calls w') ->
  enc_str d = ! "UTF-8" -> doctype_ok d -> Forall xml_text (strs (calls w')) -> ready st ->
  exists b st' c, printed (calls w') = Some b /\ load_file st b df = Some (Ok (st', c)) /\ ready st' /\ loaded_any (opt_dopts df) (opt_xopts x) d (ps_enc st) st' c.
Proof. exact any_file. Qed.
Print Assumptions C92_file.
Theorem C92_string : forall ac x df d w' en, docwf d -> parts_fit (doc_parts d) ->
  comps2xml_str ac x df d w0 = Ok (w', tt) -> Forall (fun c => snd c = true) (w_calls w') ->
  enc_str d = ! "UTF-8" -> doctype_ok d -> Forall xml_text (strs (calls w')) ->
  exists b st' c, printed (calls w') = Some b /\ load_str (parsed_init en) b df = Some (Ok (st', c)) /\ loaded_any (opt_dopts df) (opt_xopts x) d en st' c.
Proof. exact any_str. Qed.
Print Assumptions C92_string.
(** Whatever the parser of the XML does with the white space of texts. *)
Theorem C92_events : forall ac name saved x df d w' r cs' st fs, docwf d -> parts_fit (doc_parts d) ->
  comps2xml_f ac name saved x df d w0 = Ok (w', r) -> Forall (fun c => snd c = true) (w_calls w') ->
  Forall2 (retext thinner) (calls w') cs' -> heard [] cs' (concat (map fst fs)) -> Forall (fun f => snd f = None) fs -> ready st ->
  exists st' c, parse_file false st (Some fs) df = Ok (st', c) /\ ready st' /\ loaded_any (opt_dopts df) (opt_xopts x) d (ps_enc st) st' c.
Proof. exact any_events. Qed.
Print Assumptions C92_events.
(** The text that is read has every character that is no white space, in order; a
    text without white space is read as it was; only a blank text is missing. *)
Theorem C92_texts : forall s x, text_after s x ->
  (x = None <-> blank s) /\ (forall s', x = Some (Some s') -> filter (fun c => negb (is_space c)) s' = filter (fun c => negb (is_space c)) s) /\
  (s <> [] -> Forall (fun c => ~ white c) s -> x = Some (Some s)).
Proof.
  intros s x [[Hb ->]|(s' & Ht & Hb & ->)].
  - split; [tauto|]. split; [discriminate|]. intros Hn Hf. exfalso. destruct s as [|c s]; [congruence|]. apply Forall_cons_iff in Hf, Hb. tauto.
  - split; [|split].
    + split; [discriminate|]. intros Hs. elim Hb. clear -Ht Hs. induction Ht as [|c s s' _ IH|c s s' _ _ IH]; [constructor| |]; apply Forall_cons_iff in Hs; [constructor|]; tauto.
    + intros s1 E. injection E as <-. now apply thinner_ink.
    + intros _ Hf. now rewrite (thinner_id _ _ Ht Hf).
Qed.
Print Assumptions C92_texts.
(** A document with everything that is outside the normal form: a blank name and
    a blank translation, a package without a name and one of an unknown type,
    a category without an id, an empty group, entries without text, and keys of the
    blacklist that part inside a word. *)
Definition odd_base : base := mkB (b_props (named_base " g 1 " [str_p "name" "  "; str_p "desc" "two words"; (S_ "display_order", PNum 7); (S_ "def", PNum 5)]))
  (tree_of [(S_ "cs", so " "); (S_ "de", so "Kern")]) (tree_of []).
Definition odd_ops : list dop :=
  [OAddGroup (mkG odd_base [mkp "p" 0; mkPkg None None (Some 0%Z) 7 (Some [so "a b"; so "c"])]); OAddGroup (mkG (named_base "empty" []) []);
   OAddCat (mkC base_create [mki " " false]);
   OSetLangpacks (tree_of [(S_ "a", None); (S_ "b", so "x")]); OSetBlacklist (mtree_of [(S_ "abc", so "1"); (S_ "abd", None)])].
Definition odd_doc : doc := doc_of odd_ops.
Lemma odd_base_ok : breach odd_base.
Proof. split; [apply named_base_ok|]. split; apply tree_of_ok. Qed.
Lemma odd_doc_ok : dreach odd_doc.
Proof.
  apply doc_of_ok. constructor; [apply odd_base_ok|]. constructor; [apply named_base_ok|].
  constructor; [split; [constructor|split; constructor]|]. constructor; [apply tree_of_ok|]. constructor; [apply mtree_of_ok, nonempty_keys_b; vm_compute; reflexivity|constructor].
Qed.
Definition fitb (b : base) : bool := match base_get b (S_ "display_order") with Ok None => true | Ok (Some (PNum z)) => (z <=? 2147483647)%Z | Ok _ => false | _ => true end.
Lemma fitb_ok b : fitb b = true -> fits b.
Proof.
  unfold fitb, fits, SpecG.prop, order_fits. intros H v E. rewrite E in H. destruct v as [[|z|]|]; try discriminate; [right|now left]. apply Z.leb_le in H. eauto.
Qed.
Definition partsfitb (p : parts) : bool := forallb (fun g => fitb (g_base g)) (pt_groups p) && forallb (fun c => fitb (c_base c)) (pt_cats p) && forallb (fun e => fitb (e_base e)) (pt_envs p).
Lemma partsfitb_ok p : partsfitb p = true -> parts_fit p.
Proof.
  unfold partsfitb. rewrite !andb_true_iff. intros [[H1 H2] H3]. split; [|split]; apply Forall_forall; intros g Hi; apply fitb_ok.
  - rewrite forallb_forall in H1. now apply H1.
  - rewrite forallb_forall in H2. now apply H2.
  - rewrite forallb_forall in H3. now apply H3.
Qed.
Definition odd_loaded : option (Z * nat * parts) :=
  match load_str (parsed_init (so "UTF-8")) (bytes_of (calls (str_of odd_doc))) None with
  | Some (Ok (st, c)) => match ps_doc st with PLive d => Some (c, length (ps_log st), doc_parts d) | _ => None end
  | _ => None end.
Example C92_case : docwf odd_doc /\ parts_fit (doc_parts odd_doc) /\ comps2xml_str always_ok None None odd_doc w0 = Ok (str_of odd_doc, tt) /\
  Forall (fun c => snd c = true) (w_calls (str_of odd_doc)) /\ enc_str odd_doc = ! "UTF-8" /\ doctype_ok odd_doc /\ Forall xml_text (strs (calls (str_of odd_doc))) /\
  exists p, odd_loaded = Some (1%Z, 7, p) /\
    map (fun g => (map (fun k => prop_of k g) ["id"; "name"; "desc"; "def"]%string, map p_name (g_pkgs g), map p_type (g_pkgs g))) (pt_groups p) =
      [([Ok (Some (PStr (so " g 1 "))); Ok None; Ok (Some (PStr (so "two words"))); Ok (Some (PNum 1))], [Some (so "p"); None], [0; 0]%Z)] /\
    map (fun c => base_get (c_base c) (S_ "id")) (pt_cats p) = [Ok None] /\ map c_gids (pt_cats p) = [[mkGid (Some None) false None]] /\
    rt_get (pt_langpacks p) (S_ "a") = Ok (Some (so "")) /\ mt_get (pt_blacklist p) (S_ "abc") = Ok (Some [MNest [MV (so "[1]")]]).
Proof.
  split; [apply dreach_wf, odd_doc_ok|]. split; [apply partsfitb_ok; vm_compute; reflexivity|]. split; [vm_compute; reflexivity|].
  split; [apply Forall_forall; apply forallb_forall; vm_compute; reflexivity|]. split; [vm_compute; reflexivity|]. split; [apply default_type; vm_compute; reflexivity|].
  split; [apply plainb_xml; vm_compute; reflexivity|]. eexists. split; [vm_compute; reflexivity|]. split; [vm_compute; reflexivity|].
  split; [vm_compute; reflexivity|]. split; [vm_compute; reflexivity|]. split; vm_compute; reflexivity.
Qed.

(** * C40 *)
(** Under any options and defaults the booleans of every group that is saved mean
    the same after loading, whatever else the document has. *)
Lemma read_booleans df o g g' : group_read df o g g' -> same_booleans df g g'.
Proof.
  intros (_ & _ & _ & B1 & B2 & B3 & _) k dflt Hi.
  assert (Hm : forall b : res (option pval), meaning b dflt = true <-> match b with Ok (Some (PNum z)) => z <> 0%Z | _ => dflt = true end).
  { intros [[[|z|]|]| |]; cbn; try tauto. rewrite negb_true_iff, Z.eqb_neq. tauto. }
  cbn [In] in Hi. destruct Hi as [Hi|[Hi|[Hi|[]]]]; apply pair_equal_spec in Hi; destruct Hi as [<- <-]; eexists.
  - split; [exact B1|apply Hm].
  - split; [exact B2|apply Hm].
  - split; [exact B3|apply Hm].
Qed.
Definition booleans_kept (df : dopts) (o : xopts) (d : doc) (st' : pst) : Prop :=
  exists d' gs, ps_doc st' = PLive d' /\ kept (group_left_out o) (pt_groups (doc_parts d)) gs /\ Forall2 (same_booleans df) gs (pt_groups (doc_parts d')).
Lemma any_booleans df o d en st' c : loaded_any df o d en st' c -> booleans_kept df o d st'.
Proof.
  intros (d' & E & _ & _ & _ & gs & cs & es & K & _ & _ & F & _). exists d', gs. split; [exact E|]. split; [exact K|]. eapply Forall2_imp; [|exact F]. apply read_booleans.
Qed.
Theorem C40_booleans_file : forall ac name saved x df d w' r st, docwf d -> parts_fit (doc_parts d) ->
  comps2xml_f ac name saved x df d w0 = Ok (w', r) -> Forall (fun c => snd c = true) (w_calls w') ->
  enc_str d = ! "UTF-8" -> doctype_ok d -> Forall xml_text (strs (calls w')) -> ready st ->
  exists b st' c, printed (calls w') = Some b /\ load_file st b df = Some (Ok (st', c)) /\ booleans_kept (opt_dopts df) (opt_xopts x) d st'.
Proof.
  intros ac name saved x df d w' r st H1 H2 H3 H4 H5 H6 H7 H8. destruct (any_file ac name saved x df d w' r st H1 H2 H3 H4 H5 H6 H7 H8) as (b & st' & c & E1 & E2 & _ & L).
  exists b, st', c. split; [exact E1|]. split; [exact E2|]. exact (any_booleans _ _ _ _ _ _ L).
Qed.
Print Assumptions C40_booleans_file.
Theorem C40_booleans_string : forall ac x df d w' en, docwf d -> parts_fit (doc_parts d) ->
  comps2xml_str ac x df d w0 = Ok (w', tt) -> Forall (fun c => snd c = true) (w_calls w') ->
  enc_str d = ! "UTF-8" -> doctype_ok d -> Forall xml_text (strs (calls w')) ->
  exists b st' c, printed (calls w') = Some b /\ load_str (parsed_init en) b df = Some (Ok (st', c)) /\ booleans_kept (opt_dopts df) (opt_xopts x) d st'.
Proof.
  intros ac x df d w' en H1 H2 H3 H4 H5 H6 H7. destruct (any_str ac x df d w' en H1 H2 H3 H4 H5 H6 H7) as (b & st' & c & E1 & E2 & L).
  exists b, st', c. split; [exact E1|]. split; [exact E2|]. exact (any_booleans _ _ _ _ _ _ L).
Qed.
Print Assumptions C40_booleans_string.
Theorem C40_booleans_events : forall ac name saved x df d w' r cs' st fs, docwf d -> parts_fit (doc_parts d) ->
  comps2xml_f ac name saved x df d w0 = Ok (w', r) -> Forall (fun c => snd c = true) (w_calls w') ->
  Forall2 (retext thinner) (calls w') cs' -> heard [] cs' (concat (map fst fs)) -> Forall (fun f => snd f = None) fs -> ready st ->
  exists st' c, parse_file false st (Some fs) df = Ok (st', c) /\ booleans_kept (opt_dopts df) (opt_xopts x) d st'.
Proof.
  intros ac name saved x df d w' r cs' st fs H1 H2 H3 H4 H5 H6 H7 H8. destruct (any_events (RD := thin_reader) ac name saved x df d w' r cs' st fs H1 H2 H3 H4 H5 H6 H7 H8) as (st' & c & E & _ & L).
  exists st', c. split; [exact E|]. exact (any_booleans _ _ _ _ _ _ L).
Qed.
Print Assumptions C40_booleans_events.
(** The hypotheses hold of [odd_doc] (C92_case), whose first group has the value 5
    for "def" and no name. *)
Example C40_odd_case : exists p, odd_loaded = Some (1%Z, 7, p) /\
  map (fun k => map (prop_of k) (pt_groups (doc_parts odd_doc))) ["def"; "uservisible"]%string = [[Ok (Some (PNum 5)); Ok None]; [Ok None; Ok None]] /\
  map (fun k => map (prop_of k) (pt_groups p)) ["def"; "uservisible"]%string = [[Ok (Some (PNum 1))]; [Ok (Some (PNum 1))]].
Proof. eexists. split; [vm_compute; reflexivity|]. split; vm_compute; reflexivity. Qed.
