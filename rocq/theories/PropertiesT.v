(** Property theorems for saving and loading again (C93), and what is read of the
    texts of a string, exactly (C92).

    [doc_stays] (SpecT): every property, translation, package, list and dictionary
    entry is as it was. *)
From Coq Require Import NArith.
From Verif Require Import CStr CStrFacts HSListModel HSListFacts RTreeModel RTreeFacts RTreeFacts2 RTreeFacts3 RTreeFacts4 MRTreeModel MRTreeFacts MRTreeFacts2
  ObjModel ObjFacts ObjFacts2 Dec StrModel StrFacts DocModel DocFacts DocFacts2 SpecA SpecB SpecC PropertiesC SpecD SpecD2 PropertiesD SpecE ParseModel ParseFacts SpecF SpecF2 SpecF3 SpecF4
  XmlModel XmlFacts SpecG SpecG2 SpecG3 SpecG4 SpecG5 SpecG6 SpecG7 PropertiesG PropertiesG2 Utf8Facts TextModel TextFacts TextFacts2 TextFacts3 TextFacts4 TextFacts5 TextFacts6 TextFacts7 PropertiesP
  SpecR SpecR2 SpecR3 SpecR4 SpecR5 SpecR6 PropertiesR SpecT.

(** * C92 *)
(** From a string every text is read as [squeeze] of what was written: less its
    pieces between line ends and markup characters that are blank. *)
Theorem C92_string_exact : forall ac x df d w' en, docwf d -> parts_fit (doc_parts d) ->
  comps2xml_str ac x df d w0 = Ok (w', tt) -> Forall (fun c => snd c = true) (w_calls w') ->
  enc_str d = ! "UTF-8" -> doctype_ok d -> Forall xml_text (strs (calls w')) ->
  exists b st' c, printed (calls w') = Some b /\ load_str (parsed_init en) b df = Some (Ok (st', c)) /\ loaded_any (RD := squeeze_reader) (opt_dopts df) (opt_xopts x) d en st' c.
Proof. exact str_again. Qed.
Print Assumptions C92_string_exact.
(** White space that was not lost at once is never lost. *)
Theorem C92_squeeze_settles : forall s, squeeze (squeeze s) = squeeze s.
Proof. exact squeeze_squeeze. Qed.
Print Assumptions C92_squeeze_settles.
(** The hypotheses hold of [odd_doc] (C92_case). *)
Example C92_squeeze_case : squeeze (S_ " a < b" ++ [LF] ++ S_ " c & & d ") = S_ " a < b c && d " /\ squeeze (S_ " " ++ [LF] ++ S_ " ") = [].
Proof. split; vm_compute; reflexivity. Qed.

(** * C93 *)
(** A document [d1] that was loaded from a save of [d] is saved and loaded again.
    If no list of architectures of [d1] is empty and no list of its blacklist and
    whiteout is empty or holds a list ([parts_tidy]), nothing changes; if the first
    load had no complaint the second has none. *)
Theorem C93_string_partial : forall ac ac' x df d w1 en b1 st1 c1 d1 w2, docwf d -> parts_fit (doc_parts d) ->
  comps2xml_str ac x df d w0 = Ok (w1, tt) -> Forall (fun c => snd c = true) (w_calls w1) ->
  enc_str d = ! "UTF-8" -> doctype_ok d -> Forall xml_text (strs (calls w1)) ->
  printed (calls w1) = Some b1 -> load_str (parsed_init en) b1 df = Some (Ok (st1, c1)) -> ps_doc st1 = PLive d1 -> parts_tidy (doc_parts d1) ->
  comps2xml_str ac' x df d1 w0 = Ok (w2, tt) -> Forall (fun c => snd c = true) (w_calls w2) -> enc_str d1 = ! "UTF-8" -> Forall xml_text (strs (calls w2)) ->
  exists b2 st2 c2 d2, printed (calls w2) = Some b2 /\ load_str (parsed_init en) b2 df = Some (Ok (st2, c2)) /\ ps_doc st2 = PLive d2 /\
    doc_stays d1 d2 /\ (exists a b, doc_cmp d1 d2 = Ok (a, b, true)) /\ (c1 = 0%Z -> c2 = 0%Z /\ ps_log st2 = []).
Proof. exact twice_str. Qed.
Print Assumptions C93_string_partial.
(** Through a file, for any parser of the XML that the second time reports the
    texts as they are. *)
Theorem C93_events_partial : forall ac name saved ac' name' saved' x df d w1 r cs1 st fs1 st1 c1 d1 w2 r2 st' fs2, docwf d -> parts_fit (doc_parts d) ->
  comps2xml_f ac name saved x df d w0 = Ok (w1, r) -> Forall (fun c => snd c = true) (w_calls w1) ->
  Forall2 (retext thinner) (calls w1) cs1 -> heard [] cs1 (concat (map fst fs1)) -> Forall (fun f => snd f = None) fs1 -> ready st ->
  parse_file false st (Some fs1) df = Ok (st1, c1) -> ps_doc st1 = PLive d1 -> parts_tidy (doc_parts d1) ->
  comps2xml_f ac' name' saved' x df d1 w0 = Ok (w2, r2) -> Forall (fun c => snd c = true) (w_calls w2) ->
  heard [] (calls w2) (concat (map fst fs2)) -> Forall (fun f => snd f = None) fs2 -> ready st' -> ps_enc st' = ps_enc st ->
  exists st2 c2 d2, parse_file false st' (Some fs2) df = Ok (st2, c2) /\ ps_doc st2 = PLive d2 /\
    doc_stays d1 d2 /\ (exists a b, doc_cmp d1 d2 = Ok (a, b, true)) /\ (c1 = 0%Z -> c2 = 0%Z /\ ps_log st2 = []).
Proof. exact twice_events. Qed.
Print Assumptions C93_events_partial.

(** Saving to a string under the options [x] and loading it. *)
Definition strx (x : option xopts) (d : doc) : wst := match comps2xml_str always_ok x None d w0 with Ok (w, _) => w | _ => w0 end.
Definition reload (x : option xopts) (d : doc) : option (pst * Z * doc) :=
  match load_str (parsed_init (so "UTF-8")) (bytes_of (calls (strx x d))) None with
  | Some (Ok (st, c)) => match ps_doc st with PLive d' => Some (st, c, d') | _ => None end
  | _ => None end.
(** The conditions on [d] and its save. *)
Definition saves (x : option xopts) (d : doc) : Prop :=
  comps2xml_str always_ok x None d w0 = Ok (strx x d, tt) /\ Forall (fun c => snd c = true) (w_calls (strx x d)) /\ enc_str d = ! "UTF-8" /\ doctype_ok d /\
  Forall xml_text (strs (calls (strx x d))) /\ printed (calls (strx x d)) <> None.
Definition savesb (x : option xopts) (d : doc) : bool :=
  match comps2xml_str always_ok x None d w0 with Ok _ => true | _ => false end && forallb (fun c => snd c) (w_calls (strx x d)) &&
  (if list_eq_dec ascii_dec (enc_str d) (! "UTF-8") then true else false) && forallb plainb (strs (calls (strx x d))) && match printed (calls (strx x d)) with Some _ => true | None => false end.
Lemma savesb_ok x d : savesb x d = true -> doctype_ok d -> saves x d.
Proof.
  unfold savesb. rewrite !andb_true_iff. intros [[[[H1 H2] H3] H4] H5] Hd. split; [|split; [|split; [|split; [exact Hd|split]]]].
  - unfold strx. destruct (comps2xml_str always_ok x None d w0) as [[w []]| |]; [reflexivity|discriminate|discriminate].
  - apply Forall_forall. now apply forallb_forall.
  - destruct (list_eq_dec ascii_dec (enc_str d) (! "UTF-8")) as [E|]; [exact E|discriminate].
  - now apply plainb_xml.
  - destruct (printed (calls (strx x d))); discriminate.
Qed.
(** No list of architectures is empty, by computing. *)
Definition tidyb (p : parts) : bool :=
  let b_ok b := match base_get b (S_ "arches") with Ok (Some (PList [])) => false | _ => true end in
  let a_ok (a : option (list ostr)) := match a with Some [] => false | _ => true end in
  forallb (fun g => b_ok (g_base g) && forallb (fun k => a_ok (p_arches k)) (g_pkgs g)) (pt_groups p) &&
  forallb (fun c => b_ok (c_base c) && forallb (fun k => a_ok (gi_arches k)) (c_gids c)) (pt_cats p) &&
  forallb (fun e => b_ok (e_base e) && forallb (fun k => a_ok (gi_arches k)) (e_groups e) && forallb (fun k => a_ok (gi_arches k)) (e_options e)) (pt_envs p).
Lemma tidyb_ok p : tidyb p = true -> mdict_tidy (pt_blacklist p) -> mdict_tidy (pt_whiteout p) -> parts_tidy p.
Proof.
  unfold tidyb. rewrite !andb_true_iff, !forallb_forall. intros [[H1 H2] H3] Hb Hw.
  assert (B : forall b, match base_get b (S_ "arches") with Ok (Some (PList [])) => false | _ => true end = true -> base_tidy b) by (intros b H E; rewrite E in H; discriminate).
  assert (A : forall a : option (list ostr), match a with Some [] => false | _ => true end = true -> a <> Some []) by (intros a H E; rewrite E in H; discriminate).
  split; [|split; [|split; [|now split]]]; apply Forall_forall; intros g Hg.
  - apply H1 in Hg. apply andb_true_iff in Hg. destruct Hg as [Q1 Q2]. rewrite forallb_forall in Q2. split; [now apply B|]. apply Forall_forall. intros k Hk. apply A. now apply Q2.
  - apply H2 in Hg. apply andb_true_iff in Hg. destruct Hg as [Q1 Q2]. rewrite forallb_forall in Q2. split; [now apply B|]. apply Forall_forall. intros k Hk. apply A. now apply Q2.
  - apply H3 in Hg. rewrite !andb_true_iff, !forallb_forall in Hg. destruct Hg as [[Q1 Q2] Q3].
    split; [now apply B|]. split; apply Forall_forall; intros k Hk; apply A; [now apply Q2|now apply Q3].
Qed.
(** A document that the first load changes much: a blank name, a package of an
    unknown type without a name, architectures with spaces, a package list that is
    empty, a text with white space at a line end. *)
Definition all_arch : option xopts := Some (mkXO false false false false false false false false false false true true).
Definition messy_base : base := mkB (b_props (named_base " g 1 " [str_p "name" "  "; (S_ "desc", PStr (Some (S_ "two  " ++ [LF] ++ S_ " words"))); (S_ "arches", PList [so "a b"; so " c"]); (S_ "def", PNum 5)]))
  (tree_of [(S_ "cs", so " "); (S_ "de", so "Kern")]) (tree_of []).
Definition messy_doc : doc := doc_of
  [OAddGroup (mkG messy_base [mkp "p" 0; mkPkg None (Some (so "")) (Some 0%Z) 7 (Some [so "a b"; so "c"])]); OAddGroup (mkG (named_base "empty" []) []);
   OAddCat (mkC base_create [mki " " false]); OSetLangpacks (tree_of [(S_ "a", None); (S_ "b", so "x")])].
Lemma messy_doc_ok : dreach messy_doc.
Proof.
  apply doc_of_ok. constructor; [split; [apply named_base_ok|split; apply tree_of_ok]|]. constructor; [apply named_base_ok|].
  constructor; [split; [constructor|split; constructor]|]. constructor; [apply tree_of_ok|constructor].
Qed.
Definition reloaded (x : option xopts) (d : doc) : doc := match reload x d with Some (_, _, d') => d' | None => doc_of [] end.
Definition code_of (x : option xopts) (d : doc) : option Z := option_map (fun r => snd (fst r)) (reload x d).
Definition shape (d : doc) :=
  map (fun g => (map (fun k => prop_of k g) ["id"; "name"; "desc"; "arches"; "def"]%string, map p_name (g_pkgs g), map p_requires (g_pkgs g), map p_bao (g_pkgs g), map p_type (g_pkgs g), map p_arches (g_pkgs g))) (pt_groups (doc_parts d)).
Lemma mt_none k : mt_get (@mt_create ostr) k = Ok None.
Proof. destruct k as [|[[] [] [] [] [] [] [] []] k]; reflexivity. Qed.
Example C93_case : docwf messy_doc /\ parts_fit (doc_parts messy_doc) /\ saves all_arch messy_doc /\ code_of all_arch messy_doc = Some 1%Z /\
  parts_tidy (doc_parts (reloaded all_arch messy_doc)) /\ saves all_arch (reloaded all_arch messy_doc) /\ code_of all_arch (reloaded all_arch messy_doc) = Some 1%Z /\
  shape (reloaded all_arch messy_doc) =
    [([Ok (Some (PStr (so " g 1 "))); Ok None; Ok (Some (PStr (so "two   words"))); Ok (Some (PList [so "a"; so "b"; so "c"])); Ok (Some (PNum 1))],
      [Some (so "p"); None], [None; None], [None; Some 1%Z], [0; 0]%Z, [None; Some [so "a"; so "b"; so "c"]])] /\
  shape (reloaded all_arch messy_doc) <> shape messy_doc /\ shape (reloaded all_arch (reloaded all_arch messy_doc)) = shape (reloaded all_arch messy_doc).
Proof.
  split; [apply dreach_wf, messy_doc_ok|]. split; [apply partsfitb_ok; vm_compute; reflexivity|]. split; [apply savesb_ok; [vm_compute; reflexivity|apply default_type; vm_compute; reflexivity]|].
  split; [vm_compute; reflexivity|]. split.
  { assert (E1 : pt_blacklist (doc_parts (reloaded all_arch messy_doc)) = mt_create) by (vm_compute; reflexivity). assert (E2 : pt_whiteout (doc_parts (reloaded all_arch messy_doc)) = mt_create) by (vm_compute; reflexivity).
    apply tidyb_ok; [vm_compute; reflexivity| |]; [rewrite E1|rewrite E2]; intros k l H; rewrite mt_none in H; discriminate. }
  split; [apply savesb_ok; [vm_compute; reflexivity|apply default_type; vm_compute; reflexivity]|]. split; [vm_compute; reflexivity|]. split; [vm_compute; reflexivity|].
  split; [|vm_compute; reflexivity]. intros E. vm_compute in E. discriminate.
Qed.
(** Keys of the blacklist that part inside a word: the value gains a pair of
    brackets at every save and load. *)
Definition parting_doc : doc := doc_of [OSetBlacklist (mtree_of [(S_ "abc", so "1"); (S_ "abd", so "2")])].
Theorem C93_blacklist_refuted : exists d d1 d2, dreach d /\ parts_fit (doc_parts d) /\ saves None d /\ saves None d1 /\ saves None d2 /\
  d1 = reloaded None d /\ d2 = reloaded None d1 /\ code_of None d = Some 0%Z /\ code_of None d1 = Some 0%Z /\
  mt_get (pt_blacklist (doc_parts d1)) (S_ "abc") = Ok (Some [MNest [MV (so "[1]")]]) /\
  mt_get (pt_blacklist (doc_parts d2)) (S_ "abc") = Ok (Some [MNest [MV (so "[[1]]")]]) /\
  mt_get (pt_blacklist (doc_parts (reloaded None d2))) (S_ "abc") = Ok (Some [MNest [MV (so "[[[1]]]")]]).
Proof.
  exists parting_doc, (reloaded None parting_doc), (reloaded None (reloaded None parting_doc)).
  split; [apply doc_of_ok; constructor; [apply mtree_of_ok, nonempty_keys_b; vm_compute; reflexivity|constructor]|]. split; [apply partsfitb_ok; vm_compute; reflexivity|].
  split; [apply savesb_ok; [vm_compute; reflexivity|apply default_type; vm_compute; reflexivity]|].
  split; [apply savesb_ok; [vm_compute; reflexivity|apply default_type; vm_compute; reflexivity]|].
  split; [apply savesb_ok; [vm_compute; reflexivity|apply default_type; vm_compute; reflexivity]|].
  split; [reflexivity|]. split; [reflexivity|]. split; [vm_compute; reflexivity|]. split; [vm_compute; reflexivity|]. split; [vm_compute; reflexivity|]. split; vm_compute; reflexivity.
Qed.
Print Assumptions C93_blacklist_refuted.
(** Architectures that hold no word: the loaded list is empty, and gone the next
    time. *)
Definition wordless_doc : doc := doc_of [OAddGroup (mkG (named_base "g" [str_p "name" "n"; str_p "desc" "d"; (S_ "arches", PList [so ""])]) [mkPkg (Some (so "p")) None None 0 (Some [so " "])])].
Theorem C93_arches_refuted : exists d d1 a b, dreach d /\ parts_fit (doc_parts d) /\ saves all_arch d /\ saves all_arch d1 /\ d1 = reloaded all_arch d /\
  code_of all_arch d = Some 0%Z /\ code_of all_arch d1 = Some 0%Z /\
  map (fun g => (prop_of "arches" g, map p_arches (g_pkgs g))) (pt_groups (doc_parts d1)) = [(Ok (Some (PList [])), [Some []])] /\
  map (fun g => (prop_of "arches" g, map p_arches (g_pkgs g))) (pt_groups (doc_parts (reloaded all_arch d1))) = [(Ok None, [None])] /\
  doc_cmp d1 (reloaded all_arch d1) = Ok (a, b, false).
Proof.
  exists wordless_doc, (reloaded all_arch wordless_doc). do 2 eexists.
  split; [apply doc_of_ok; constructor; [apply named_base_ok|constructor]|]. split; [apply partsfitb_ok; vm_compute; reflexivity|].
  split; [apply savesb_ok; [vm_compute; reflexivity|apply default_type; vm_compute; reflexivity]|].
  split; [apply savesb_ok; [vm_compute; reflexivity|apply default_type; vm_compute; reflexivity]|].
  split; [reflexivity|]. split; [vm_compute; reflexivity|]. split; [vm_compute; reflexivity|]. split; [vm_compute; reflexivity|]. split; [vm_compute; reflexivity|]. vm_compute; reflexivity.
Qed.
Print Assumptions C93_arches_refuted.
