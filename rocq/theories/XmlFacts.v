(** Facts about the saving code: with a writer that accepts every call, the calls
    are the serialisation of a tree, which is computed here directly; with any
    writer, a save in which every call was accepted is such a save. *)
From Verif Require Import CStr CStrFacts HSListModel RTreeModel MRTreeModel ObjModel Dec StrModel DocModel ParseModel XmlModel.

(** ** Trees *)
Inductive xml := Elem (n : str) (attrs : list (str * str)) (body : list xml) | Text (s : str).
Definition attr_call (a : str * str) : call := WAttr (fst a) (snd a).
Fixpoint ser (t : xml) : list call :=
  match t with
  | Text s => [WText s]
  | Elem n a b => WStart n :: map attr_call a ++ flat_map ser b ++ [WEnd]
  end.
Definition sers (l : list xml) : list call := flat_map ser l.

(** ** The trees written *)
Definition arch_attr (o : xopts) (l : option (list ostr)) : res (list (str * str)) :=
  if x_arch o then
    match l with
    | None | Some [] => Ok []
    | Some _ => s <- arch_str l ;; Ok [(S_ "arch", s)]
    end
  else Ok [].
Definition pkg_tree (o : xopts) (p : pkg) : res xml :=
  a <- arch_attr o (p_arches p) ;;
  Ok (Elem (S_ "packagereq")
        (a ++ [(S_ "type", pkg_type_str (p_type p))] ++
         match p_requires p with
         | Some s => match str_tostr s with [] => [] | t => [(S_ "requires", t)] end
         | None => []
         end ++
         (if x_bao o then [(S_ "basearchonly", match p_bao p with Some _ => true_str | None => false_str end)]
          else match p_bao p with
               | Some z => if (z =? 0)%Z then [] else [(S_ "basearchonly", true_str)]
               | None => []
               end))
        [Text (ostr_tostr (p_name p))]).
Definition gid_tree (o : xopts) (g : gid) : res xml :=
  a <- arch_attr o (gi_arches g) ;;
  Ok (Elem (S_ "groupid")
        (a ++ if x_gid_default o || gi_def g then [(S_ "default", bool_str (gi_def g))] else [])
        [Text (ostr_tostr (gi_name g))]).
Definition prop_tree (tag s : str) : xml := Elem tag [] [Text s].
Definition lang_tree (tag : str) (kv : str * ostr) : xml := Elem tag [(S_ "xml:lang", fst kv)] [Text (str_tostr (snd kv))].
Definition row_trees (b : base) (r : row) : res (list xml) :=
  match r with
  | RText key tag =>
      v <- base_get b key ;;
      match v with
      | Some x => s <- pval_tostr (Some x) ;; Ok [prop_tree tag s]
      | None => Ok []
      end
  | RBool key tag explicit dflt =>
      v <- base_get b key ;;
      match v with
      | Some x => c <- num2bool x ;;
                  Ok (if explicit || negb (Bool.eqb c dflt) then [prop_tree tag (bool_str c)] else [])
      | None => Ok (if explicit then [prop_tree tag (bool_str dflt)] else [])
      end
  | RNames => l <- rt_pairs (b_names b) ;; Ok (map (lang_tree (S_ "name")) l)
  | RDescs => l <- rt_pairs (b_descs b) ;; Ok (map (lang_tree (S_ "description")) l)
  end.
Fixpoint rows_trees (b : base) (rows : list row) : res (list xml) :=
  match rows with [] => Ok [] | r :: t => x <- row_trees b r ;; y <- rows_trees b t ;; Ok (x ++ y) end.
Definition members_trees {A} (tag : str) (always : bool) (f : A -> res xml) (l : list A) : res (list xml) :=
  match l, always with
  | [], false => Ok []
  | _, _ => ts <- map_r f l ;; Ok [Elem tag [] ts]
  end.
Definition object_tree (o : xopts) (tag : str) (b : base) (rows : list row) (members : res (list xml)) : res xml :=
  a <- (if x_arch o then l <- base_arches b ;; arch_attr o l else Ok []) ;;
  x <- rows_trees b rows ;; m <- members ;; Ok (Elem tag a (x ++ m)).
(** [inr]: left out, with the id that is logged. *)
Definition skipped (b : base) : res (xml + option pval) := v <- base_get b (S_ "id") ;; Ok (inr v).
Definition kept (x : res xml) : res (xml + option pval) := t <- x ;; Ok (inl t).
Definition group_tree (o : xopts) (d : dopts) (g : group) : res (xml + option pval) :=
  match g_pkgs g, x_empty_groups o with
  | [], false => skipped (g_base g)
  | _, _ => kept (object_tree o (S_ "group") (g_base g) (group_rows o d)
                    (members_trees (S_ "packagelist") (x_empty_packages o) (pkg_tree o) (g_pkgs g)))
  end.
Definition category_tree (o : xopts) (c : category) : res (xml + option pval) :=
  match c_gids c, x_empty_categories o with
  | [], false => skipped (c_base c)
  | _, _ => kept (object_tree o (S_ "category") (c_base c) common_rows
                    (members_trees (S_ "grouplist") (x_empty_grouplist o) (gid_tree o) (c_gids c)))
  end.
Definition env_tree (o : xopts) (e : env) : res (xml + option pval) :=
  match e_groups e, e_options e, x_empty_environments o with
  | [], [], false => skipped (e_base e)
  | _, _, _ => kept (object_tree o (S_ "environment") (e_base e) common_rows
      (g <- members_trees (S_ "grouplist") (x_empty_grouplist o) (gid_tree o) (e_groups e) ;;
       p <- members_trees (S_ "optionlist") (x_empty_optionlist o) (gid_tree o) (e_options e) ;; Ok (g ++ p)))
  end.
Definition trees_of (l : list (xml + option pval)) : list xml := flat_map (fun x => match x with inl t => [t] | inr _ => [] end) l.
Definition ids_of (l : list (xml + option pval)) : list (option pval) := flat_map (fun x => match x with inl _ => [] | inr v => [v] end) l.
Definition entry_tree (tag ka va : str) (kv : str * str) : xml := Elem tag [(ka, fst kv); (va, snd kv)] [].
Definition dict_tree (tag etag ka va : str) (l : list (str * str)) : xml := Elem tag [] (map (entry_tree etag ka va) l).
Definition mdict_trees (tag etag ka va : str) (t : mtree ostr) : res (list xml) :=
  if (mlen t =? 0)%Z then Ok []
  else l <- (ps <- mt_pairs t ;; mpairs_texts ps) ;; Ok [dict_tree tag etag ka va l].
Definition langpack_trees (t : rtree ostr) : res (list xml) :=
  if tlen t =? 0 then Ok []
  else l <- rt_pairs t ;;
       Ok [dict_tree (S_ "langpacks") (S_ "match") (S_ "name") (S_ "install") (map (fun kv => (fst kv, str_tostr (snd kv))) l)].
(** The root and the ids of the objects left out. *)
Definition doc_tree (o : xopts) (df : dopts) (d : doc) : res (xml * list (option pval)) :=
  pg <- doc_groups d ;; gs <- map_r (group_tree o df) (snd pg) ;;
  pc <- doc_cats (fst pg) ;; cs <- map_r (category_tree o) (snd pc) ;;
  pe <- doc_envs (fst pc) ;; es <- map_r (env_tree o) (snd pe) ;;
  pl <- doc_langpacks (fst pe) ;; ls <- langpack_trees (snd pl) ;;
  pb <- doc_blacklist (fst pl) ;; bs <- mdict_trees (S_ "blacklist") (S_ "package") (S_ "name") (S_ "arch") (snd pb) ;;
  pw <- doc_whiteout (fst pb) ;; ws <- mdict_trees (S_ "whiteout") (S_ "ignoredep") (S_ "requires") (S_ "package") (snd pw) ;;
  Ok (Elem (S_ "comps") [] (trees_of gs ++ trees_of cs ++ trees_of es ++ ls ++ bs ++ ws),
      ids_of gs ++ ids_of cs ++ ids_of es).

(** ** A writer that accepts everything *)
Definition always : list (call * bool) -> call -> bool := fun _ _ => true.
Definition wrote (cs : list call) (w : wst) : wst := mkW (w_calls w ++ map (fun c => (c, true)) cs) (w_log w).
Definition told (l : list (Z * list (option pval))) (w : wst) : wst := mkW (w_calls w) (w_log w ++ l).
Lemma wrote_nil w : wrote [] w = w.
Proof. destruct w. unfold wrote. cbn. now rewrite app_nil_r. Qed.
Lemma told_nil w : told [] w = w.
Proof. destruct w. unfold told. cbn. now rewrite app_nil_r. Qed.
Lemma wrote_app a b w : wrote b (wrote a w) = wrote (a ++ b) w.
Proof. unfold wrote. cbn. now rewrite map_app, app_assoc. Qed.
Lemma told_app a b w : told b (told a w) = told (a ++ b) w.
Proof. unfold told. cbn. now rewrite app_assoc. Qed.
Lemma told_wrote a b w : told b (wrote a w) = wrote a (told b w).
Proof. reflexivity. Qed.
Lemma emit_always c w : emit always c w = Ok (wrote [c] w, true).
Proof. reflexivity. Qed.
Lemma wbind_ok {A B} (m : wm A) (f : A -> wm B) w w1 a : m w = Ok (w1, a) -> wbind m f w = f a w1.
Proof. unfold wbind. now intros ->. Qed.
Lemma wbind_emit {B} c (f : bool -> wm B) w : wbind (emit always c) f w = f true (wrote [c] w).
Proof. reflexivity. Qed.
Lemma wbind_ret {A B} (a : A) (f : A -> wm B) w : wbind (wret a) f w = f a w.
Proof. reflexivity. Qed.
Lemma wbind_lift {A B} (x : res A) (f : A -> wm B) w : wbind (wlift x) f w = bind x (fun a => f a w).
Proof. unfold wbind, wlift. destruct x; reflexivity. Qed.
Lemma wbind_assoc {A B C} (m : wm A) (f : A -> wm B) (g : B -> wm C) w : wbind (wbind m f) g w = wbind m (fun a => wbind (f a) g) w.
Proof. unfold wbind. destruct (m w) as [[? ?]| |]; reflexivity. Qed.
Lemma check_true k : check true k = k.
Proof. reflexivity. Qed.
Lemma wbind_prop {B} tag s (f : unit -> wm B) w : wbind (xml_prop always tag s) f w = f tt (wrote (ser (prop_tree tag s)) w).
Proof. unfold xml_prop. rewrite !wbind_assoc, wbind_emit, !wbind_assoc, wbind_emit, !wbind_assoc, wbind_emit, wbind_ret, !wrote_app. reflexivity. Qed.
Lemma xml_arch_ok {B} o l (f : bool -> wm B) w :
  wbind (if x_arch o then xml_arch always l else wret true) f w = bind (arch_attr o l) (fun a => f true (wrote (map attr_call a) w)).
Proof.
  unfold arch_attr. destruct (x_arch o); [|now rewrite wbind_ret; cbn [bind map]; rewrite wrote_nil].
  destruct l as [[|x r]|]; cbn [xml_arch]; try (rewrite wbind_ret; cbn [bind map]; now rewrite wrote_nil).
  rewrite wbind_assoc, wbind_lift. destruct (arch_str _); reflexivity.
Qed.
Ltac w1 := repeat (progress (rewrite ?wbind_emit, ?wbind_ret, ?check_true, ?wrote_app)).

Lemma bind_assoc {A B C} (x : res A) (f : A -> res B) (g : B -> res C) : bind (bind x f) g = bind x (fun a => bind (f a) g).
Proof. destruct x; reflexivity. Qed.
Lemma bind_ext {A B} (x : res A) (f g : A -> res B) : (forall a, f a = g a) -> bind x f = bind x g.
Proof. intros H. destruct x; cbn; auto. Qed.

Lemma pkg_xml_ok o p w : pkg_xml always o p w = bind (pkg_tree o p) (fun t => Ok (wrote (ser t) w, 0%Z)).
Proof.
  unfold pkg_xml, pkg_tree. w1. rewrite xml_arch_ok, bind_assoc. apply bind_ext. intros a. w1.
  change (if (p_type p =? PK_OPTIONAL)%Z then S_ "optional" else if (p_type p =? PK_MANDATORY)%Z then S_ "mandatory"
    else if (p_type p =? PK_CONDITIONAL)%Z then S_ "conditional" else S_ "default") with (pkg_type_str (p_type p)).
  cbn [bind ser flat_map]. rewrite !map_app. cbn [map attr_call fst snd].
  destruct (p_requires p) as [s|]; [destruct (str_tostr s) as [|c t]|];
    (destruct (x_bao o); [|destruct (p_bao p) as [z|]; [destruct (z =? 0)%Z|]]); w1; cbn [map attr_call fst snd];
    repeat (progress (rewrite <- ?app_assoc; cbn [app])); reflexivity.
Qed.
Lemma gid_xml_ok o p w : gid_xml always o p w = bind (gid_tree o p) (fun t => Ok (wrote (ser t) w, 0%Z)).
Proof.
  unfold gid_xml, gid_tree. w1. rewrite xml_arch_ok, bind_assoc. apply bind_ext. intros a. w1.
  cbn [bind ser flat_map]. rewrite !map_app. cbn [map attr_call fst snd].
  destruct (x_gid_default o), (gi_def p); cbn [orb]; w1; cbn [map attr_call fst snd];
    repeat (progress (rewrite <- ?app_assoc; cbn [app])); reflexivity.
Qed.

Lemma pairs_xml_ok tag l : forall k w, pairs_xml always tag l k w = k (wrote (sers (map (lang_tree tag) l)) w).
Proof.
  induction l as [|[lang v] l IH]; intros k w; cbn [pairs_xml map sers flat_map]; [now rewrite wrote_nil|].
  w1. rewrite IH. w1. f_equal.
Qed.
Lemma rows_xml_ok b rows : forall k w, rows_xml always b rows k w = bind (rows_trees b rows) (fun l => k (wrote (sers l) w)).
Proof.
  induction rows as [|r rows IH]; intros k w; cbn [rows_xml rows_trees]; [cbn [bind sers flat_map]; now rewrite wrote_nil|].
  assert (Hstep : forall x, bind (bind (rows_trees b rows) (fun y => Ok (x ++ y))) (fun l => k (wrote (sers l) w))
                  = rows_xml always b rows k (wrote (sers x) w)).
  { intros x. rewrite IH, bind_assoc. apply bind_ext. intros y. cbn [bind]. unfold sers. now rewrite flat_map_app, wrote_app. }
  rewrite bind_assoc. destruct r as [key tag|key tag explicit dflt| |]; cbn [row_trees]; rewrite ?wbind_lift, ?bind_assoc.
  - apply bind_ext. intros [x|]; cbn [bind].
    + rewrite wbind_assoc, wbind_lift, bind_assoc. apply bind_ext. intros s. cbn [bind]. rewrite wbind_prop, Hstep. cbn [sers flat_map]. now rewrite app_nil_r.
    + rewrite wbind_ret, Hstep. cbn [sers flat_map]. now rewrite wrote_nil.
  - apply bind_ext. intros [x|]; cbn [bind].
    + rewrite wbind_assoc, wbind_lift, bind_assoc. apply bind_ext. intros c. cbn [bind]. rewrite Hstep.
      destruct (explicit || negb (Bool.eqb c dflt)).
      * rewrite wbind_prop. cbn [sers flat_map]. now rewrite app_nil_r.
      * rewrite wbind_ret. cbn [sers flat_map]. now rewrite wrote_nil.
    + rewrite Hstep. destruct explicit.
      * rewrite wbind_prop. cbn [sers flat_map]. now rewrite app_nil_r.
      * rewrite wbind_ret. cbn [sers flat_map]. now rewrite wrote_nil.
  - apply bind_ext. intros l. cbn [bind]. now rewrite pairs_xml_ok, Hstep.
  - apply bind_ext. intros l. cbn [bind]. now rewrite pairs_xml_ok, Hstep.
Qed.
Lemma each_xml_ok {A} (f : A -> wm Z) (g : A -> res xml) : (forall x w, f x w = bind (g x) (fun t => Ok (wrote (ser t) w, 0%Z))) ->
  forall l w, each_xml f l w = bind (map_r g l) (fun ts => Ok (wrote (sers ts) w, tt)).
Proof.
  intros H. induction l as [|x l IH]; intros w; cbn [each_xml map_r]; [cbn [bind sers flat_map]; now rewrite wrote_nil|].
  unfold wbind. rewrite H, bind_assoc, bind_assoc. apply bind_ext. intros t. cbn [bind fst snd]. rewrite IH, bind_assoc.
  apply bind_ext. intros ts. cbn [bind sers flat_map]. now rewrite wrote_app.
Qed.
Lemma members_xml_ok {A} tag alw (f : A -> wm Z) (g : A -> res xml) : (forall x w, f x w = bind (g x) (fun t => Ok (wrote (ser t) w, 0%Z))) ->
  forall l k w, members_xml always tag alw f l k w = bind (members_trees tag alw g l) (fun ts => k (wrote (sers ts) w)).
Proof.
  intros H l k w.
  assert (E : forall l', (wbind (emit always (WStart tag)) (fun r => check r (wbind (each_xml f l') (fun _ => wbind (emit always WEnd) (fun r => check r k))))) w
    = bind (bind (map_r g l') (fun ts => Ok [Elem tag [] ts])) (fun ts => k (wrote (sers ts) w))).
  { intros l'. w1. unfold wbind at 1. rewrite (each_xml_ok f g H), !bind_assoc. apply bind_ext. intros ts. cbn [bind fst snd].
    w1. cbn [sers flat_map ser map app]. rewrite app_nil_r. reflexivity. }
  destruct l as [|x l]; [destruct alw|]; cbn [members_xml members_trees]; try apply E.
  cbn [bind sers flat_map]. now rewrite wrote_nil.
Qed.
Lemma object_xml_ok o tag b rows (mx : wm Z -> wm Z) (mt : res (list xml)) :
  (forall k w, mx k w = bind mt (fun ts => k (wrote (sers ts) w))) ->
  forall w, object_xml always o tag b rows mx w = bind (object_tree o tag b rows mt) (fun t => Ok (wrote (ser t) w, 0%Z)).
Proof.
  intros H w. unfold object_xml, object_tree. w1.
  assert (E : wbind (if x_arch o then wbind (wlift (base_arches b)) (fun l => xml_arch always l) else wret true)
     (fun r => check r (rows_xml always b rows (mx (wbind (emit always WEnd) (fun r => check r (wret 0%Z)))))) (wrote [WStart tag] w)
   = bind (if x_arch o then l <- base_arches b ;; arch_attr o l else Ok [])
       (fun a => rows_xml always b rows (mx (wbind (emit always WEnd) (fun r => check r (wret 0%Z)))) (wrote (WStart tag :: map attr_call a) w))).
  { destruct (x_arch o) eqn:Ea.
    - rewrite wbind_assoc, wbind_lift, bind_assoc. apply bind_ext. intros l.
      pose proof (@xml_arch_ok Z o l (fun r => check r (rows_xml always b rows (mx (wbind (emit always WEnd) (fun r => check r (wret 0%Z)))))) (wrote [WStart tag] w)) as E.
      rewrite Ea in E. rewrite E. apply bind_ext. intros a. now rewrite check_true, wrote_app.
    - rewrite wbind_ret. cbn [bind map]. reflexivity. }
  rewrite E, bind_assoc. apply bind_ext. intros a. rewrite rows_xml_ok, bind_assoc. apply bind_ext. intros x.
  rewrite H, bind_assoc. apply bind_ext. intros m. w1. cbn [bind ser]. unfold wret. f_equal. f_equal. f_equal.
  unfold sers. rewrite flat_map_app. cbn [app]. now rewrite <- !app_assoc.
Qed.
(** What an object contributes. *)
Definition object_result (x : xml + option pval) (w : wst) : wst * Z :=
  match x with
  | inl t => (wrote (ser t) w, 0%Z)
  | inr v => (told [(E_PKGLIST_EMPTY, [v])] w, 1%Z)
  end.
Lemma skipped_ok b w : skipped_xml b w = bind (skipped b) (fun x => Ok (object_result x w)).
Proof. unfold skipped_xml, skipped. rewrite wbind_lift, bind_assoc. apply bind_ext. reflexivity. Qed.
Lemma kept_ok (m : wm Z) t w : m w = bind t (fun t => Ok (wrote (ser t) w, 0%Z)) -> m w = bind (kept t) (fun x => Ok (object_result x w)).
Proof. intros ->. unfold kept. rewrite bind_assoc. apply bind_ext. reflexivity. Qed.
Lemma group_xml_ok o d g w : group_xml always o d g w = bind (group_tree o d g) (fun x => Ok (object_result x w)).
Proof.
  assert (E : object_xml always o (S_ "group") (g_base g) (group_rows o d) (members_xml always (S_ "packagelist") (x_empty_packages o) (pkg_xml always o) (g_pkgs g)) w
    = bind (kept (object_tree o (S_ "group") (g_base g) (group_rows o d)
                    (members_trees (S_ "packagelist") (x_empty_packages o) (pkg_tree o) (g_pkgs g)))) (fun x => Ok (object_result x w))).
  { apply kept_ok, object_xml_ok. intros. apply members_xml_ok. apply pkg_xml_ok. }
  unfold group_xml, group_tree. destruct (g_pkgs g); [destruct (x_empty_groups o); [exact E|apply skipped_ok]|exact E].
Qed.
Lemma category_xml_ok o g w : category_xml always o g w = bind (category_tree o g) (fun x => Ok (object_result x w)).
Proof.
  assert (E : object_xml always o (S_ "category") (c_base g) common_rows (members_xml always (S_ "grouplist") (x_empty_grouplist o) (gid_xml always o) (c_gids g)) w
    = bind (kept (object_tree o (S_ "category") (c_base g) common_rows
                    (members_trees (S_ "grouplist") (x_empty_grouplist o) (gid_tree o) (c_gids g)))) (fun x => Ok (object_result x w))).
  { apply kept_ok, object_xml_ok. intros. apply members_xml_ok. apply gid_xml_ok. }
  unfold category_xml, category_tree. destruct (c_gids g); [destruct (x_empty_categories o); [exact E|apply skipped_ok]|exact E].
Qed.
Lemma env_xml_ok o g w : env_xml always o g w = bind (env_tree o g) (fun x => Ok (object_result x w)).
Proof.
  unfold env_xml, env_tree.
  set (mx := fun k => members_xml always (S_ "grouplist") (x_empty_grouplist o) (gid_xml always o) (e_groups g)
                 (members_xml always (S_ "optionlist") (x_empty_optionlist o) (gid_xml always o) (e_options g) k)).
  set (mt := a <- members_trees (S_ "grouplist") (x_empty_grouplist o) (gid_tree o) (e_groups g) ;;
       p <- members_trees (S_ "optionlist") (x_empty_optionlist o) (gid_tree o) (e_options g) ;; Ok (a ++ p)).
  assert (E : object_xml always o (S_ "environment") (e_base g) common_rows mx w
    = bind (kept (object_tree o (S_ "environment") (e_base g) common_rows mt)) (fun x => Ok (object_result x w))).
  { apply kept_ok, object_xml_ok. intros k w'. unfold mx, mt. rewrite (members_xml_ok _ _ _ _ (gid_xml_ok o)), !bind_assoc.
    apply bind_ext. intros a. rewrite (members_xml_ok _ _ _ _ (gid_xml_ok o)), !bind_assoc. apply bind_ext. intros c. cbn [bind].
    unfold sers. now rewrite flat_map_app, wrote_app. }
  destruct (e_groups g); [destruct (e_options g); [destruct (x_empty_environments o); [exact E|apply skipped_ok]|]|]; exact E.
Qed.

(** The running total of a signed char. *)
Definition total8 (ret : Z) (n : nat) : Z := Nat.iter n (fun r => schar8 (r + 1)) ret.
Definition in8 (z : Z) : Prop := (-128 <= z <= 127)%Z.
Lemma schar8_in z : in8 (schar8 z).
Proof. unfold in8, schar8. pose proof (Z.mod_pos_bound (z + 128) 256 eq_refl). lia. Qed.
Lemma schar8_id z : in8 z -> schar8 z = z.
Proof. unfold in8, schar8. intros. rewrite Z.mod_small; lia. Qed.
Lemma schar8_schar8 z n : schar8 (schar8 z + n) = schar8 (z + n).
Proof. unfold schar8. f_equal. replace ((z + 128) mod 256 - 128 + n + 128)%Z with ((z + 128) mod 256 + n)%Z by lia. rewrite Zplus_mod_idemp_l. f_equal. lia. Qed.
Lemma total8_eq n : forall ret, in8 ret -> total8 ret n = schar8 (ret + Z.of_nat n).
Proof.
  induction n as [|n IH]; intros ret H; [cbn; rewrite Z.add_0_r; symmetry; now apply schar8_id|].
  change (total8 ret (S n)) with (schar8 (total8 ret n + 1)). rewrite (IH ret H), schar8_schar8. f_equal. lia.
Qed.
Definition left_out (l : list (xml + option pval)) : nat := length (ids_of l).
Definition objs_result (l : list (xml + option pval)) (w : wst) : wst :=
  told (map (fun v => (E_PKGLIST_EMPTY, [v])) (ids_of l)) (wrote (sers (trees_of l)) w).
Lemma objs_xml_ok {A} (f : A -> wm Z) (g : A -> res (xml + option pval)) :
  (forall x w, f x w = bind (g x) (fun t => Ok (object_result t w))) ->
  forall l ret k w, in8 ret -> objs_xml f l ret k w
    = bind (map_r g l) (fun ts => k (schar8 (ret + Z.of_nat (left_out ts))) (objs_result ts w)).
Proof.
  intros H. induction l as [|x l IH]; intros ret k w Hr; cbn [objs_xml map_r].
  - cbn [bind left_out ids_of trees_of flat_map length Z.of_nat]. rewrite Z.add_0_r, schar8_id by exact Hr. unfold objs_result. cbn [trees_of ids_of flat_map map sers]. now rewrite wrote_nil, told_nil.
  - unfold wbind. rewrite H, !bind_assoc. apply bind_ext. intros [t|v]; cbn [bind object_result fst snd Z.eqb].
    + rewrite Z.add_0_r, schar8_id, IH, bind_assoc by exact Hr. apply bind_ext. intros ts. cbn [bind].
      replace (left_out (inl t :: ts)) with (left_out ts) by reflexivity. f_equal. unfold objs_result. cbn [trees_of ids_of flat_map app sers].
      rewrite wrote_app. reflexivity.
    + rewrite IH, bind_assoc by apply schar8_in. apply bind_ext. intros ts. cbn [bind]. unfold left_out, objs_result.
      cbn [trees_of ids_of flat_map app sers length map]. f_equal.
      * rewrite schar8_schar8. f_equal. fold (ids_of ts). lia.
      * fold (ids_of ts) (trees_of ts). rewrite <- told_wrote, told_app. reflexivity.
Qed.

Lemma entries_xml_ok tag ka va l : forall k w, entries_xml always tag ka va l k w = k (wrote (sers (map (entry_tree tag ka va) l)) w).
Proof.
  induction l as [|[key v] l IH]; intros k w; cbn [entries_xml map sers flat_map]; [now rewrite wrote_nil|].
  w1. rewrite IH. w1. f_equal.
Qed.
Lemma dict_xml_ok tag etag ka va l k w : dict_xml always tag etag ka va l k w = k (wrote (ser (dict_tree tag etag ka va l)) w).
Proof. unfold dict_xml. w1. rewrite entries_xml_ok. w1. f_equal. Qed.

(** ** The document *)
Definition dtd_calls (n p s : ostr) : list call := [WDTD n p s; WEndDTD].
Definition doc_result (n p s : ostr) (x : xml * list (option pval)) (w : wst) : wst * Z :=
  (told (map (fun v => (E_PKGLIST_EMPTY, [v])) (snd x)) (wrote (dtd_calls n p s ++ ser (fst x)) w),
   schar8 (Z.of_nat (length (snd x)))).
Lemma in8_0 : in8 0.
Proof. unfold in8. lia. Qed.
Lemma wst_ext w w' : w_calls w = w_calls w' -> w_log w = w_log w' -> w = w'.
Proof. destruct w, w'. cbn. congruence. Qed.
Lemma doc_xml_ok o df d n p s w : d_name d = Some n -> d_pubid d = Some p -> d_sysid d = Some s ->
  doc_xml always o df d w = bind (doc_tree o df d) (fun x => Ok (doc_result n p s x w)).
Proof.
  intros En Ep Es. unfold doc_xml, doc_tree. rewrite En, Ep, Es. w1.
  rewrite wbind_lift, !bind_assoc. apply bind_ext. intros pg.
  rewrite (objs_xml_ok _ _ (group_xml_ok o df)), !bind_assoc by exact in8_0. apply bind_ext. intros gs.
  rewrite wbind_lift, !bind_assoc. apply bind_ext. intros pc.
  rewrite (objs_xml_ok _ _ (category_xml_ok o)), !bind_assoc by apply schar8_in. apply bind_ext. intros cs.
  rewrite wbind_lift, !bind_assoc. apply bind_ext. intros pe.
  rewrite (objs_xml_ok _ _ (env_xml_ok o)), !bind_assoc by apply schar8_in. apply bind_ext. intros es.
  rewrite wbind_lift, !bind_assoc. apply bind_ext. intros pl.
  set (w1 := objs_result es _).
  set (ret := schar8 _).
  set (fin := wbind (emit always WEnd) _).
  (* the three dictionaries *)
  assert (Hm : forall tag etag ka va (t : mtree ostr) (k : wm Z) w2,
    (if (mlen t =? 0)%Z then k else wbind (wlift (ps <- mt_pairs t ;; mpairs_texts ps)) (fun l => dict_xml always tag etag ka va l k)) w2
    = bind (mdict_trees tag etag ka va t) (fun ts => k (wrote (sers ts) w2))).
  { intros. unfold mdict_trees. destruct (mlen t =? 0)%Z; [cbn [bind sers flat_map]; now rewrite wrote_nil|].
    rewrite wbind_lift, !bind_assoc. apply bind_ext. intros ps. rewrite ?bind_assoc. apply bind_ext. intros l. cbn [bind sers flat_map].
    now rewrite dict_xml_ok, app_nil_r. }
  assert (Hl : forall (t : rtree ostr) (k : wm Z) w2,
    (if tlen t =? 0 then k else wbind (wlift (rt_pairs t)) (fun l => dict_xml always (S_ "langpacks") (S_ "match") (S_ "name") (S_ "install")
             (map (fun kv => (fst kv, str_tostr (snd kv))) l) k)) w2
    = bind (langpack_trees t) (fun ts => k (wrote (sers ts) w2))).
  { intros. unfold langpack_trees. destruct (tlen t =? 0); [cbn [bind sers flat_map]; now rewrite wrote_nil|].
    rewrite wbind_lift, !bind_assoc. apply bind_ext. intros l. cbn [bind sers flat_map].
    now rewrite dict_xml_ok, app_nil_r. }
  cbv zeta. rewrite Hl, !bind_assoc. apply bind_ext. intros ls.
  rewrite wbind_lift, !bind_assoc. apply bind_ext. intros pb.
  rewrite Hm, !bind_assoc. apply bind_ext. intros bs.
  rewrite wbind_lift, !bind_assoc. apply bind_ext. intros pw.
  rewrite Hm, !bind_assoc. apply bind_ext. intros ws.
  cbn [bind]. unfold fin. rewrite wbind_emit, check_true, !wrote_app. unfold wret, doc_result. cbn [fst snd]. f_equal. f_equal.
  - apply wst_ext.
    + unfold w1, objs_result, told, wrote, dtd_calls. cbn [w_calls ser]. unfold sers. rewrite !flat_map_app, <- !app_assoc. f_equal.
      cbn [map app]. rewrite ?map_app, <- ?app_assoc. cbn [map app]. rewrite ?map_app, <- ?app_assoc. reflexivity.
    + unfold w1, objs_result, told, wrote. cbn [w_log]. now rewrite !map_app, <- !app_assoc.
  - unfold ret, left_out. rewrite schar8_schar8, <- Z.add_assoc, schar8_schar8. f_equal. rewrite !app_length. lia.
Qed.

(** ** Any writer *)
Definition accd (w : wst) : Prop := Forall (fun x => snd x = true) (w_calls w).
Definition grows (w w' : wst) : Prop := exists l, w_calls w' = w_calls w ++ l.
Definition tame {A} (m m' : wm A) : Prop := forall w w' a, m w = Ok (w', a) -> grows w w' /\ (accd w' -> m' w = Ok (w', a)).
Lemma grows_refl w : grows w w.
Proof. exists []. now rewrite app_nil_r. Qed.
Lemma grows_trans a b c : grows a b -> grows b c -> grows a c.
Proof. intros [l E] [l' E']. exists (l ++ l'). now rewrite E', E, app_assoc. Qed.
Lemma grows_accd a b : grows a b -> accd b -> accd a.
Proof. intros [l E]. unfold accd. rewrite E. intros H. now apply Forall_app in H. Qed.
Lemma tame_ret {A} (a : A) : tame (wret a) (wret a).
Proof. intros w w' x E. unfold wret in *. inversion E; subst. split; [apply grows_refl|reflexivity]. Qed.
Lemma tame_lift {A} (x : res A) : tame (wlift x) (wlift x).
Proof. intros w w' a E. split; [|auto]. unfold wlift in E. destruct x; inversion E; subst. apply grows_refl. Qed.
Lemma tame_log c l : tame (wlog c l) (wlog c l).
Proof. intros w w' a E. split; [|auto]. inversion E; subst. exists []. cbn. now rewrite app_nil_r. Qed.
Lemma tame_bind {A B} (m m' : wm A) (f f' : A -> wm B) : tame m m' -> (forall a, tame (f a) (f' a)) -> tame (wbind m f) (wbind m' f').
Proof.
  intros Hm Hf w w' b E. unfold wbind in *. destruct (m w) as [[w1 a]| |] eqn:Em; try discriminate. cbn [bind fst snd] in E.
  destruct (Hm _ _ _ Em) as [G1 H1]. destruct (Hf a _ _ _ E) as [G2 H2]. split; [eapply grows_trans; eauto|].
  intros Ha. rewrite (H1 (grows_accd _ _ G2 Ha)). cbn. auto.
Qed.
Lemma tame_emit ac c : tame (emit ac c) (emit always c).
Proof.
  intros w w' b E. unfold emit in *. inversion E; subst. split; [eexists; reflexivity|]. cbn. intros Ha. unfold accd in Ha. cbn in Ha.
  apply Forall_app in Ha. destruct Ha as [_ Ha]. inversion Ha; subst. cbn in *. now match goal with H : ac _ _ = true |- _ => rewrite H end.
Qed.
Lemma tame_check b (k k' : wm Z) : tame k k' -> tame (check b k) (check b k').
Proof. intros H. unfold check. destruct b; [exact H|]. apply tame_bind; [apply tame_log|intros; apply tame_ret]. Qed.
Ltac tm := repeat first
  [ assumption | apply tame_ret | apply tame_lift | apply tame_log | apply tame_emit | apply tame_check | apply tame_bind | match goal with |- forall _, _ => intros ? end ].
Section Any.
Variable ac : list (call * bool) -> call -> bool.
Lemma xml_prop_tame k v : tame (xml_prop ac k v) (xml_prop always k v).
Proof. unfold xml_prop. tm. Qed.
Lemma xml_arch_tame l : tame (xml_arch ac l) (xml_arch always l).
Proof. unfold xml_arch. destruct l as [[|x l]|]; tm. Qed.
Lemma pkg_xml_tame o p : tame (pkg_xml ac o p) (pkg_xml always o p).
Proof.
  unfold pkg_xml. apply tame_bind; [tm|intros]. apply tame_check, tame_bind; [destruct (x_arch o); [apply xml_arch_tame|tm]|intros].
  apply tame_check. apply tame_bind; [tm|intros]. apply tame_bind.
  { destruct (p_requires p) as [s|]; [destruct (str_tostr s)|]; tm. }
  intros. apply tame_check, tame_bind.
  { destruct (x_bao o); [tm|]. destruct (p_bao p) as [z|]; [destruct (z =? 0)%Z|]; tm. }
  intros. tm.
Qed.
Lemma gid_xml_tame o p : tame (gid_xml ac o p) (gid_xml always o p).
Proof.
  unfold gid_xml. apply tame_bind; [tm|intros]. apply tame_check, tame_bind; [destruct (x_arch o); [apply xml_arch_tame|tm]|intros].
  apply tame_check. destruct (x_gid_default o); [tm|]. destruct (gi_def p); tm.
Qed.
Lemma pairs_xml_tame tag l k k' : tame k k' -> tame (pairs_xml ac tag l k) (pairs_xml always tag l k').
Proof. intros H. induction l as [|[a v] l IH]; cbn [pairs_xml]; [exact H|]. tm. Qed.
Lemma rows_xml_tame b l k k' : tame k k' -> tame (rows_xml ac b l k) (rows_xml always b l k').
Proof.
  intros H. induction l as [|r l IH]; cbn [rows_xml]; [exact H|]. destruct r as [key tag|key tag ex df| |].
  - apply tame_bind; [tm|intros v]. destruct v; (apply tame_bind; [|intros; exact IH]); tm.
  - apply tame_bind; [tm|intros v]. destruct v; (apply tame_bind; [|intros; exact IH]); [apply tame_bind; [tm|intros c]; destruct (ex || negb (Bool.eqb c df))|destruct ex]; tm.
  - apply tame_bind; [tm|intros v]. now apply pairs_xml_tame.
  - apply tame_bind; [tm|intros v]. now apply pairs_xml_tame.
Qed.
Lemma each_xml_tame {A} (f f' : A -> wm Z) l : (forall x, tame (f x) (f' x)) -> tame (each_xml f l) (each_xml f' l).
Proof. intros H. induction l; cbn [each_xml]; tm. apply H. Qed.
Lemma members_xml_tame {A} tag alw (f f' : A -> wm Z) l k k' : (forall x, tame (f x) (f' x)) -> tame k k' ->
  tame (members_xml ac tag alw f l k) (members_xml always tag alw f' l k').
Proof.
  intros H Hk.
  destruct l; [destruct alw|]; cbn [members_xml]; [| |]; [|exact Hk|];
    (apply tame_bind; [tm|intros]; apply tame_check, tame_bind; [now apply each_xml_tame|intros]; tm).
Qed.
Lemma object_xml_tame o tag b rows mx mx' : (forall k k', tame k k' -> tame (mx k) (mx' k')) ->
  tame (object_xml ac o tag b rows mx) (object_xml always o tag b rows mx').
Proof.
  intros H. unfold object_xml. apply tame_bind; [tm|intros]. apply tame_check, tame_bind.
  { destruct (x_arch o); [apply tame_bind; [tm|intros; apply xml_arch_tame]|tm]. }
  intros. apply tame_check, rows_xml_tame, H. tm.
Qed.
Lemma skipped_xml_tame b : tame (skipped_xml b) (skipped_xml b).
Proof. unfold skipped_xml. tm. Qed.
Lemma group_xml_tame o d g : tame (group_xml ac o d g) (group_xml always o d g).
Proof.
  unfold group_xml. destruct (g_pkgs g); [destruct (x_empty_groups o)|]; try apply skipped_xml_tame;
    apply object_xml_tame; intros; apply members_xml_tame; auto; intros; apply pkg_xml_tame.
Qed.
Lemma category_xml_tame o g : tame (category_xml ac o g) (category_xml always o g).
Proof.
  unfold category_xml. destruct (c_gids g); [destruct (x_empty_categories o)|]; try apply skipped_xml_tame;
    apply object_xml_tame; intros; apply members_xml_tame; auto; intros; apply gid_xml_tame.
Qed.
Lemma env_xml_tame o g : tame (env_xml ac o g) (env_xml always o g).
Proof.
  unfold env_xml. destruct (e_groups g); [destruct (e_options g); [destruct (x_empty_environments o)|]|]; try apply skipped_xml_tame;
    apply object_xml_tame; intros; (apply members_xml_tame; [intros; apply gid_xml_tame|]; apply members_xml_tame; [intros; apply gid_xml_tame|auto]).
Qed.
Lemma objs_xml_tame {A} (f f' : A -> wm Z) k k' l : (forall x, tame (f x) (f' x)) -> (forall r, tame (k r) (k' r)) ->
  forall ret, tame (objs_xml f l ret k) (objs_xml f' l ret k').
Proof.
  intros H Hk. induction l; intros ret; cbn [objs_xml]; [apply Hk|]. apply tame_bind; [apply H|intros r]. destruct (r =? -1)%Z; [tm|apply IHl].
Qed.
Lemma entries_xml_tame tag ka va l k k' : tame k k' -> tame (entries_xml ac tag ka va l k) (entries_xml always tag ka va l k').
Proof. intros H. induction l as [|[a v] l IH]; cbn [entries_xml]; [exact H|]. tm. Qed.
Lemma dict_xml_tame tag etag ka va l k k' : tame k k' -> tame (dict_xml ac tag etag ka va l k) (dict_xml always tag etag ka va l k').
Proof. intros H. unfold dict_xml. apply tame_bind; [tm|intros]. apply tame_check, entries_xml_tame. tm. Qed.
Lemma doc_xml_tame o df d : tame (doc_xml ac o df d) (doc_xml always o df d).
Proof.
  unfold doc_xml. destruct (d_name d); [|intros ? ? ? E; discriminate]. destruct (d_pubid d); [|intros ? ? ? E; discriminate].
  destruct (d_sysid d); [|intros ? ? ? E; discriminate].
  apply tame_bind; [tm|intros]. apply tame_bind; [tm|intros]. apply tame_check, tame_bind; [tm|intros]. apply tame_check, tame_bind; [tm|intros pg].
  apply objs_xml_tame; [intros; apply group_xml_tame|intros r1]. apply tame_bind; [tm|intros pc].
  apply objs_xml_tame; [intros; apply category_xml_tame|intros r2]. apply tame_bind; [tm|intros pe].
  apply objs_xml_tame; [intros; apply env_xml_tame|intros r3]. apply tame_bind; [tm|intros pl]. cbv zeta.
  assert (Hfin : tame (r <~ emit ac WEnd ;; check r (wret r3)) (r <~ emit always WEnd ;; check r (wret r3))) by tm.
  destruct (tlen (snd pl) =? 0); [|apply tame_bind; [tm|intros]; apply dict_xml_tame];
   (apply tame_bind; [tm|intros pb]; destruct (mlen (snd pb) =? 0)%Z; [|apply tame_bind; [tm|intros]; apply dict_xml_tame];
    (apply tame_bind; [tm|intros pw]; destruct (mlen (snd pw) =? 0)%Z; [exact Hfin|apply tame_bind; [tm|intros]; apply dict_xml_tame; exact Hfin])).
Qed.
End Any.
