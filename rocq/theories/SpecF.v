(** Specifications for the parser properties: the structure of a comps file as a
    table of names, nesting of tags, text between tags; and the lemmas that
    connect them to the parser model. *)
From Coq Require Import NArith Nnat.
From Verif Require Import CStr CStrFacts HSListModel HSListFacts RTreeModel RTreeFacts RTreeFacts2 RTreeFacts3 RTreeFacts4
  MRTreeModel MRTreeFacts MRTreeFacts2 ObjModel ObjFacts2 Dec StrModel DocModel DocFacts2 SpecA SpecC ParseModel ParseFacts.

(** ** What may stand inside what *)
Definition inside_table : list (string * list string) :=
  [ ("group", ["comps"]); ("category", ["comps"]); ("environment", ["comps"]);
    ("langpacks", ["comps"]); ("blacklist", ["comps"]); ("whiteout", ["comps"]);
    ("id", ["group"; "category"; "environment"]);
    ("name", ["group"; "category"; "environment"]);
    ("description", ["group"; "category"; "environment"]);
    ("display_order", ["group"; "category"; "environment"]);
    ("default", ["group"]); ("langonly", ["group"]); ("uservisible", ["group"]);
    ("biarchonly", ["group"]); ("packagelist", ["group"]);
    ("packagereq", ["packagelist"]);
    ("grouplist", ["category"; "environment"]); ("optionlist", ["environment"]);
    ("groupid", ["grouplist"; "optionlist"]);
    ("match", ["langpacks"]); ("package", ["blacklist"]); ("ignoredep", ["whiteout"]) ]%string.
Definition may_be_in (n p : str) : Prop :=
  exists row, In row inside_table /\ n = S_ (fst row) /\ exists q, In q (snd row) /\ p = S_ q.
(** The open elements, innermost first, form a proper place for the innermost
    one: a chain that ends in a comps element. *)
Inductive legit : list str -> Prop :=
| legit_comps up : legit (S_ "comps" :: up)
| legit_in n p up : may_be_in n p -> legit (p :: up) -> legit (n :: p :: up).

(** ** Nesting *)
Definition frame := (str * list (str * str))%type.
Inductive nested1 : list frame -> event -> list frame -> Prop :=
| nest_start o n a : nested1 o (EStart n a) ((n, a) :: o)
| nest_end o n a : nested1 ((n, a) :: o) (EEnd n) o
| nest_chars o s : nested1 o (EChars s) o
| nest_doctype o n s p : nested1 o (EDoctype n s p) o.
(** [es] is nested properly and takes the open elements [o] to [o']. *)
Inductive nested : list frame -> list event -> list frame -> Prop :=
| nested_nil o : nested o [] o
| nested_cons o e o1 es o' : nested1 o e o1 -> nested o1 es o' -> nested o (e :: es) o'.

(** Text since the last tag: pieces of white space do not count. *)
Definition white (c : ascii) : Prop := c = " "%char \/ c = "009"%char \/ c = "010"%char \/ c = "011"%char \/ c = "012"%char \/ c = "013"%char.
Definition blank (s : str) : Prop := Forall white s.
Inductive text1 : str -> event -> str -> Prop :=
| text_start t n a : text1 t (EStart n a) []
| text_end t n : text1 t (EEnd n) []
| text_blank t s : blank s -> text1 t (EChars s) t
| text_more t s : ~ blank s -> text1 t (EChars s) (t ++ s)
| text_doctype t n s p : text1 t (EDoctype n s p) t.

(** ** Conditions that keep the handlers from going wrong *)
(** A numeral as "%d" reads it, at the start of the text. *)
Definition numeral (s : str) (z : Z) : Prop :=
  exists ws sg ds rest, s = ws ++ sg ++ ds ++ rest /\ blank ws /\ ds <> [] /\ forallb is_digit ds = true /\
    (forall c r, rest = c :: r -> is_digit c = false) /\
    ((sg = [] \/ sg = S_ "+") /\ z = Z.of_N (value ds) \/ sg = S_ "-" /\ z = (- Z.of_N (value ds))%Z).
Definition has_attr (a : list (str * str)) (k : str) : Prop :=
  nonempty_keys a /\ no_late_prefix a /\ latest a k <> None.
Definition objects : list str := map S_ ["group"; "category"; "environment"]%string.
Inductive safe1 (o : list frame) (t : str) : event -> Prop :=
| safe_start n a :
    (n = S_ "comps" -> forall x, In x objects -> ~ In x (map fst o)) ->
    (legit (n :: map fst o) ->
       (n = S_ "match" \/ n = S_ "package" -> has_attr a (S_ "name")) /\
       (n = S_ "ignoredep" -> has_attr a (S_ "requires"))) ->
    safe1 o t (EStart n a)
| safe_end n :
    (legit (map fst o) ->
       (n = S_ "uservisible" \/ n = S_ "biarchonly" \/ n = S_ "display_order" -> t <> []) /\
       (n = S_ "display_order" -> forall z, numeral t z -> (-2147483648 <= z <= 2147483647)%Z)) ->
    safe1 o t (EEnd n)
| safe_chars s : safe1 o t (EChars s)
| safe_doctype n s p : safe1 o t (EDoctype n s p).
(** A properly nested list of events, all of them safe where they stand. *)
Inductive safe : list frame -> str -> list event -> list frame -> Prop :=
| safe_nil o t : safe o t [] o
| safe_cons o t e o1 t1 es o' : nested1 o e o1 -> text1 t e t1 -> safe1 o t e -> safe o1 t1 es o' -> safe o t (e :: es) o'.

(** ** Connection with the model *)
Lemma is_space_white c : is_space c = true <-> white c.
Proof.
  unfold white. split.
  - destruct c as [a b c d e f g h]. destruct a, b, c, d, e, f, g, h; vm_compute; intros H; try discriminate; auto 10.
  - intuition (subst; reflexivity).
Qed.
Lemma blank_iff s : forallb is_space s = true <-> blank s.
Proof.
  unfold blank. rewrite forallb_forall, Forall_forall. split; intros H x Hx; [apply is_space_white|apply is_space_white]; auto.
Qed.

Definition may_be_inb (n p : str) : bool :=
  existsb (fun row => streq n (S_ (fst row)) && existsb (fun q => streq p (S_ q)) (snd row)) inside_table.
Lemma may_be_inb_iff n p : may_be_inb n p = true <-> may_be_in n p.
Proof.
  unfold may_be_inb, may_be_in. rewrite existsb_exists. split; intros (row & Hin & H); exists row; (split; [exact Hin|]).
  - apply andb_true_iff in H. destruct H as [H1 H2]. apply streq_iff in H1. split; [exact H1|].
    apply existsb_exists in H2. destruct H2 as (q & Hq & E). apply streq_iff in E. eauto.
  - destruct H as (-> & q & Hq & ->). rewrite streq_refl. cbn [andb]. apply existsb_exists. exists q. split; [exact Hq|apply streq_refl].
Qed.
Fixpoint legitb (l : list str) : bool :=
  match l with
  | [] => false
  | n :: up => streq n (S_ "comps") || match up with [] => false | p :: _ => may_be_inb n p && legitb up end
  end.
Lemma legitb_iff l : legitb l = true <-> legit l.
Proof.
  induction l as [|n up IH]; cbn [legitb]; [split; [discriminate|intros H; inversion H]|].
  rewrite orb_true_iff. split.
  - intros [H|H]; [apply streq_iff in H; subst; constructor|]. destruct up as [|p up]; [discriminate|].
    apply andb_true_iff in H. destruct H as [H1 H2]. constructor; [now apply may_be_inb_iff|now apply IH].
  - intros H. inversion H as [u E|n' p u H1 H2 E]; subst; [left; apply streq_refl|right].
    rewrite (proj2 (may_be_inb_iff n p) H1). now apply IH.
Qed.
Lemma legitb_ext l l' : (legit l <-> legit l') -> legitb l = legitb l'.
Proof.
  intros H. destruct (legitb l) eqn:E, (legitb l') eqn:E'; auto.
  - apply legitb_iff, H, legitb_iff in E. congruence.
  - apply legitb_iff, H, legitb_iff in E'. congruence.
Qed.

Inductive same_stack : list frame -> list elem -> Prop :=
| ss_nil : same_stack [] []
| ss_cons n a o el s : same_stack o s -> el_type el = get_type n -> el_valid el = legitb (n :: map fst o) ->
    attrs_dict rt_create a = Ok (el_attrs el) -> same_stack ((n, a) :: o) (el :: s).

Lemma ancestors_table n p : get_type n <> TUnknown -> get_type n <> TDoc ->
  existsb (fun x => etype_eqb x (get_type p)) (ancestors (get_type n)) = may_be_inb n p.
Proof.
  intros H1 H2. remember (get_type n) as t eqn:Et. symmetry in Et. rewrite (get_type_inv n t Et H1). clear Et n.
  destruct t; try congruence; cbn [ancestors existsb]; rewrite !get_type_is by discriminate;
  unfold may_be_inb, inside_table, tname, info_name; cbn [existsb fst snd];
  repeat match goal with |- context [streq (S_ ?a) (S_ ?b)] =>
    let r := eval vm_compute in (streq (S_ a) (S_ b)) in change (streq (S_ a) (S_ b)) with r end;
  cbn [andb orb]; rewrite ?orb_false_r; reflexivity.
Qed.
Lemma unknown_in n p : get_type n = TUnknown -> may_be_inb n p = false.
Proof.
  intros H. destruct (may_be_inb n p) eqn:E; [|reflexivity]. apply may_be_inb_iff in E. destruct E as (row & Hin & E & _).
  exfalso. revert Hin E. unfold inside_table. cbn [In].
  intros Hin E. repeat (destruct Hin as [<-|Hin]; [cbn [fst] in E; subst n; vm_compute in H; discriminate|]). contradiction.
Qed.
Lemma existsb_andb {A} (f : A -> bool) b l : existsb (fun x => f x && b) l = existsb f l && b.
Proof. induction l as [|x l IH]; cbn; [reflexivity|]. rewrite IH. destruct (f x), b, (existsb f l); reflexivity. Qed.
Lemma elem_valid_legit o s n : same_stack o s -> elem_valid (get_type n) s = legitb (n :: map fst o).
Proof.
  intros H. cbn [legitb].
  destruct (etype_eqb (get_type n) TDoc) eqn:Ed.
  { apply etype_eqb_iff in Ed. rewrite (get_type_inv n TDoc Ed) by discriminate. reflexivity. }
  assert (Hd : streq n (S_ "comps") = false).
  { change (S_ "comps") with (tname TDoc). rewrite <- get_type_is by discriminate.
    destruct (get_type n); try reflexivity; discriminate. }
  rewrite Hd. cbn [orb].
  destruct (etype_eqb (get_type n) TUnknown) eqn:Eu.
  { apply etype_eqb_iff in Eu. rewrite Eu. cbn [elem_valid ancestors etype_eqb negb].
    destruct o as [|[p a] o]; [reflexivity|]. cbn [map fst]. now rewrite unknown_in. }
  assert (Nu : get_type n <> TUnknown) by (intros E; rewrite E in Eu; discriminate).
  assert (Nd : get_type n <> TDoc) by (intros E; rewrite E in Ed; discriminate).
  assert (Ha : ancestors (get_type n) <> []) by (destruct (get_type n); cbn; congruence).
  unfold elem_valid. destruct (ancestors (get_type n)) as [|x l] eqn:Ea; [congruence|]. rewrite <- Ea in *. clear x l Ea.
  inversion H as [|p a o' el s' Hs Et Ev Eat]; subst; [reflexivity|].
  cbn [map fst]. rewrite existsb_andb, Et, ancestors_table by assumption. now rewrite Ev.
Qed.

(** The model's stack and text follow the open elements and the text. *)
Definition sim (o : list frame) (t : str) (st : pst) : Prop :=
  same_stack o (ps_stack st) /\ tcons (ps_text st) (ps_len st) /\ concat (ps_text st) = t.

Lemma end_text st t : tcons (ps_text st) (ps_len st) -> concat (ps_text st) = t ->
  all_text (ps_text st) (ps_len st) = Ok (text_of t).
Proof. intros H <-. now apply all_text_ok. Qed.

Lemma step_sim strict o t e o1 t1 st st1 : sim o t st -> nested1 o e o1 -> text1 t e t1 -> step strict st e = Ok st1 -> sim o1 t1 st1.
Proof.
  intros (Hs & Ht & Ec) Hn Hx E. destruct e as [n a|n|s|n s p]; cbn [step] in E.
  - inversion Hn; subst. inversion Hx; subst. clear Hn Hx. unfold start_handler in E.
    apply bind_ok in E. destruct E as (dict & Ed & E). apply bind_ok in E. destruct E as (es & _ & E).
    rewrite (elem_valid_legit o _ n Hs) in E.
    set (el := mkElem (get_type n) (legitb (n :: map fst o)) dict) in *.
    assert (Hf : forall st', same_stack o (ps_stack st') -> sim ((n, a) :: o) [] (with_stack (with_text st' [] 0) (el :: ps_stack st'))).
    { intros st' H'. split; [|split; [apply tcons_nil|reflexivity]]. cbn [with_stack ps_stack]. now constructor. }
    assert (Hlen : ps_text st = [] -> ps_len st = 0). { intros H0. destruct Ht as [_ Hl]. rewrite H0 in Hl. exact Hl. }
    assert (Hgoal : forall st4, ps_stack st4 = el :: ps_stack st -> ps_text st4 = [] -> ps_len st4 = 0 -> sim ((n, a) :: o) [] st4).
    { intros st4 H1 H2 H3. split; [rewrite H1; now constructor|]. split; [rewrite H2, H3; apply tcons_nil|now rewrite H2]. }
    destruct (el_valid el) eqn:Ev.
    + apply bind_ok in E. destruct E as (d & _ & E). inversion E; subst st1. apply Hgoal;
        destruct (ps_text st) eqn:Ex; cbn; auto.
    + inversion E; subst st1. apply Hgoal; cbn [logged ps_text]; destruct (ps_text st) eqn:Ex; cbn; auto.
  - inversion Hn as [|o' n' a' E1 E2 E3| |]; subst. inversion Hx; subst. clear Hn Hx. unfold end_handler in E.
    rewrite (end_text st _ Ht eq_refl) in E. cbn [bind with_text ps_stack ps_opts ps_doc] in E.
    inversion Hs as [|n' a'' o'' el s' Hs' Et Ev Ea E4 E5]; subst. rewrite <- E5, <- Et, etype_eqb_refl in E.
    apply bind_ok in E. destruct E as ([[d es] tmp'] & _ & E). inversion E; subst st1.
    split; [exact Hs'|]. split; [apply tcons_nil|reflexivity].
  - inversion Hn; subst. inversion E; subst st1. unfold chars_handler. inversion Hx; subst.
    + rewrite (proj2 (blank_iff s)) by assumption. split; auto.
    + destruct (forallb is_space s) eqn:Eb; [apply blank_iff in Eb; contradiction|].
      split; [exact Hs|]. cbn [with_text ps_text ps_len]. split; [|now rewrite concat_app; cbn [concat]; rewrite app_nil_r].
      destruct Ht as [Ht1 Ht2]. split.
      * apply Forall_app. split; [exact Ht1|]. constructor; [|constructor]. unfold nonblank. now rewrite Eb.
      * rewrite concat_app, app_length, Ht2. cbn [concat]. now rewrite app_nil_r.
  - inversion Hn; subst. inversion Hx; subst. inversion E; subst st1. split; auto.
Qed.

(** Text of every event is determined. *)
Lemma text1_total t e : exists t1, text1 t e t1.
Proof.
  destruct e as [n a|n|s|n s p].
  - eexists; constructor.
  - eexists; constructor.
  - destruct (forallb is_space s) eqn:E.
    + exists t. apply text_blank. now apply blank_iff.
    + exists (t ++ s). apply text_more. rewrite <- blank_iff. congruence.
  - eexists; constructor.
Qed.
Lemma run_sim strict es : forall o t o' st st', sim o t st -> nested o es o' -> run strict st es = Ok st' -> exists t', sim o' t' st'.
Proof.
  induction es as [|e es IH]; intros o t o' st st' Hs Hn E; cbn [run] in E; inversion Hn as [|? ? o1 ? ? H1 H2]; subst.
  - inversion E; subst. eauto.
  - apply bind_ok in E. destruct E as (st1 & E1 & E). destruct (text1_total t e) as (t1 & Ht).
    eapply IH; [|exact H2|exact E]. exact (step_sim strict _ _ _ _ _ _ _ Hs H1 Ht E1).
Qed.
Lemma sim_init enc : sim [] [] (parsed_init enc).
Proof. split; [constructor|]. split; [apply tcons_nil|reflexivity]. Qed.
