(** Facts about the memory of the document objects: unions, intersections and filters
    of objects. *)
From Verif Require Import CStr CStrFacts ObjMemModel ObjMemFacts1 ObjMemFacts2 ObjMemFacts3 ObjMemFacts4 ObjMemFacts5 ObjMemFacts6 ObjMemFacts7 ObjMemFacts8 ObjMemFacts9.

Lemma start k m h e : fresh_obj k m -> G [] h e -> wp m h (fun h' r => exists ss, ok [] h e h' (r :: e) /\ built h h' r k ss).
Proof.
  intros F I. eapply wp_mono; [apply (F h e I)|]. cbv beta. intros h' r (Lr & I' & S' & p & n & d & ls & _ & Hl & R & _). eexists. split.
  - constructor; auto. apply incl_tl, incl_refl.
  - constructor; [exact R|exact Lr|]. intros f b Hb. rewrite Forall_forall in Hl. apply Hl. unfold slots_of in Hb. destruct Hb as [Hb|[Hb|[Hb|Hb]]]; try (injection Hb as _ <-; cbn; tauto).
    apply in_combine_r in Hb. apply in_map_iff in Hb. destruct Hb as (x & Ex & Hx). injection Ex as <-. right; right; now right.
Qed.
(** No two items have the same name. *)
Definition distinct_items (h : mem) (g : addr) (k : tag) : Prop := forall f, In f (rest k) -> distinct h g f.
Definition spec_un (k : tag) (un : addr -> addr -> M addr) : Prop := forall h e a b, G [] h e -> own h e a k -> own h e b k ->
  wp (un a b) h (fun h' r => exists lost, length h <= r /\ G [] h' (r :: lost ++ e) /\ same (length h) h h' /\ has_kind h' r k /\ (distinct_items h a k -> distinct_items h b k -> lost = [])).
Definition spec_mt (k kb : tag) (mt : addr -> addr -> M addr) : Prop := forall h e a b, G [] h e -> own h e a k -> own h e b kb ->
  wp (mt a b) h (fun h' r => length h <= r /\ G [] h' (r :: e) /\ same (length h) h h' /\ has_kind h' r k).
Lemma ok_perm X h0 e0 h e e' : (forall a, cnt a e' = cnt a e) -> ok X h0 e0 h e -> ok X h0 e0 h e'.
Proof.
  intros Hc [A B C D]. constructor; auto; [eapply G_perm; eauto|]. intros x Hx. apply (count_occ_In Nat.eq_dec). rewrite Hc. apply (count_occ_In Nat.eq_dec). auto.
Qed.
Section Compared.
Variable oracle : mem -> addr -> addr -> bool.
Lemma one_list_union k m f e2 : obj_tag k -> fresh_obj k m -> rest k = [f] ->
  spec_un k (fun g1 g2 => do res <- m; drop_member res f_props ;;; union_props res g1 g2 f_props ;;; union_lists oracle res g1 g2 f e2 ;;; union_langs res g1 g2 ;;; ret res).
Proof.
  intros Ht F Hf h e a b I Oa Ob. eapply wp_seq; [apply (start k m h e F I)|]. cbv beta. intros h1 r (ss & O1 & B1).
  assert (HF : In f (rest k)) by (rewrite Hf; now left).
  apply bind_assoc. eapply wp_seq; [eapply (union_props_stage h e h1 (r :: e) r k ss a b O1 (in_eq _ _) B1 Ht Oa Ob)|]. cbv beta. intros h2 _ (ss2 & O2 & B2).
  eapply wp_seq; [eapply (union_lists_ok oracle h e r k ss2 e Ht (incl_refl _) f a b h2 e2 HF Oa Ob O2 B2)|]. cbv beta. intros h3 _ (lost & O3 & B3 & Hl).
  eapply wp_seq; [eapply (union_langs_ok h e h3 _ r k ss2 a b O3 (ltac:(apply in_or_app; right; now left)) B3 Ht Oa Ob)|]. cbv beta. intros h4 _ (ss4 & O4 & B4). apply wp_ret.
  exists lost. split; [apply (b_new _ _ _ _ _ B4)|]. split; [eapply G_perm; [|apply (ok_g _ _ _ _ _ O4)]; cnts|]. split; [apply (ok_same _ _ _ _ _ O4)|]. split; [eapply isres_kind; apply (b_res _ _ _ _ _ B4)|].
  intros Da Db. apply Hl. split; [apply Da|apply Db]; exact HF.
Qed.
Lemma group_union_ok : spec_un KGroup (group_union oracle).
Proof. exact (one_list_union KGroup new_group f_pkgs LPkg (or_introl eq_refl) new_group_ok eq_refl). Qed.
Lemma cat_union_ok : spec_un KCat (cat_union oracle).
Proof. exact (one_list_union KCat new_cat f_gids LGid (or_intror (or_introl eq_refl)) new_cat_ok eq_refl). Qed.
Lemma env_union_ok : spec_un KEnv (env_union oracle).
Proof.
  intros h e a b I Oa Ob. assert (Ht : obj_tag KEnv) by (right; now right). unfold env_union. eapply wp_seq; [apply (start KEnv new_env h e new_env_ok I)|]. cbv beta. intros h1 r (ss & O1 & B1).
  apply bind_assoc. eapply wp_seq; [eapply (union_props_stage h e h1 (r :: e) r KEnv ss a b O1 (in_eq _ _) B1 Ht Oa Ob)|]. cbv beta. intros h2 _ (ss2 & O2 & B2).
  eapply wp_seq; [eapply (union_lists_ok oracle h e r KEnv ss2 e Ht (incl_refl _) f_groups a b h2 LGid (or_introl eq_refl) Oa Ob O2 B2)|]. cbv beta. intros h3 _ (lost & O3 & B3 & Hl).
  assert (O3' : ok [] h e h3 (r :: lost ++ e)) by (eapply ok_perm; [|exact O3]; cnts).
  eapply wp_seq; [eapply (union_options_ok oracle h e r KEnv ss2 (lost ++ e) Ht (ltac:(inc)) a b h3 eq_refl Oa Ob O3' B3)|]. cbv beta. intros h4 _ (lost2 & O4 & B4 & Hl2).
  eapply wp_seq; [eapply (union_langs_ok h e h4 _ r KEnv ss2 a b O4 (ltac:(apply in_or_app; right; now left)) B4 Ht Oa Ob)|]. cbv beta. intros h5 _ (ss5 & O5 & B5). apply wp_ret.
  exists (lost2 ++ lost). split; [apply (b_new _ _ _ _ _ B5)|]. split; [eapply G_perm; [|apply (ok_g _ _ _ _ _ O5)]; cnts|]. split; [apply (ok_same _ _ _ _ _ O5)|]. split; [eapply isres_kind; apply (b_res _ _ _ _ _ B5)|].
  intros Da Db. rewrite Hl2, Hl; [reflexivity| |].
  - split; [apply Da|apply Db]; now left.
  - apply Db. right. now left.
Qed.

(** * One object from one or two others *)
Section Base.
Variable h0 : mem.
Variable e0 : list addr.
Variable r : addr.
Variable k : tag.
Variable e : list addr.
Hypothesis Ht : obj_tag k.
Hypothesis Hr : In r e.
Hypothesis He : incl e0 e.
Definition cur (h : mem) (ss : list (str * slot)) : Prop := ok [] h0 e0 h e /\ built h0 h r k ss.
Lemma cur_same h h' ss : cur h ss -> same (length h) h h' -> G [] h' e -> cur h' ss.
Proof.
  intros (O & B) S I'. split; [eapply ok_step; [exact O|exact S|apply (ok_len _ _ _ _ _ O)|exact I'|exact He]|].
  eapply built_same; [exact B|now apply obj_not_objs|exact S|eapply isres_lt; apply (b_res _ _ _ _ _ B)|eapply in_live; [exact I'|exact Hr]].
Qed.
Lemma add_cur h ss o f e2 h1 : cur h ss -> same (length h) h h1 -> G [] h1 (o :: e) -> In f (rest k) -> has_kind h1 o (elem_kind (list_of f)) ->
  wp (add_item r f e2 o) h1 (fun h' _ => cur h' ss).
Proof.
  intros (O & B) S I1 Hf Ko. assert (O1 : ok [] h0 e0 h1 (o :: e)) by (eapply ok_step; [exact O|exact S|apply (ok_len _ _ _ _ _ O)|exact I1|inc]).
  assert (B1 : built h0 h1 r k ss) by (eapply built_same; [exact B|now apply obj_not_objs|exact S|eapply isres_lt; apply (b_res _ _ _ _ _ B)|eapply in_live; [exact I1|now right]]).
  assert (Or : own h1 e r k) by (apply own_in; [exact Hr|eapply isres_kind; apply (b_res _ _ _ _ _ B1)]).
  destruct (obj_list [] h1 (o :: e) e r k f I1 Or (fun x => x) Ht Hf (fun _ _ x => x)) as (ss' & l & xs & R & F & (sl & Rl & El) & Ol & Ox).
  destruct (isres_fun _ _ _ _ _ _ R (b_res _ _ _ _ _ B1)) as (_ & ->).
  eapply wp_mono; [eapply (add_item_at [] h1 e r k ss f e2 l sl o _ I1 R Ht Hf F Rl Ko)|]; [apply (item_kind_tag (list_of f) (list_of_item f))|]. cbv beta. intros h' _ (I' & U & Rl'). split.
  - eapply ok_step; [exact O1|eapply upd_same; [|exact U]|apply Nat.le_refl|exact I'|exact He]. eapply (b_kids _ _ _ _ _ B1). apply find_in. exact F.
  - eapply built_upd; [exact B1|exact U|]. intros D. rewrite <- D in Rl. destruct (isres_fun _ _ _ _ _ _ Rl R) as (D' & _). now apply (obj_list_ne k (list_of f) Ht).
Qed.
(** ** Properties of an intersection *)
Lemma base_props g : G [] h0 e0 -> own h0 e0 g k -> exists p, own h0 e0 p (KDict DProp) /\ forall h ss (Q : mem -> addr -> Prop), cur h ss -> Q h p -> wp (props g) h Q.
Proof.
  intros I O. destruct (base_field h0 e0 g k f_props DProp I O Ht) as (sg & p & R & F & Op); [rewrite obj_layout by exact Ht; now left|apply (fits_dict k Ht)|].
  exists p. split; [exact Op|]. intros h ss Q (Oh & _) HQ. unfold props. apply wp_bind. eapply wp_member; [eapply base_isres; [exact Oh|exact O|now apply obj_not_objs|exact R]|exact F|]. cbn [follow]. now apply wp_ret.
Qed.
Lemma pair_in_ok h s p : live h (snd p) -> Forall (fun q => live h (snd q)) s -> wp (pair_in oracle s p) h (fun h' _ => h' = h).
Proof.
  intros Hp. induction s as [|q s IH]; intros Hs; cbn [pair_in]; [now apply wp_ret|]. inversion Hs; subst. destruct (seqb (fst q) (fst p)); [|auto].
  eapply wp_seq; [apply wp_ocmp; intros a Ha; injection Ha as <-; assumption|]. cbv beta. intros h' b ->. destruct b; [now apply wp_ret|auto].
Qed.
Lemma pair_set_ok h (P : str * addr -> Prop) l : (forall p, P p -> live h (snd p)) -> forall s, Forall P s -> Forall P l -> wp (pair_set oracle s l) h (fun h' s' => h' = h /\ Forall P s').
Proof.
  intros HP. induction l as [|p l IH]; intros s Hs Hl; cbn [pair_set]; [now apply wp_ret|]. inversion Hl; subst.
  eapply wp_seq; [apply pair_in_ok; [auto|eapply Forall_impl; [|exact Hs]; auto]|]. cbv beta. intros h' b ->. apply IH; [|assumption]. destruct b; [exact Hs|]. apply Forall_app. split; [exact Hs|]. now constructor.
Qed.
Lemma meet_props_ok h ss g1 g2 : cur h ss -> own h0 e0 g1 k -> own h0 e0 g2 k -> wp (meet_props oracle r g1 g2) h (fun h' _ => cur h' ss).
Proof.
  intros C O1 O2. pose proof C as (O & B). destruct (base_props g1 (ok_g0 _ _ _ _ _ O) O1) as (p1 & Op1 & W1), (base_props g2 (ok_g0 _ _ _ _ _ O) O2) as (p2 & Op2 & W2).
  destruct (base_pairs h0 e0 DProp p1 (ok_g0 _ _ _ _ _ O) Op1) as (s1 & q1 & R1 & E1 & H1), (base_pairs h0 e0 DProp p2 (ok_g0 _ _ _ _ _ O) Op2) as (s2 & q2 & R2 & E2 & H2).
  set (P := fun p : str * addr => exists t, own h0 e0 (snd p) t /\ fits (KDict DProp) (fst p) t) in *.
  assert (Live : forall hh, ok [] h0 e0 hh e -> forall p, P p -> live hh (snd p)). { intros hh Oh p (t & Ot & _). eapply own_live. eapply ok_own; [exact Oh|apply incl_refl|exact Ot]. }
  unfold meet_props. apply wp_bind. eapply W1; [exact C|].
  apply wp_bind. eapply wp_pairs; [eapply base_isres; [exact O|exact Op1|discriminate|exact R1]|exact E1|].
  eapply wp_seq; [eapply (pair_set_ok h P q1 (Live h O) [] (Forall_nil _) H1)|]. cbv beta. intros h' s (-> & Hs).
  apply wp_bind. eapply W2; [exact C|].
  apply wp_bind. eapply wp_pairs; [eapply base_isres; [exact O|exact Op2|discriminate|exact R2]|exact E2|].
  assert (Hl : In f_props (layout k)) by (rewrite obj_layout by exact Ht; now left). destruct (hold_open h0 e0 [] h e r k ss f_props O B (fun x => x) Ht Hl) as (rp & Fp).
  destruct rp as [pr|]; [|exfalso; eapply obj_not_null; [exact Ht|eapply isres_null; [apply (ok_g _ _ _ _ _ O)|apply (b_res _ _ _ _ _ B)|apply find_in; exact Fp]]].
  unfold props at 1. apply wp_bind. apply wp_bind. eapply wp_member; [apply (b_res _ _ _ _ _ B)|exact Fp|]. cbn [follow]. apply wp_ret.
  eapply wp_mono; [eapply (wp_forM _ (fun hh => cur hh ss) P)|]; [| exact C|exact H2|cbv beta; auto].
  intros hh p (Oh & Bh) Hp. eapply wp_seq; [eapply (pair_in_ok hh s p (Live hh Oh p Hp)); eapply Forall_impl; [|exact Hs]; apply (Live hh Oh)|]. cbv beta. intros h' b ->.
  destruct b; [|apply wp_ret; split; assumption].
  destruct (isres_fits _ _ _ _ _ _ _ _ (ok_g _ _ _ _ _ Oh) (b_res _ _ _ _ _ Bh) (find_in _ _ _ Fp)) as (tp & Kp & Ftp). apply (fits_props _ _ Ht) in Ftp. subst tp. destruct (has_kind_res _ _ _ Kp) as (sp & Rp).
  assert (Vp : via hh e pr) by (eapply isres_via; [apply (b_res _ _ _ _ _ Bh)|apply via_in; exact Hr|apply find_in; exact Fp]). destruct Hp as (t & Ot & Ft).
  eapply wp_mono; [eapply (wp_dset [] hh e pr (KDict DProp) sp (fst p) (Some (snd p)) (ok_g _ _ _ _ _ Oh) Rp eq_refl Vp)|].
  - intros [].
  - intros x [].
  - exists t. split; [|exact Ft]. apply (ok_own _ _ _ _ _ _ _ _ Oh (incl_refl _) Ot).
  - cbv beta. intros h3 _ (I3 & R3 & (_ & W3) & S3). split.
    + eapply ok_step; [exact Oh|apply S3; eapply (b_kids _ _ _ _ _ Bh); apply find_in; exact Fp|apply Nat.le_refl|exact I3|exact He].
    + destruct Bh as [Rb Nb Kb]. constructor; auto. apply W3; [|exact Rb|eapply in_live; [exact I3|exact Hr]]. intros D. subst pr. destruct (isres_fun _ _ _ _ _ _ Rp Rb) as (D & _). destruct Ht as [->|[->| ->]]; discriminate.
Qed.
(** ** Items *)
Section Items.
Variable f : str.
Hypothesis Hf : In f (rest k).
Notation ik := (elem_kind (list_of f)).
Lemma ik_ok : item_tag ik /\ plain ik = true.
Proof. destruct (item_kind_tag (list_of f) (list_of_item f)) as (A & _ & _ & B & _). auto. Qed.
Lemma owns h ss s : cur h ss -> Forall (fun x => own h0 e0 x ik) s -> Forall (eown ik h e) s.
Proof. intros (O & _) Hs. eapply Forall_impl; [|exact Hs]. intros x Ox. apply (own_mono _ e0); [exact He|]. eapply ok_own; [exact O|apply incl_refl|exact Ox]. Qed.
Lemma add_ok h ss s x : cur h ss -> Forall (fun x => own h0 e0 x ik) (x :: s) -> wp (do sb <- set_add (namecmp oracle) s x; ret (fst sb)) h (fun h' s' => cur h' ss /\ Forall (fun x => own h0 e0 x ik) s').
Proof.
  intros C Hs. destruct ik_ok as (Hit & Pl). eapply wp_seq; [eapply (wp_set_add ik (namecmp oracle) tname Pl (namecmp_ok oracle ik Hit) s h e x (ok_g _ _ _ _ _ (proj1 C)) (owns h ss _ C Hs))|].
  cbv beta. intros h1 sb (I1 & S1 & ->). apply wp_ret. split; [eapply cur_same; eauto|]. inversion Hs; subst. destruct (find (hit tname h x) s); cbn [fst]; [assumption|]. apply Forall_app. split; auto.
Qed.
Lemma found_ok h ss s x : cur h ss -> Forall (fun x => own h0 e0 x ik) (x :: s) -> wp (set_find (namecmp oracle) s x) h (fun h' _ => cur h' ss).
Proof.
  intros C Hs. destruct ik_ok as (Hit & Pl). eapply wp_mono; [eapply (wp_set_find ik (namecmp oracle) tname Pl (namecmp_ok oracle ik Hit) s h e x (ok_g _ _ _ _ _ (proj1 C)) (owns h ss _ C Hs))|].
  cbv beta. intros h1 sb (I1 & S1 & _). eapply cur_same; eauto.
Qed.
Lemma copy_in h ss x e2 : cur h ss -> own h0 e0 x ik -> wp (do o <- copy_obj x; add_item r f e2 o) h (fun h' _ => cur h' ss).
Proof.
  intros C Ox. eapply wp_seq; [apply (copied h0 e0 f [] h e x (proj1 C) Ox)|]. cbv beta. intros h1 o (I1 & S1 & K1 & _). eapply add_cur; eauto.
Qed.
Lemma base_list g : G [] h0 e0 -> own h0 e0 g k -> exists l xs, Forall (fun x => own h0 e0 x ik) xs /\
  (forall h ss (Q : mem -> list ref -> Prop), cur h ss -> Q h (map Some xs) -> wp (do r <- member g f; do l <- follow r; items l) h Q) /\ own h0 e0 l (KList (list_of f)) /\ isl h0 l (list_of f) (map Some xs) /\
  (forall h ss (Q : mem -> ref -> Prop), cur h ss -> Q h (Some l) -> wp (member g f) h Q).
Proof.
  intros I O. destruct (obj_list [] h0 e0 e0 g k f I O (fun x => x) Ht Hf (fun _ _ x => x)) as (sg & l & xs & R & F & L & Ol & Ox). exists l, xs. split; [exact Ox|].
  assert (Mem : forall h ss (Q : mem -> ref -> Prop), cur h ss -> Q h (Some l) -> wp (member g f) h Q) by (intros h ss Q (Oh & _) HQ; eapply wp_member; [eapply base_isres; [exact Oh|exact O|now apply obj_not_objs|exact R]|exact F|exact HQ]).
  split; [|split; [exact Ol|split; [exact L|exact Mem]]].
  intros h ss Q (Oh & B) HQ. apply wp_bind. eapply Mem; [split; [exact Oh|exact B]|]. cbn [follow]. apply wp_bind, wp_ret.
  eapply wp_isl_items; [eapply base_isl; [exact Oh|exact Ol|exact L]|exact HQ].
Qed.
Lemma ref_items xs (P : addr -> Prop) : Forall P xs -> Forall (fun r => exists x, r = Some x /\ P x) (map Some xs).
Proof. induction 1; constructor; eauto. Qed.
Lemma first_set h ss xs : cur h ss -> Forall (fun x => own h0 e0 x ik) xs -> wp (each_item (fun s x => do sb <- set_add (namecmp oracle) s x; ret (fst sb)) [] (map Some xs)) h (fun h' s => cur h' ss /\ Forall (fun x => own h0 e0 x ik) s).
Proof.
  intros C Hx. eapply (wp_each _ (fun s hh => cur hh ss /\ Forall (fun x => own h0 e0 x ik) s) (fun x => own h0 e0 x ik)); [|auto|now apply ref_items].
  intros s hh x (Ch & Hs) Ox. apply add_ok; auto.
Qed.
Lemma bind3 {A B} (m : M ref) (fn : addr -> M A) (g : A -> M B) h Q : wp (do y <- (do r <- m; do l <- follow r; fn l); g y) h Q -> wp (do r <- m; do l <- follow r; do y <- fn l; g y) h Q.
Proof.
  intros (h' & v & E & H). exists h', v. split; [|exact H]. unfold mbind in *. destruct (m h) as [[h1 v1]| |]; cbn in *; auto. destruct (follow v1 h1) as [[h2 v2]| |]; cbn in *; auto.
Qed.
Lemma meet_items_ok h ss g1 g2 e2 : cur h ss -> own h0 e0 g1 k -> own h0 e0 g2 k -> wp (meet_items oracle r g1 g2 f e2) h (fun h' _ => cur h' ss).
Proof.
  intros C O1 O2. destruct (base_list g1 (ok_g0 _ _ _ _ _ (proj1 C)) O1) as (l1 & xs1 & Hx1 & W1 & _), (base_list g2 (ok_g0 _ _ _ _ _ (proj1 C)) O2) as (l2 & xs2 & Hx2 & W2 & _).
  unfold meet_items. apply bind3. apply wp_bind. eapply W1; [exact C|]. eapply wp_seq; [apply (first_set h ss xs1 C Hx1)|]. cbv beta. intros h1 s (C1 & Hs).
  apply bind3. apply wp_bind. eapply W2; [exact C1|]. eapply wp_mono; [eapply (wp_each _ (fun _ hh => cur hh ss) (fun x => own h0 e0 x ik)); [|exact C1|now apply ref_items]|cbv beta; auto].
  intros u hh x Ch Ox. eapply wp_seq; [eapply found_ok; [exact Ch|constructor; [exact Ox|exact Hs]]|]. cbv beta. intros h2 b C2. destruct b; [now apply copy_in|]. now apply wp_ret.
Qed.
Lemma meet_sets_ok h ss g1 g2 e2 : cur h ss -> own h0 e0 g1 k -> own h0 e0 g2 k -> wp (meet_sets oracle r g1 g2 f e2) h (fun h' _ => cur h' ss).
Proof.
  intros C O1 O2. destruct (base_list g1 (ok_g0 _ _ _ _ _ (proj1 C)) O1) as (l1 & xs1 & Hx1 & W1 & _), (base_list g2 (ok_g0 _ _ _ _ _ (proj1 C)) O2) as (l2 & xs2 & Hx2 & W2 & _).
  unfold meet_sets. apply bind3. apply wp_bind. eapply W1; [exact C|]. eapply wp_seq; [apply (first_set h ss xs1 C Hx1)|]. cbv beta. intros h1 s (C1 & Hs).
  apply bind3. apply wp_bind. eapply W2; [exact C1|].
  eapply wp_seq; [eapply (wp_each _ (fun s2 hh => cur hh ss /\ Forall (fun x => own h0 e0 x ik) s2) (fun x => own h0 e0 x ik)); [|split; [exact C1|constructor]|now apply ref_items]|].
  - intros s2 hh x (Ch & H2) Ox. eapply wp_seq; [eapply found_ok; [exact Ch|constructor; [exact Ox|exact Hs]]|]. cbv beta. intros h2 b C2. destruct b; [apply add_ok; auto|]. now apply wp_ret.
  - cbv beta. intros h2 s2 (C2 & H2). eapply wp_mono; [eapply (wp_forM _ (fun hh => cur hh ss) (fun x => own h0 e0 x ik)); [|exact C2|exact H2]|cbv beta; auto]. intros hh x Ch Ox. now apply copy_in.
Qed.
End Items.
(** ** Filters *)
Lemma copy_member_ok h ss g f D : cur h ss -> own h0 e0 g k -> In f (layout k) -> D <> DObjs -> (forall t, fits k f t <-> t = KDict D) -> wp (copy_member r g f) h (fun h' _ => exists ss', cur h' ss').
Proof.
  intros (O & B) Og Hl HD Hfit. pose proof (isres_solid _ _ _ _ _ _ (ok_g _ _ _ _ _ O) (b_res _ _ _ _ _ B) (fun x => x)) as Hs. pose proof (obj_not_objs k Ht) as Nk.
  destruct (hold_open h0 e0 [] h e r k ss f O B (fun x => x) Ht Hl) as (r0 & F).
  destruct (base_field h0 e0 g k f D (ok_g0 _ _ _ _ _ O) Og Ht Hl (fun t => proj1 (Hfit t))) as (sg & d & Rg & Fg & Od).
  assert (Pl : plain (KDict D) = true) by (destruct D; congruence || reflexivity). destruct (rb_room h0 e0 d _ (ok_g0 _ _ _ _ _ O) (proj2 Od) Pl) as (t & Et & Er).
  unfold copy_member. eapply wp_seq; [eapply (drop_built h0 e0 h e r k ss f r0); [eapply ok_more; [|exact O]; intros x []|exact Hr|exact B|exact F]|]. cbv beta. intros h1 _ (O1 & B1).
  apply wp_bind. eapply wp_member; [eapply base_isres; [exact O1|exact Og|exact Nk|exact Rg]|exact Fg|].
  assert (Et1 : rb room h1 d = Some t) by (eapply ok_rb; [exact O1|apply incl_refl|apply Od|exact Et]).
  assert (V1 : via h1 e d) by (eapply via_mono; [exact He|]; eapply ok_via; [exact O1|apply incl_refl|apply Od]).
  destruct (copy_ok room) as (_ & Cp). eapply wp_seq; [apply (Cp h1 [r] e d t Et1 V1 (ok_g _ _ _ _ _ O1))|]. cbv beta. intros h2 v (m & -> & Lm & I2 & S2 & Rm).
  pose proof (rb_kind _ _ _ _ Rm) as Km. rewrite Er in Km. pose proof (ok_len _ _ _ _ _ O1) as L0.
  assert (B2 : built h0 h2 r k (put_slot f Hole ss)) by (eapply built_same; [exact B1|exact Nk|exact S2|eapply isres_lt; apply (b_res _ _ _ _ _ B1)|eapply in_live; [exact I2|now right]]).
  eapply wp_mono; [eapply (wp_set_member [r] h2 (m :: e) e r k _ f (Ptr (Some m)) Hole I2 (b_res _ _ _ _ _ B2)); [eapply find_put; eauto| |]|].
  - intros x. cbn [sref count_occ]. destruct (Nat.eq_dec m x); lia.
  - apply fit_slot. exists (KDict D). split; [exact Km|]. now apply Hfit.
  - cbn [opened]. intros h3 _ (I3 & U3 & R3). pose proof (built_put h0 h2 h3 r k _ f m B2 R3 (Nat.le_trans _ _ _ L0 Lm)) as B3. rewrite put_put in B3. exists (put_slot f (Ptr (Some m)) ss). split; [|exact B3].
    eapply (ok_unhole h0 e0 h3 e r k); [|exact B3|intros D'; apply Hs; eapply put_hole; eauto].
    eapply ok_step; [exact O1| |apply Nat.le_refl|exact I3|exact He]. eapply same_trans; [eapply same_weak; [exact L0|exact S2]|]. eapply upd_same; [apply (b_new _ _ _ _ _ B)|exact U3].
Qed.
Lemma filter_props_ok h ss g : cur h ss -> own h0 e0 g k -> wp (filter_props r g) h (fun h' _ => exists ss', cur h' ss').
Proof.
  intros C Og. destruct (fits_dict k Ht) as (A & B & D). unfold filter_props.
  eapply wp_seq; [eapply (copy_member_ok h ss g f_props DProp C Og); [rewrite obj_layout by exact Ht; now left|discriminate|exact A]|]. cbv beta. intros h1 _ (s1 & C1).
  eapply wp_seq; [eapply (copy_member_ok h1 s1 g f_names DLang C1 Og); [rewrite obj_layout by exact Ht; right; now left|discriminate|exact B]|]. cbv beta. intros h2 _ (s2 & C2).
  eapply (copy_member_ok h2 s2 g f_descs DLang C2 Og); [rewrite obj_layout by exact Ht; right; right; now left|discriminate|exact D].
Qed.
End Base.
Definition alive (h : mem) (r : ref) : Prop := forall a, r = Some a -> live h a.
Lemma any_equal_ok h x l : alive h x -> Forall (alive h) l -> wp (any_equal oracle x l) h (fun h' _ => h' = h).
Proof.
  intros Hx. induction l as [|y l IH]; intros Hl; cbn [any_equal]; [now apply wp_ret|]. inversion Hl; subst. eapply wp_seq; [apply wp_ocmp; auto|]. cbv beta. intros h' b ->. destruct b; [now apply wp_ret|auto].
Qed.
Lemma intersected_ok h l2 l1 : Forall (alive h) l1 -> Forall (alive h) l2 -> wp (intersected oracle l1 l2) h (fun h' _ => h' = h).
Proof.
  intros H1 H2. induction l1 as [|x l IH]; cbn [intersected]; [now apply wp_ret|]. inversion H1; subst. eapply wp_seq; [apply any_equal_ok; auto|]. cbv beta. intros h' b ->. destruct b; [now apply wp_ret|auto].
Qed.
Lemma items_alive X h e l : G X h e -> has_kind h l (KList LStr) -> ~ In l X -> wp (items l) h (fun h' rs => h' = h /\ Forall (alive h) rs).
Proof.
  intros I K Hx. eapply wp_mono; [eapply (wp_items X h e [l] l LStr I); [apply own_in; [now left|exact K]|exact Hx]|]. cbv beta. intros h' rs (-> & Hi & _). split; [reflexivity|].
  eapply Forall_impl; [|exact Hi]. intros r H a ->. destruct H as (t & Ot & _). eapply own_live; eauto.
Qed.
Lemma wanted_ok h e arches a2 : G [] h e -> has_kind h arches (KList LStr) -> (forall l, a2 = Some l -> has_kind h l (KList LStr)) -> wp (wanted oracle arches a2) h (fun h' _ => h' = h).
Proof.
  intros I Ka K2. unfold wanted. destruct a2 as [l2|]; [|now apply wp_ret].
  eapply wp_seq; [apply (items_alive [] h e arches I Ka (fun x => x))|]. cbv beta. intros h' i1 (-> & H1).
  eapply wp_seq; [apply (items_alive [] h e l2 I (K2 _ eq_refl) (fun x => x))|]. cbv beta. intros h' i2 (-> & H2). now apply intersected_ok.
Qed.
Lemma filter_items_ok h0 e0 r k e f h ss g arches e2 : obj_tag k -> In r e -> incl e0 e -> In f (rest k) -> cur h0 e0 r k e h ss -> own h0 e0 g k -> own h0 e0 arches (KList LStr) ->
  wp (filter_items oracle r g arches f e2) h (fun h' _ => cur h0 e0 r k e h' ss).
Proof.
  intros Ht Hr He Hf C Og Oa. destruct (base_list h0 e0 r k e Ht f Hf g (ok_g0 _ _ _ _ _ (proj1 C)) Og) as (l1 & xs1 & Hx1 & W1 & _).
  unfold filter_items. apply bind3. apply wp_bind. eapply W1; [exact C|].
  eapply wp_mono; [eapply (wp_each _ (fun _ hh => cur h0 e0 r k e hh ss) (fun x => own h0 e0 x (elem_kind (list_of f)))); [|exact C|now apply ref_items]|cbv beta; auto].
  intros u hh x Ch Ox. pose proof Ch as (Oh & Bh). destruct (ik_ok f) as (Hit & Pl).
  assert (Hla : In f_arches (layout (elem_kind (list_of f)))) by (destruct Hit as [E|E]; rewrite E; cbn; tauto).
  eapply wp_seq; [eapply (get_val_ok hh e e0 x _ f_arches (ok_g _ _ _ _ _ Oh) (ok_own _ _ _ _ _ _ _ _ Oh (incl_refl _) Ox) Hla He)|]. cbv beta. intros h1 a2 (I1 & S1 & K1).
  assert (O1 : ok [] h0 e0 h1 (somes [a2] ++ e)) by (eapply ok_step; [exact Oh|exact S1|apply (ok_len _ _ _ _ _ Oh)|exact I1|inc]).
  assert (C1 : cur h0 e0 r k (somes [a2] ++ e) h1 ss).
  { split; [exact O1|]. eapply built_same; [exact Bh|now apply obj_not_objs|exact S1|eapply isres_lt; apply (b_res _ _ _ _ _ Bh)|eapply in_live; [exact I1|]; apply in_or_app; now right]. }
  eapply wp_seq; [eapply (wanted_ok h1 _ arches a2 I1)|].
  { exact (proj2 (ok_own _ _ _ _ _ _ _ _ O1 (incl_refl _) Oa)). }
  { intros l ->. destruct (K1 l eq_refl) as (t & Kt & Ft). destruct Hit as [E|E]; rewrite E in Ft; change (t = KList LStr) in Ft; now subst t. }
  cbv beta. intros h2 b ->. eapply (wp_seq _ _ _ (fun hh _ => cur h0 e0 r k (somes [a2] ++ e) hh ss)).
  { destruct b; [|now apply wp_ret]. apply copy_in; auto; [apply in_or_app; now right|inc]. }
  cbv beta. intros h3 _ (O3 & B3). eapply wp_mono; [apply (wp_release0 h3 e a2 (ok_g _ _ _ _ _ O3))|]. cbv beta. intros h4 _ (I4 & _ & S4). split.
  - eapply ok_step; [exact O3|exact S4|apply (ok_len _ _ _ _ _ O3)|exact I4|exact He].
  - eapply built_same; [exact B3|now apply obj_not_objs|exact S4|eapply isres_lt; apply (b_res _ _ _ _ _ B3)|eapply in_live; [exact I4|exact Hr]].
Qed.
Lemma cur_end h e r k ss h' : cur h e r k (r :: e) h' ss -> length h <= r /\ G [] h' (r :: e) /\ same (length h) h h' /\ has_kind h' r k.
Proof. intros (O & B). split; [apply (b_new _ _ _ _ _ B)|]. split; [apply (ok_g _ _ _ _ _ O)|]. split; [apply (ok_same _ _ _ _ _ O)|]. eapply isres_kind. apply (b_res _ _ _ _ _ B). Qed.
Lemma group_meet_ok : spec_mt KGroup KGroup (group_meet oracle).
Proof.
  intros h e a b I Oa Ob. assert (Ht : obj_tag KGroup) by now left. unfold group_meet. eapply wp_seq; [apply (start KGroup new_group h e new_group_ok I)|]. cbv beta. intros h1 r (ss & C).
  eapply wp_seq; [eapply (meet_props_ok h e r KGroup (r :: e) Ht (in_eq _ _) (incl_tl _ (incl_refl _)) h1 ss a b C Oa Ob)|]. cbv beta. intros h2 _ C2.
  eapply wp_seq; [eapply (meet_items_ok h e r KGroup (r :: e) Ht (in_eq _ _) (incl_tl _ (incl_refl _)) f_pkgs (or_introl eq_refl) h2 ss a b LPkg C2 Oa Ob)|]. cbv beta. intros h3 _ C3. apply wp_ret. eapply cur_end; eauto.
Qed.
Lemma cat_meet_ok : spec_mt KCat KCat (cat_meet oracle).
Proof.
  intros h e a b I Oa Ob. assert (Ht : obj_tag KCat) by (right; now left). unfold cat_meet. eapply wp_seq; [apply (start KCat new_cat h e new_cat_ok I)|]. cbv beta. intros h1 r (ss & C).
  eapply wp_seq; [eapply (meet_props_ok h e r KCat (r :: e) Ht (in_eq _ _) (incl_tl _ (incl_refl _)) h1 ss a b C Oa Ob)|]. cbv beta. intros h2 _ C2.
  eapply wp_seq; [eapply (meet_items_ok h e r KCat (r :: e) Ht (in_eq _ _) (incl_tl _ (incl_refl _)) f_gids (or_introl eq_refl) h2 ss a b LGid C2 Oa Ob)|]. cbv beta. intros h3 _ C3. apply wp_ret. eapply cur_end; eauto.
Qed.
Lemma env_meet_ok : spec_mt KEnv KEnv (env_meet oracle).
Proof.
  intros h e a b I Oa Ob. assert (Ht : obj_tag KEnv) by (right; now right). unfold env_meet. eapply wp_seq; [apply (start KEnv new_env h e new_env_ok I)|]. cbv beta. intros h1 r (ss & C).
  eapply wp_seq; [eapply (meet_props_ok h e r KEnv (r :: e) Ht (in_eq _ _) (incl_tl _ (incl_refl _)) h1 ss a b C Oa Ob)|]. cbv beta. intros h2 _ C2.
  eapply wp_seq; [eapply (meet_sets_ok h e r KEnv (r :: e) Ht (in_eq _ _) (incl_tl _ (incl_refl _)) f_groups (or_introl eq_refl) h2 ss a b LGid C2 Oa Ob)|]. cbv beta. intros h3 _ C3.
  eapply wp_seq; [eapply (meet_sets_ok h e r KEnv (r :: e) Ht (in_eq _ _) (incl_tl _ (incl_refl _)) f_options (or_intror (or_introl eq_refl)) h3 ss a b LGid C3 Oa Ob)|]. cbv beta. intros h4 _ C4. apply wp_ret. eapply cur_end; eauto.
Qed.
Lemma group_filter_ok : spec_mt KGroup (KList LStr) (group_filter oracle).
Proof.
  intros h e a b I Oa Ob. assert (Ht : obj_tag KGroup) by now left. unfold group_filter. eapply wp_seq; [apply (start KGroup new_group h e new_group_ok I)|]. cbv beta. intros h1 r (ss & C).
  eapply wp_seq; [eapply (filter_props_ok h e r KGroup (r :: e) Ht (in_eq _ _) (incl_tl _ (incl_refl _)) h1 ss a C Oa)|]. cbv beta. intros h2 _ (s2 & C2).
  eapply wp_seq; [eapply (filter_items_ok h e r KGroup (r :: e) f_pkgs h2 s2 a b LPkg Ht (in_eq _ _) (incl_tl _ (incl_refl _)) (or_introl eq_refl) C2 Oa Ob)|]. cbv beta. intros h3 _ C3. apply wp_ret. eapply cur_end; eauto.
Qed.
Lemma cat_filter_ok : spec_mt KCat (KList LStr) (cat_filter oracle).
Proof.
  intros h e a b I Oa Ob. assert (Ht : obj_tag KCat) by (right; now left). unfold cat_filter. eapply wp_seq; [apply (start KCat new_cat h e new_cat_ok I)|]. cbv beta. intros h1 r (ss & C).
  eapply wp_seq; [eapply (filter_props_ok h e r KCat (r :: e) Ht (in_eq _ _) (incl_tl _ (incl_refl _)) h1 ss a C Oa)|]. cbv beta. intros h2 _ (s2 & C2).
  eapply wp_seq; [eapply (filter_items_ok h e r KCat (r :: e) f_gids h2 s2 a b LGid Ht (in_eq _ _) (incl_tl _ (incl_refl _)) (or_introl eq_refl) C2 Oa Ob)|]. cbv beta. intros h3 _ C3. apply wp_ret. eapply cur_end; eauto.
Qed.
Lemma env_filter_ok : spec_mt KEnv (KList LStr) (env_filter oracle).
Proof.
  intros h e a b I Oa Ob. assert (Ht : obj_tag KEnv) by (right; now right). unfold env_filter. eapply wp_seq; [apply (start KEnv new_env h e new_env_ok I)|]. cbv beta. intros h1 r (ss & C).
  eapply wp_seq; [eapply (filter_props_ok h e r KEnv (r :: e) Ht (in_eq _ _) (incl_tl _ (incl_refl _)) h1 ss a C Oa)|]. cbv beta. intros h2 _ (s2 & C2).
  eapply wp_seq; [eapply (filter_items_ok h e r KEnv (r :: e) f_groups h2 s2 a b LGid Ht (in_eq _ _) (incl_tl _ (incl_refl _)) (or_introl eq_refl) C2 Oa Ob)|]. cbv beta. intros h3 _ C3.
  eapply wp_seq; [eapply (filter_items_ok h e r KEnv (r :: e) f_options h3 s2 a b LGid Ht (in_eq _ _) (incl_tl _ (incl_refl _)) (or_intror (or_introl eq_refl)) C3 Oa Ob)|]. cbv beta. intros h4 _ C4. apply wp_ret. eapply cur_end; eauto.
Qed.
End Compared.
