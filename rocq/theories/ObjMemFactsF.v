(** Facts about the memory of the document objects: a union of two documents loses
    nothing if no two objects of a part have one id. *)
From Verif Require Import CStr CStrFacts ObjMemModel ObjMemFacts1 ObjMemFacts2 ObjMemFacts3 ObjMemFacts4 ObjMemFacts5 ObjMemFacts6 ObjMemFacts7 ObjMemFacts8 ObjMemFacts9 ObjMemFactsA ObjMemFactsB ObjMemFactsE.

(** * Trees of objects *)
Definition tname_of (p : str * option tree) : option (str + Z) := match snd p with Some u => tname u | None => None end.
Definition tdist (k : tag) (t : tree) : Prop := forall f, In f (rest k) ->
  let 'T _ l := t in match assoc f l with Some (Some (T _ its)) => NoDup (map tname_of its) | _ => True end.
Lemma rbs_names d h ss : d <= room -> forall ts xs, rbs (rb d h) ss = Some ts -> map snd ss = map Ptr (map Some xs) -> map tname_of ts = map (key tname h) xs.
Proof.
  intros Hd. induction ss as [|(f, v) ss IH]; intros ts [|x xs] E M; try discriminate.
  - cbn in E. injection E as <-. reflexivity.
  - cbn [map snd] in M. injection M as -> M. cbn [rbs] in E. destruct (rb d h x) as [tx|] eqn:Ex; [|discriminate]. destruct (rbs (rb d h) ss) as [l|] eqn:El; [|discriminate]. injection E as <-.
    cbn [map tname_of snd]. rewrite key_eq, (rb_up _ _ _ _ _ Hd Ex). f_equal. eapply IH; eauto.
Qed.
Lemma ptr_inj (xs ys : list addr) : map Ptr (map Some xs) = map Ptr (map Some ys) -> xs = ys.
Proof. revert ys. induction xs as [|x xs IH]; intros [|y ys] E; try discriminate; [reflexivity|]. cbn in E. injection E as -> E. now rewrite (IH _ E). Qed.
Lemma distinct_tree h e g k t : G [] h e -> has_kind h g k -> obj_tag k -> rb room h g = Some t -> (distinct_items h g k <-> tdist k t).
Proof.
  intros I K Ht Et. destruct (rb_at _ _ _ _ Et) as (c & d' & ts & Ed & Hc & _ & Hr & ->).
  assert (Q : forall f, In f (rest k) -> exists xs its tk, holds h g f xs /\ (forall xs', holds h g f xs' -> xs' = xs) /\ assoc f ts = Some (Some (T tk its)) /\ map tname_of its = map (key tname h) xs).
  { intros f Hf. destruct (obj_list [] h e [g] g k f I (own_in _ _ _ _ (in_eq _ _) K) (fun x => x) Ht Hf (fun _ _ x => x)) as (ss & l & xs & R & F & L & _).
    assert (Es : ss = slots c) by (destruct R as (c' & Hc' & _ & <-); congruence). subst ss. pose proof (rbs_find _ _ _ f Hr) as P. rewrite F in P. destruct P as (tl & El & Ea).
    destruct (rb_at _ _ _ _ El) as (cl & d2 & its & Ed2 & Hcl & _ & Hrl & ->). exists xs, its, (kind cl). split; [exists k, (slots c), l; auto|]. pose proof L as (sl & Rl & Ml). assert (El' : sl = slots cl) by (destruct Rl as (c' & Hc' & _ & <-); congruence). subst sl.
    split; [|split; [exact Ea|apply (rbs_names d2 h (slots cl)); [lia|exact Hrl|exact Ml]]].
    intros xs' (k' & ss' & l' & R' & F' & sl' & Rl' & Ml'). destruct (isres_fun _ _ _ _ _ _ R R') as (_ & <-). assert (l' = l) by congruence. subst l'. destruct (isres_fun _ _ _ _ _ _ Rl Rl') as (_ & <-). apply ptr_inj. congruence. }
  split; intros D f Hf; destruct (Q f Hf) as (xs & its & tk & H & U & Ea & En).
  - rewrite Ea, En. exact (D f Hf xs H).
  - intros xs' H'. rewrite (U _ H'). specialize (D f Hf). cbv beta iota in D. rewrite Ea, En in D. exact D.
Qed.
Definition objs (h : mem) (s : list addr) (ts : list tree) : Prop := Forall2 (fun y tr => rb room h y = Some tr) s ts.
Lemma objs_step h h' e e' s ts : objs h s ts -> G [] h e -> incl s e -> same (length h) h h' -> G [] h' e' -> incl s e' -> objs h' s ts.
Proof.
  intros O I Hi S I' Hi'. assert (Q : forall y tr, In y s -> rb room h y = Some tr -> rb room h' y = Some tr) by (intros y tr Hy; apply (rb_same _ _ _ _ _ _ _ _ _ _ I Hi S I' Hi' (via_in _ _ _ Hy))).
  clear Hi Hi'. induction O as [|y tr s ts E O IH]; constructor; [apply Q; [now left|exact E]|]. apply IH. intros z tz Hz. apply Q. now right.
Qed.
Lemma objs_kinds h s ts t : objs h s ts -> Forall (fun tr => root tr = t) ts -> Forall (fun y => has_kind h y t) s.
Proof. induction 1 as [|y tr s ts E O IH]; intros R; constructor; [rewrite <- (Forall_inv R); exact (rb_kind _ _ _ _ E)|apply IH; exact (Forall_inv_tail R)]. Qed.
Lemma objs_snoc h s ts o to : objs h s ts -> rb room h o = Some to -> objs h (s ++ [o]) (ts ++ [to]).
Proof. intros O E. apply Forall2_app; [exact O|]. constructor; [exact E|constructor]. Qed.
Lemma objs_keys h s ts : objs h s ts -> map (key tid h) s = map tid ts.
Proof. induction 1 as [|y tr s ts E O IH]; [reflexivity|]. cbn [map]. rewrite IH. f_equal. now apply key_rb. Qed.
Lemma hit_tree h x tx s ts : rb room h x = Some tx -> objs h s ts ->
  find (hit tid h x) s = None /\ ~ In (tid tx) (map tid ts) \/
  exists s1 y s2 ts1 ty ts2, s = s1 ++ y :: s2 /\ ts = ts1 ++ ty :: ts2 /\ objs h (s1 ++ s2) (ts1 ++ ts2) /\ rb room h y = Some ty /\ find (hit tid h x) s = Some y /\ rm (hit tid h x) s = s1 ++ s2 /\ tid ty = tid tx.
Proof.
  intros Ex O. induction O as [|y ty s ts Ey O IH]; [left; split; [reflexivity|intros []]|]. cbn [find rm].
  assert (Eh : hit tid h x y = oeqb (tid ty) (tid tx)) by (unfold hit; now rewrite (key_rb _ _ _ _ Ex), (key_rb _ _ _ _ Ey)). rewrite Eh. destruct (oeqb (tid ty) (tid tx)) eqn:Eq.
  - right. apply oeqb_true in Eq. exists [], y, s, [], ty, ts. cbn [app]. auto 10.
  - destruct IH as [(F & N)|(s1 & z & s2 & ts1 & tz & ts2 & -> & -> & O' & Ez & F & R & E)].
    + left. split; [exact F|]. cbn [map]. intros [D|D]; [|exact (N D)]. rewrite D in Eq. rewrite (proj2 (oeqb_true _ _) eq_refl) in Eq. discriminate.
    + right. exists (y :: s1), z, s2, (ty :: ts1), tz, ts2. cbn [app]. rewrite R. repeat (split; [first [reflexivity|assumption]|]). split; [constructor; [exact Ey|exact O']|auto].
Qed.

(** * The objects of one part *)
Section Compared.
Variable oracle : mem -> addr -> addr -> bool.
Section Part.
Variable h0 : mem.
Variable e0 : list addr.
Variable res : addr.
Variable k : str.
Variable et : ety.
Variable t : tag.
Variable un : addr -> addr -> M addr.
Hypothesis P : part k et t.
Hypothesis Sp : spec_id t un.
Record st (h : mem) (e : list addr) (s : list addr) (ts : list tree) : Prop := mkst {
  st_ok : ok [] h0 e0 h e; st_in : incl s e; st_objs : objs h s ts; st_root : Forall (fun tr => root tr = t) ts; st_doc : docres (length h0) h res; st_res : In res e }.
Lemma st_step h e h' e' s ts : st h e s ts -> same (length h) h h' -> G [] h' e' -> incl s e' -> incl e0 e' -> In res e' -> st h' e' s ts.
Proof.
  intros [O Hi Os R D Hr] S I' Hi' H0 Hr'. constructor; [|exact Hi'| |exact R| |exact Hr'].
  - eapply ok_step; [exact O|exact S|apply (ok_len _ _ _ _ _ O)|exact I'|exact H0].
  - eapply objs_step; [exact Os|apply (ok_g _ _ _ _ _ O)|exact Hi|exact S|exact I'|exact Hi'].
  - eapply docres_same; [exact D|exact S|apply (ok_len _ _ _ _ _ O)|exact I'|eapply in_live; eauto].
Qed.
Lemma st_g h e s ts : st h e s ts -> G [] h e.
Proof. intros Q. apply (ok_g _ _ _ _ _ (st_ok _ _ _ _ Q)). Qed.
Lemma st_own h e s ts : st h e s ts -> Forall (eown t h e) s.
Proof. intros Q. apply set_own; [eapply objs_kinds; [apply (st_objs _ _ _ _ Q)|apply (st_root _ _ _ _ Q)]|apply (st_in _ _ _ _ Q)]. Qed.
Lemma st_own1 h e s ts x : st h e s ts -> own h e x t -> Forall (eown t h e) (x :: s).
Proof. intros Q O. constructor; [exact O|exact (st_own _ _ _ _ Q)]. Qed.
Lemma base_obj h e s ts x tx : st h e s ts -> own h0 e0 x t -> rb room h0 x = Some tx -> own h e x t /\ rb room h x = Some tx.
Proof.
  intros Q Ox Ex. pose proof (st_ok _ _ _ _ Q) as O. split; [|eapply ok_rb; [exact O|apply incl_refl|apply Ox|exact Ex]].
  apply (own_mono _ e0); [apply (ok_inc _ _ _ _ _ O)|]. eapply ok_own; [exact O|apply incl_refl|exact Ox].
Qed.
Variable E : list addr.
Hypothesis HE : incl e0 E.
Hypothesis Hres : In res E.
Lemma add_exact h s ts o to : st h (o :: s ++ E) s ts -> rb room h o = Some to -> root to = t -> ~ In (tid to) (map tid ts) ->
  wp (do sb <- set_add (idcmp oracle) s o; ret (fst sb)) h (fun h' s' => st h' (s' ++ E) s' (ts ++ [to])).
Proof.
  intros Q Eo Er N. pose proof (part_plain _ _ _ P) as Pl. pose proof (idcmp_ok oracle t (p_tag _ _ _ P)) as Cm.
  assert (Ko : has_kind h o t) by (rewrite <- Er; exact (rb_kind _ _ _ _ Eo)).
  assert (Ho : Forall (eown t h (o :: s ++ E)) (o :: s)) by (constructor; [apply own_in; [now left|exact Ko]|apply (st_own _ _ _ _ Q)]).
  eapply wp_seq; [eapply (wp_set_add t (idcmp oracle) tid Pl Cm s h _ o (st_g _ _ _ _ Q) Ho)|]. cbv beta. intros h1 sb (I1 & S1 & ->). apply wp_ret.
  destruct (hit_tree h o to s ts Eo (st_objs _ _ _ _ Q)) as [(F & _)|(s1 & y & s2 & ts1 & ty & ts2 & _ & -> & _ & _ & _ & _ & Ey)].
  2:{ exfalso. apply N. rewrite <- Ey, map_app. apply in_or_app. right. now left. }
  rewrite F. cbn [fst].
  assert (Q' : st h (o :: s ++ E) (s ++ [o]) (ts ++ [to])).
  { destruct Q as [O Hi Os R D Hr]. constructor; [exact O|intros x Hx; apply in_app_or in Hx; destruct Hx as [Hx|[<-|[]]]; [exact (Hi x Hx)|now left]|apply objs_snoc; [exact Os|exact Eo]|apply Forall_app; split; [exact R|constructor; [exact Er|constructor]]|exact D|exact Hr]. }
  eapply st_step; [exact Q'|exact S1|eapply G_perm; [|exact I1]; cnts|apply incl_appl, incl_refl|apply incl_appr; exact HE|apply in_or_app; now right].
Qed.
Lemma copy_exact h s ts x tx : st h (s ++ E) s ts -> own h0 e0 x t -> rb room h0 x = Some tx -> ~ In (tid tx) (map tid ts) ->
  wp (do o <- copy_obj x; do sb <- set_add (idcmp oracle) s o; ret (fst sb)) h (fun h' s' => st h' (s' ++ E) s' (ts ++ [tx])).
Proof.
  intros Q Ox Ex N. destruct (base_obj _ _ _ _ _ _ Q Ox Ex) as (O & Ex'). assert (Er : root tx = t) by (eapply has_kind_fun; [exact (rb_kind _ _ _ _ Ex)|apply Ox]).
  eapply wp_seq; [apply (wp_copy_obj [] h _ x tx (st_g _ _ _ _ Q) (proj1 O) Ex')|]. cbv beta. intros h1 o (_ & I1 & S1 & T1 & _).
  apply (add_exact h1 s ts o tx); [|exact T1|exact Er|exact N].
  eapply st_step; [exact Q|exact S1|exact I1|intros y Hy; right; apply in_or_app; now left|intros y Hy; right; apply in_or_app; right; auto|right; apply in_or_app; now right].
Qed.
(** An object of the second document. *)
Definition second (s : list addr) (x : addr) : M (list addr) :=
  do b <- set_find (idcmp oracle) s x;
  match b with
  | Some _ => do d <- set_find (idcmp oracle) s x; do d <- follow d; do t <- un d x;
              do d2 <- set_find (idcmp oracle) s x; do s2 <- set_remove (idcmp oracle) s x; release d2 ;;;
              do sb <- set_add (idcmp oracle) s2 t; ret (fst sb)
  | None => do o <- copy_obj x; do sb <- set_add (idcmp oracle) s o; ret (fst sb)
  end.
Lemma second_exact h s ts x tx : st h (s ++ E) s ts -> NoDup (map tid ts) -> own h0 e0 x t -> rb room h0 x = Some tx -> tdist t tx -> (forall tr, In tr ts -> tid tr = tid tx -> tdist t tr) ->
  wp (second s x) h (fun h' s' => exists ts' tr, st h' (s' ++ E) s' (ts' ++ [tr]) /\ NoDup (map tid (ts' ++ [tr])) /\ incl ts' ts /\ tid tr = tid tx).
Proof.
  intros Q N Ox Ex Dx Dd. unfold second. pose proof (part_plain _ _ _ P) as Pl. pose proof (idcmp_ok oracle t (p_tag _ _ _ P)) as Cm.
  assert (Hs : forall y, In y s -> In y (s ++ E)) by (intros y Hy; apply in_or_app; now left). assert (H0 : incl e0 (s ++ E)) by (apply incl_appr; exact HE). assert (HR : In res (s ++ E)) by (apply in_or_app; now right).
  destruct (base_obj _ _ _ _ _ _ Q Ox Ex) as (O & _).
  eapply wp_seq; [eapply (wp_set_find t (idcmp oracle) tid Pl Cm s h _ x (st_g _ _ _ _ Q) (st_own1 _ _ _ _ _ Q O))|]. cbv beta. intros h1 b (I1 & S1 & ->).
  pose proof (st_step _ _ _ _ _ _ Q S1 I1 Hs H0 HR) as Q1. destruct (base_obj _ _ _ _ _ _ Q Ox Ex) as (_ & Exh).
  destruct (hit_tree h x tx s ts Exh (st_objs _ _ _ _ Q)) as [(F & Nx)|(s1 & y & s2 & ts1 & ty & ts2 & Es & Ets & Os' & Ey & F & _ & Ei)]; rewrite F.
  { eapply wp_mono; [apply (copy_exact h1 s ts x tx Q1 Ox Ex Nx)|]. cbv beta. intros h' s' Q'. exists ts, tx. split; [exact Q'|]. split; [rewrite map_app; apply NoDup_snoc; [exact N|exact Nx]|]. split; [apply incl_refl|reflexivity]. }
  clear Ey Os'. destruct (base_obj _ _ _ _ _ _ Q1 Ox Ex) as (O1 & Ex1).
  eapply wp_seq; [eapply (wp_set_find t (idcmp oracle) tid Pl Cm s h1 _ x I1 (st_own1 _ _ _ _ _ Q1 O1))|]. cbv beta. intros h2 b (I2 & S2 & ->).
  rewrite (hit_step t tid Pl h h1 _ x s (st_g _ _ _ _ Q) S1 I1 O (st_own _ _ _ _ Q)), F. cbn [follow]. apply wp_bind, wp_ret.
  pose proof (st_step _ _ _ _ _ _ Q1 S2 I2 Hs H0 HR) as Q2. destruct (base_obj _ _ _ _ _ _ Q2 Ox Ex) as (O2 & Ex2).
  assert (Hy : In y s) by (rewrite Es; apply in_or_app; right; now left). assert (Hty : In ty ts) by (rewrite Ets; apply in_or_app; right; now left).
  pose proof (st_own _ _ _ _ Q2) as Ow2. rewrite Forall_forall in Ow2. pose proof (Ow2 y Hy) as Oy.
  assert (Ey2 : rb room h2 y = Some ty).
  { pose proof (st_objs _ _ _ _ Q2) as Ob. destruct (hit_tree h2 x tx s ts Ex2 Ob) as [(F2 & Nx)|(z1 & z & z2 & tz1 & tz & tz2 & Es2 & Ets2 & _ & Ez & F2 & _ & Ei2)].
    - exfalso. apply Nx. rewrite <- Ei. now apply in_map.
    - assert (Ef : find (hit tid h2 x) s = find (hit tid h x) s) by (rewrite (hit_step t tid Pl h1 h2 _ x s I1 S2 I2 O1 (st_own _ _ _ _ Q1)); apply (hit_step t tid Pl h h1 _ x s (st_g _ _ _ _ Q) S1 I1 O (st_own _ _ _ _ Q))).
      assert (z = y) by congruence. subst z. rewrite Ez. f_equal. assert (Ht : In tz ts) by (rewrite Ets2; apply in_or_app; right; now left). clear - N Ht Hty Ei Ei2. rewrite <- Ei in Ei2. clear Ei.
      induction ts as [|a l IH]; [destruct Ht|]. cbn [map] in N. inversion N as [|? ? N1 N2]; subst. destruct Ht as [->|Ht], Hty as [->|Hty]; [reflexivity| | |auto]; exfalso; apply N1; [rewrite Ei2|rewrite <- Ei2]; now apply in_map. }
  eapply wp_seq; [apply (Sp h2 _ y x I2 Oy O2)|]. cbv beta. intros h3 o (lost & _ & I3 & S3 & K3 & L3 & Id3).
  rewrite L3 in I3; [|apply (distinct_tree _ _ _ _ _ I2 (proj2 Oy) (p_tag _ _ _ P) Ey2); apply Dd; [exact Hty|exact Ei]|apply (distinct_tree _ _ _ _ _ I2 (proj2 O2) (p_tag _ _ _ P) Ex2); exact Dx]. cbn [app] in I3.
  rewrite (key_rb _ _ _ _ Ey2), (key_rb _ _ _ _ Ex2) in Id3. specialize (Id3 Ei). destruct (rb_room h3 _ o t I3 K3 Pl) as (to & Eo & Ro). rewrite (key_rb _ _ _ _ Eo) in Id3.
  set (E3 := o :: s ++ E) in *. assert (Hs3 : incl s E3) by (intros z Hz; right; auto). assert (H03 : incl e0 E3) by (intros z Hz; right; auto). assert (HR3 : In res E3) by (right; exact HR).
  pose proof (st_step _ _ _ _ _ _ Q2 S3 I3 Hs3 H03 HR3) as Q3. destruct (base_obj _ _ _ _ _ _ Q3 Ox Ex) as (O3 & Ex3).
  assert (Up : forall h' h'', st h' E3 s ts -> same (length h') h' h'' -> G [] h'' E3 -> rb room h' o = Some to -> rb room h'' o = Some to).
  { intros h' h'' Q' S' I'' Eo'. eapply (rb_same _ h' h'' E3 E3 [o]); [apply (st_g _ _ _ _ Q')|intros z [<-|[]]; now left|exact S'|exact I''|intros z [<-|[]]; now left|apply via_in; now left|exact Eo']. }
  eapply wp_seq; [eapply (wp_set_find t (idcmp oracle) tid Pl Cm s h3 _ x I3 (st_own1 _ _ _ _ _ Q3 O3))|]. cbv beta. intros h4 d2 (I4 & S4 & Ed2).
  pose proof (st_step _ _ _ _ _ _ Q3 S4 I4 Hs3 H03 HR3) as Q4. pose proof (Up _ _ Q3 S4 I4 Eo) as Eo4. destruct (base_obj _ _ _ _ _ _ Q4 Ox Ex) as (O4 & Ex4).
  rewrite <- (hit_step t tid Pl h3 h4 _ x s I3 S4 I4 O3 (st_own _ _ _ _ Q3)) in Ed2. subst d2.
  eapply wp_seq; [eapply (wp_set_remove t (idcmp oracle) tid Pl Cm s h4 _ x I4 (st_own1 _ _ _ _ _ Q4 O4))|]. cbv beta. intros h5 s5 (I5 & S5 & ->).
  pose proof (st_step _ _ _ _ _ _ Q4 S5 I5 Hs3 H03 HR3) as Q5. pose proof (Up _ _ Q4 S5 I5 Eo4) as Eo5.
  pose proof (rm_cnt (hit tid h4 x) s) as Rc. pose proof (rm_incl (hit tid h4 x) s) as Ri.
  destruct (hit_tree h4 x tx s ts Ex4 (st_objs _ _ _ _ Q4)) as [(_ & Nx)|(z1 & z & z2 & tz1 & tz & tz2 & Es4 & Ets4 & Os4 & _ & F4 & R4 & Ei4)]; [exfalso; apply Nx; rewrite <- Ei; now apply in_map|].
  rewrite F4, R4 in *. clear Es Ets s1 s2 ts1 ts2.
  assert (It : incl (tz1 ++ tz2) ts) by (intros a Ha; rewrite Ets4; apply in_app_or in Ha; apply in_or_app; destruct Ha; [now left|right; now right]).
  assert (Nt : NoDup (map tid (tz1 ++ tz2)) /\ ~ In (tid tx) (map tid (tz1 ++ tz2))).
  { rewrite Ets4, map_app in N. cbn [map] in N. rewrite Ei4 in N. rewrite map_app. split; [exact (NoDup_remove_1 _ _ _ N)|exact (NoDup_remove_2 _ _ _ N)]. }
  assert (Q5' : st h5 E3 (z1 ++ z2) (tz1 ++ tz2)).
  { destruct Q5 as [A1 A2 A3 A4 A5 A6]. constructor; [exact A1|intros a Ha; apply A2; exact (Ri a Ha)| | |exact A5|exact A6].
    - eapply objs_step; [exact Os4|exact I4|intros a Ha; apply Hs3; auto|exact S5|exact I5|intros a Ha; apply Hs3; auto].
    - apply Forall_forall. intros a Ha. rewrite Forall_forall in A4. auto. }
  set (E6 := o :: (z1 ++ z2) ++ E).
  eapply wp_seq; [apply (wp_release0 h5 E6 (Some z))|].
  { eapply G_perm; [|exact I5]. intros a. specialize (Rc a). unfold E6, E3. cbn [somes app] in *. rewrite ?count_occ_app in *. cbn [count_occ] in *. rewrite ?count_occ_app in *. destruct (Nat.eq_dec o a), (Nat.eq_dec z a); lia. }
  cbv beta. intros h6 _ (I6 & _ & S6).
  assert (Q6 : st h6 E6 (z1 ++ z2) (tz1 ++ tz2)) by (eapply st_step; [exact Q5'|exact S6|exact I6|intros a Ha; right; apply in_or_app; now left|intros a Ha; right; apply in_or_app; right; auto|right; apply in_or_app; now right]).
  assert (Eo6 : rb room h6 o = Some to) by (eapply (rb_same _ h5 h6 E3 E6 [o]); [exact I5|intros a [<-|[]]; now left|exact S6|exact I6|intros a [<-|[]]; now left|apply via_in; now left|exact Eo5]).
  eapply wp_mono; [apply (add_exact h6 (z1 ++ z2) (tz1 ++ tz2) o to Q6 Eo6 Ro); rewrite Id3; apply Nt|]. cbv beta. intros h7 s7 Q7. exists (tz1 ++ tz2), to. split; [exact Q7|]. split; [rewrite map_app; apply NoDup_snoc; [apply Nt|rewrite Id3; apply Nt]|]. split; [exact It|exact Id3].
Qed.
End Part.

(** * Two documents *)
(** No two objects have one id, and no object has two items of one name. *)
Definition good_list (h : mem) (t : tag) (xs : list addr) : Prop := NoDup (map (key tid h) xs) /\ Forall (fun x => distinct_items h x t) xs.
Definition good_part (h : mem) (d : addr) (k : str) (et : ety) (t : tag) : Prop := exists l xs, entry h d k l /\ isl h l et (map Some xs) /\ good_list h t xs.
Lemma isl_fun h l et xs ys : isl h l et (map Some xs) -> isl h l et (map Some ys) -> xs = ys.
Proof. intros (s & R & M) (s' & R' & M'). destruct (isres_fun _ _ _ _ _ _ R R') as (_ & <-). apply ptr_inj. congruence. Qed.
Lemma all_objs h e t xs : G [] h e -> plain t = true -> Forall (fun x => own h e x t) xs -> exists ts, objs h xs ts /\ Forall (fun tr => root tr = t) ts.
Proof.
  intros I Pl. induction 1 as [|x xs Ox _ (ts & Os & R)]; [exists []; split; constructor|]. destruct (rb_room h e x t I (proj2 Ox) Pl) as (tx & Ex & Er). exists (tx :: ts). split; constructor; auto.
Qed.
Lemma entry_uniq h e d k l l' : G [] h e -> entry h d k l -> entry h d k l' -> l' = l.
Proof.
  intros I (ss & o & so & R & F & Ro & H) (ss' & o' & so' & R' & F' & Ro' & H'). destruct (isres_fun _ _ _ _ _ _ R R') as (_ & <-). assert (o' = o) by congruence. subst o'. destruct (isres_fun _ _ _ _ _ _ Ro Ro') as (_ & <-).
  pose proof (isres_uniq _ _ _ _ _ _ I Ro) as N. pose proof (find_uniq _ _ _ N H). pose proof (find_uniq _ _ _ N H'). congruence.
Qed.
Lemma entry_base h0 e0 h e d k l : ok [] h0 e0 h e -> own h0 e0 d KDoc -> entry h0 d k l -> entry h d k l.
Proof.
  intros O Od (ss & o & so & R & F & Ro & H). assert (Vo : via h0 e0 o) by (eapply isres_via; [exact R|apply Od|exact (find_in _ _ _ F)]).
  destruct (via_same _ _ _ _ _ _ _ _ (ok_g0 _ _ _ _ _ O) (incl_refl _) (ok_same _ _ _ _ _ O) (ok_g _ _ _ _ _ O) (ok_inc _ _ _ _ _ O) Vo) as (_ & c & c' & Hc & Hc' & Kc & Kp).
  destruct Ro as (c0 & Hc0 & K0 & E0). assert (c0 = c) by congruence. subst c0. exists ss, o, (slots c'). split; [eapply base_isres; [exact O|exact Od|discriminate|exact R]|]. split; [exact F|]. split; [exists c'; split; [exact Hc'|split; [congruence|reflexivity]]|].
  destruct Kp as [E|(_ & more & E & _)]; rewrite E, E0; [exact H|]. apply in_or_app. now left.
Qed.
Lemma get_base h0 e0 h e d k l : ok [] h0 e0 h e -> In d e0 -> has_kind h0 d KDoc -> entry h0 d k l -> wp (doc_get d k) h (fun h' l' => l' = l /\ ok [] h0 e0 h' (l :: e) /\ same (length h) h h').
Proof.
  intros O Hd Kd En. pose proof (own_in _ _ _ _ Hd Kd) as Od. eapply wp_mono; [apply (doc_get_ok h e e0 d k (ok_g _ _ _ _ _ O) (ok_own _ _ _ _ _ _ _ _ O (incl_refl _) Od) (ok_inc _ _ _ _ _ O))|].
  cbv beta. intros h' l' (I' & S' & _ & En').
  assert (O' : ok [] h0 e0 h' (l' :: e)) by (eapply ok_step; [exact O|exact S'|apply (ok_len _ _ _ _ _ O)|exact I'|intros x Hx; right; now apply (ok_inc _ _ _ _ _ O)]).
  pose proof (entry_uniq _ _ _ _ _ _ I' (entry_base _ _ _ _ _ _ _ O' Od En) En') as El. subst l'. auto.
Qed.
Lemma docres_kind n h d : docres n h d -> has_kind h d KDoc.
Proof. intros (ss & o & so & R & _). eapply isres_kind; eauto. Qed.
Lemma docres_weak n m h d : m <= n -> docres n h d -> docres m h d.
Proof. intros L (ss & o & so & R & F & Lo & Ro & H). exists ss, o, so. split; [exact R|]. split; [exact F|]. split; [lia|]. split; [exact Ro|]. intros f l Hl. specialize (H f l Hl). lia. Qed.
Lemma add_all_exact h0 e0 res k et t E : part k et t -> incl e0 E -> In res E -> forall s h, ok [] h0 e0 h (s ++ E) -> docres (length h0) h res -> Forall (fun y => has_kind h y t) s ->
  wp (forM (fun x => doc_add res k x) s) h (fun h' _ => ok [] h0 e0 h' E /\ docres (length h0) h' res).
Proof.
  intros P HE Hr. induction s as [|x s IH]; intros h O D Ks; cbn [forM].
  - apply wp_ret. split; [exact O|exact D].
  - eapply wp_seq; [eapply (doc_add_ok (length h0) h (s ++ E) [res] res k et x t (ok_g _ _ _ _ _ O) (own_in _ _ _ _ (in_eq _ _) (docres_kind _ _ _ D)))|].
    + intros y [<-|[]]. apply in_or_app. now right.
    + exact D.
    + apply (ok_len _ _ _ _ _ O).
    + apply (p_kind _ _ _ P).
    + exact (Forall_inv Ks).
    + apply (part_el _ _ _ P).
    + cbv beta. intros h1 [] (I1 & S1 & D1). apply IH; [|exact D1|].
      * eapply ok_step; [exact O|exact S1|apply Nat.le_refl|exact I1|apply incl_appr; exact HE].
      * apply Forall_forall. intros y Hy. pose proof (Forall_inv_tail Ks) as Ks'. rewrite Forall_forall in Ks'. eapply has_kind_same; [exact (Ks' y Hy)|exact S1|]. eapply in_live; [exact I1|]. apply in_or_app. now left.
Qed.
Lemma part_own h0 e0 k et t l xs : part k et t -> G [] h0 e0 -> own h0 e0 l (KList et) -> isl h0 l et (map Some xs) -> Forall (fun x => own h0 e0 x t) xs.
Proof. intros P I O L. destruct (part_items h0 e0 e0 l k et t P I O) as (xs' & H & L'). now rewrite (isl_fun _ _ _ _ _ L L'). Qed.
Lemma objs_split h x post pre ts : objs h (pre ++ x :: post) ts -> exists t1 tx t2, ts = t1 ++ tx :: t2 /\ objs h pre t1 /\ rb room h x = Some tx.
Proof. intros H. apply Forall2_app_inv_l in H as (t1 & t2 & H1 & H2 & ->). inversion H2 as [|? tx ? t2' Ex H3]; subst. exists t1, tx, t2'. auto. Qed.
Lemma union_objs_exact h0 e0 h E res c1 c2 k et t un l1 l2 xs ys : part k et t -> spec_id t un -> ok [] h0 e0 h (l1 :: E) -> incl e0 E -> In res E -> docres (length h0) h res ->
  In c2 e0 -> has_kind h0 c2 KDoc -> own h0 e0 l1 (KList et) -> isl h0 l1 et (map Some xs) -> good_list h0 t xs -> entry h0 c2 k l2 -> isl h0 l2 et (map Some ys) -> good_list h0 t ys ->
  wp (union_objs oracle res c1 c2 k un l1) h (fun h' _ => ok [] h0 e0 h' E /\ docres (length h0) h' res).
Proof.
  intros P Sp O HE Hr D H2 K2 Ol1 L1 (Nx & Dx) En L2 (Ny & Dy). pose proof (ok_g0 _ _ _ _ _ O) as I0. pose proof (part_plain _ _ _ P) as Pl.
  assert (Ol2 : own h0 e0 l2 (KList et)) by (rewrite <- (p_kind _ _ _ P); exact (entry_own _ _ _ _ _ _ _ I0 H2 En)).
  pose proof (part_own _ _ _ _ _ _ _ P I0 Ol1 L1) as Ox. pose proof (part_own _ _ _ _ _ _ _ P I0 Ol2 L2) as Oy.
  destruct (all_objs _ _ _ _ I0 Pl Ox) as (tsx & Tx & Rx), (all_objs _ _ _ _ I0 Pl Oy) as (tsy & Ty & Ry).
  assert (Tree : forall x tx, own h0 e0 x t -> rb room h0 x = Some tx -> distinct_items h0 x t -> tdist t tx) by (intros x tx Oo Eo Do; apply (distinct_tree _ _ _ _ _ I0 (proj2 Oo) (p_tag _ _ _ P) Eo); exact Do).
  unfold union_objs. apply wp_bind. eapply wp_isl_items; [eapply base_isl; [exact O|exact Ol1|exact L1]|].
  assert (HE1 : incl e0 (l1 :: E)) by (intros y Hy; right; auto). assert (Hr1 : In res (l1 :: E)) by now right. assert (HE2 : incl e0 (l2 :: E)) by (intros y Hy; right; auto). assert (Hr2 : In res (l2 :: E)) by now right.
  eapply wp_seq; [eapply (wp_each_list _ xs (fun pre s hh => exists ts, objs h0 pre ts /\ st h0 e0 res t hh (s ++ l1 :: E) s ts))|].
  { intros pre x post s hh Exs (ts & Op & Q). pose proof Tx as Tx'. rewrite Exs in Tx', Nx, Ox. destruct (objs_split _ _ _ _ _ Tx') as (t1 & tx & t2 & _ & O1 & Ex).
    assert (Oo : own h0 e0 x t) by (rewrite Forall_forall in Ox; apply Ox; apply in_or_app; right; now left).
    eapply wp_mono; [eapply (copy_exact h0 e0 res k et t P (l1 :: E) HE1 Hr1 hh s ts x tx Q Oo Ex)|].
    - rewrite <- (objs_keys _ _ _ Op), <- (key_rb tid _ _ _ Ex). rewrite map_app in Nx. cbn [map] in Nx. apply NoDup_remove_2 in Nx. intros Hd. apply Nx. apply in_or_app. now left.
    - cbv beta. intros h' s' Q'. exists (ts ++ [tx]). split; [now apply objs_snoc|exact Q']. }
  { exists []. split; [constructor|]. constructor; [exact O|intros y []|constructor|constructor|exact D|exact Hr1]. }
  cbv beta. intros h1 s1 (ts1 & Op1 & Q1).
  eapply wp_seq; [apply (wp_release0 h1 (s1 ++ E) (Some l1)); eapply G_perm; [|exact (st_g _ _ _ _ _ _ _ _ Q1)]; cnts|]. cbv beta. intros h2 _ (I2 & _ & S2).
  assert (Q2 : st h0 e0 res t h2 (s1 ++ E) s1 ts1) by (eapply st_step; [exact Q1|exact S2|exact I2|apply incl_appl, incl_refl|apply incl_appr; exact HE|apply in_or_app; now right]).
  eapply wp_seq; [apply (get_base h0 e0 h2 (s1 ++ E) c2 k l2 (st_ok _ _ _ _ _ _ _ _ Q2) H2 K2 En)|]. cbv beta. intros h3 l2' (-> & O3 & S3).
  assert (Q3 : st h0 e0 res t h3 (s1 ++ l2 :: E) s1 ts1) by (eapply st_step; [exact Q2|exact S3|eapply G_perm; [|exact (ok_g _ _ _ _ _ O3)]; cnts|apply incl_appl, incl_refl|apply incl_appr; exact HE2|apply in_or_app; now right]).
  apply wp_bind. eapply wp_isl_items; [eapply base_isl; [exact O3|exact Ol2|exact L2]|].
  eapply wp_seq; [eapply (wp_each_list (second un) ys (fun pre s hh => exists ts, st h0 e0 res t hh (s ++ l2 :: E) s ts /\ NoDup (map tid ts) /\ forall tr, In tr ts -> tdist t tr \/ In (tid tr) (map (key tid h0) pre)))|].
  { intros pre x post s hh Eys (ts & Q & N & Dt). pose proof Ty as Ty'. rewrite Eys in Ty', Ny, Oy, Dy. destruct (objs_split _ _ _ _ _ Ty') as (t1 & tx & t2 & _ & O1 & Ex).
    assert (Oo : own h0 e0 x t) by (rewrite Forall_forall in Oy; apply Oy; apply in_or_app; right; now left).
    assert (Do : distinct_items h0 x t) by (rewrite Forall_forall in Dy; apply Dy; apply in_or_app; right; now left).
    assert (Nk : ~ In (tid tx) (map (key tid h0) pre)) by (rewrite <- (key_rb tid _ _ _ Ex); rewrite map_app in Ny; cbn [map] in Ny; apply NoDup_remove_2 in Ny; intros Hd; apply Ny; apply in_or_app; now left).
    eapply wp_mono; [eapply (second_exact h0 e0 res k et t un P Sp (l2 :: E) HE2 Hr2 hh s ts x tx Q N Oo Ex (Tree _ _ Oo Ex Do))|].
    - intros tr Htr Etr. destruct (Dt tr Htr) as [H|H]; [exact H|]. rewrite Etr in H. destruct (Nk H).
    - cbv beta. intros h' s' (ts' & tr & Q' & N' & Hi & Etr). exists (ts' ++ [tr]). split; [exact Q'|]. split; [exact N'|]. rewrite map_app. intros u Hu. apply in_app_or in Hu. destruct Hu as [Hu|[<-|[]]].
      + destruct (Dt u (Hi u Hu)) as [H|H]; [now left|right; apply in_or_app; now left].
      + right. apply in_or_app. right. left. rewrite Etr. now apply key_rb. }
  { exists ts1. split; [exact Q3|]. split; [rewrite <- (objs_keys _ _ _ Op1); exact Nx|]. intros tr Htr. left. clear - Op1 Htr Ox Dx Tree. induction Op1 as [|x tx l ts Ex _ IH]; [destruct Htr|]. destruct Htr as [<-|Htr].
    - apply (Tree x); [exact (Forall_inv Ox)|exact Ex|exact (Forall_inv Dx)].
    - apply IH; [exact (Forall_inv_tail Dx)|exact (Forall_inv_tail Ox)|exact Htr]. }
  cbv beta. intros h4 s4 (ts4 & Q4 & _).
  eapply wp_seq; [apply (wp_release0 h4 (s4 ++ E) (Some l2)); eapply G_perm; [|exact (st_g _ _ _ _ _ _ _ _ Q4)]; cnts|]. cbv beta. intros h5 _ (I5 & _ & S5).
  assert (Q5 : st h0 e0 res t h5 (s4 ++ E) s4 ts4) by (eapply st_step; [exact Q4|exact S5|exact I5|apply incl_appl, incl_refl|apply incl_appr; exact HE|apply in_or_app; now right]).
  apply (add_all_exact h0 e0 res k et t E P HE Hr s4 h5 (st_ok _ _ _ _ _ _ _ _ Q5) (st_doc _ _ _ _ _ _ _ _ Q5)). eapply objs_kinds; [exact (st_objs _ _ _ _ _ _ _ _ Q5)|exact (st_root _ _ _ _ _ _ _ _ Q5)].
Qed.
Definition good_doc (h : mem) (d : addr) : Prop := good_part h d o_groups LGroup KGroup /\ good_part h d o_cats LCat KCat /\ good_part h d o_envs LEnv KEnv.
Lemma doc_union_exact h e c1 c2 : G [] h e -> In c1 e -> has_kind h c1 KDoc -> In c2 e -> has_kind h c2 KDoc -> good_doc h c1 -> good_doc h c2 ->
  wp (doc_union oracle c1 c2) h (fun h' r => G [] h' (r :: e) /\ has_kind h' r KDoc).
Proof.
  intros I H1 K1 H2 K2 ((g & gx & Eg & Lg & Gg) & (c & cx & Ec & Lc & Gc) & (v & vx & Ev & Lv & Gv)) ((g2 & gy & Eg2 & Lg2 & Gg2) & (c2' & cy & Ec2 & Lc2 & Gc2) & (v2 & vy & Ev2 & Lv2 & Gv2)).
  pose proof (entry_own _ _ _ _ _ _ _ I H1 Eg) as Og. pose proof (entry_own _ _ _ _ _ _ _ I H1 Ec) as Oc. pose proof (entry_own _ _ _ _ _ _ _ I H1 Ev) as Ov. pose proof (ok_id _ _ I) as O. unfold doc_union.
  eapply wp_seq; [apply (get_base h e h e c1 o_groups g O H1 K1 Eg)|]. cbv beta. intros ha g' (-> & Oa & _).
  eapply wp_seq; [apply (get_base h e ha _ c1 o_cats c Oa H1 K1 Ec)|]. cbv beta. intros hb c' (-> & Ob & _).
  eapply wp_seq; [apply (get_base h e hb _ c1 o_envs v Ob H1 K1 Ev)|]. cbv beta. intros hc v' (-> & Ocur & _).
  assert (H1c : In c1 (v :: c :: g :: e)) by (right; right; now right).
  assert (K1c : has_kind hc c1 KDoc) by (eapply has_kind_same; [exact K1|apply (ok_same _ _ _ _ _ Ocur)|eapply in_live; [apply (ok_g _ _ _ _ _ Ocur)|exact H1c]]).
  destruct (field [] hc _ _ c1 KDoc f_enc (ok_g _ _ _ _ _ Ocur) (own_in _ _ _ _ H1c K1c) (fun x => x)) as (ss & enc & R & F & _ & Ft & Hv); [cbn; tauto|].
  apply wp_bind. eapply wp_member; [exact R|exact F|]. eapply wp_seq; [apply (new_doc_ok hc _ enc (ok_g _ _ _ _ _ Ocur) Ft Hv)|]. cbv beta. intros hd r (_ & Id & Sd & _ & Dd).
  pose proof (ok_len _ _ _ _ _ Ocur) as Lc0. apply (docres_weak _ (length h) _ _ Lc0) in Dd.
  assert (Od : ok [] h e hd (g :: c :: v :: r :: e)) by (eapply ok_step; [exact Ocur|exact Sd|exact Lc0|eapply G_perm; [|exact Id]; cnts|intros y Hy; right; right; right; now right]).
  eapply wp_seq; [eapply (union_objs_exact h e hd (c :: v :: r :: e) r c1 c2 o_groups LGroup KGroup _ g g2 gx gy part_groups (group_union_id oracle) Od); [intros y Hy; right; right; now right|right; right; now left|exact Dd|exact H2|exact K2|exact Og|exact Lg|exact Gg|exact Eg2|exact Lg2|exact Gg2]|].
  cbv beta. intros he _ (Oe & De).
  eapply wp_seq; [eapply (union_objs_exact h e he (v :: r :: e) r c1 c2 o_cats LCat KCat _ c c2' cx cy part_cats (cat_union_id oracle) Oe); [intros y Hy; right; now right|right; now left|exact De|exact H2|exact K2|exact Oc|exact Lc|exact Gc|exact Ec2|exact Lc2|exact Gc2]|].
  cbv beta. intros hf _ (Of & Df).
  eapply wp_seq; [eapply (union_objs_exact h e hf (r :: e) r c1 c2 o_envs LEnv KEnv _ v v2 vx vy part_envs (env_union_id oracle) Of); [intros y Hy; now right|now left|exact Df|exact H2|exact K2|exact Ov|exact Lv|exact Gv|exact Ev2|exact Lv2|exact Gv2]|].
  cbv beta. intros hg _ (Og' & Dg). pose proof (ok_g _ _ _ _ _ Og') as Jd. pose proof (docres_kind _ _ _ Dg) as Kr.
  assert (He : forall y (z : list addr), In y e -> In y (z ++ r :: e)) by (intros y z Hy; apply in_or_app; right; now right).
  assert (Kg : forall d, In d e -> has_kind h d KDoc -> has_kind hg d KDoc) by (intros d Hd Kd; eapply has_kind_same; [exact Kd|apply (ok_same _ _ _ _ _ Og')|eapply in_live; [exact Jd|now right]]).
  eapply wp_seq; [apply (get_grow hg _ c1 o_lang Jd (He c1 [] H1) (Kg _ H1 K1))|]. cbv beta. intros hh d1 (Ih & Sh & Kh & _).
  eapply wp_seq; [apply (get_grow hh _ c2 o_lang Ih (He c2 [d1] H2) (kind_grows _ _ _ _ _ _ (Kg _ H2 K2) Sh Ih (He c2 [d1] H2)))|]. cbv beta. intros hi d2 (Ii & Si & Ki & _).
  change (has_kind hh d1 (KDict DLang)) in Kh. change (has_kind hi d2 (KDict DLang)) in Ki.
  assert (Okk : ok [] hi (d2 :: d1 :: r :: e) hi (d2 :: d1 :: r :: e)) by (apply ok_id; exact Ii).
  eapply wp_seq; [eapply (dict_union_ok hi _ [] hi _ DLang d1 d2 Okk)|]; [intros y []|discriminate|apply own_in; [right; now left|eapply kind_grows; [exact Kh|exact Si|exact Ii|right; now left]]|apply own_in; [now left|exact Ki]|].
  cbv beta. intros hj lp (_ & Ij & Sj & Kj). apply grows_same in Sj.
  eapply wp_seq; [apply (release_grow hj (d2 :: lp :: r :: e) (Some d1)); eapply G_perm; [|exact Ij]; cnts|]. cbv beta. intros hk _ (Ik & Sk).
  eapply wp_seq; [apply (release_grow hk (lp :: r :: e) (Some d2) Ik)|]. cbv beta. intros hl _ (Il & Sl).
  assert (Krl : has_kind hl r KDoc) by (eapply kind_grows; [exact Kr|eapply grows_trans; [exact Sh|eapply grows_trans; [exact Si|eapply grows_trans; [exact Sj|eapply grows_trans; [exact Sk|exact Sl]]]]|exact Il|right; now left]).
  assert (Or : own hl (lp :: r :: e) r KDoc) by (apply own_in; [right; now left|exact Krl]).
  eapply wp_seq; [eapply (doc_set_ok 0 hl _ r o_lang lp Il Or (docres_any _ _ _ _ _ Il Or (fun x => x)))|]; [lia|lia|change (has_kind hl lp (KDict DLang)); eapply kind_grows; [exact Kj|eapply grows_trans; [exact Sk|exact Sl]|exact Il|now left]|].
  cbv beta. intros hm _ (Im & Sm). eapply wp_seq; [apply (wp_release0 hm (r :: e) (Some lp) Im)|]. cbv beta. intros hn _ (In' & _ & Sn). apply wp_ret. split; [exact In'|].
  eapply has_kind_same; [eapply has_kind_same; [exact Krl|exact Sm|eapply in_live; [exact Im|right; now left]]|exact Sn|eapply in_live; [exact In'|now left]].
Qed.
End Compared.
