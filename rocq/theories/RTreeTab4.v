(** Which key a set with a length uses. *)
From Coq Require Import Permutation.
From Verif Require Import CStr CStrFacts HSListModel HSListFacts RTreeModel RTreeFacts RTreeFacts2 RTreeFacts3 RTreeFacts4 OwnModel OwnFacts OwnFacts2 OwnFacts3 OwnFacts4 OwnFacts5
  MDictFacts MDictSpec RTreeTab RTreeTab2 RTreeTab3.

Section Length.
Context {V : Type}.
Notation cell := (option V * bool)%type.
Implicit Types (T : str -> option cell) (k K s : str) (d : option V).

(** With [K] the first characters of [k] that were asked for: [K] is used if it is a
    path or ends inside one; by objects also if it leaves the paths at a path. *)
Definition used kd T k K s : str :=
  if match T K with Some _ => true | None => false end || streq s K || match kd with Objects => match T s with Some _ => true | None => false end | Plain _ => false end
  then K else k.
Lemma used_lift kd T T1 x k K s : (forall r, T (x ++ r) = T1 r) -> used kd T (x ++ k) (x ++ K) (x ++ s) = x ++ used kd T1 k K s.
Proof.
  intros H. unfold used. rewrite !H, streq_app. destruct (_ || _ || _); reflexivity.
Qed.

Lemma own_set_n_used kd : forall fuel (h : hsl (node V)) k m d d0,
  wff h -> 0 < m -> m <= length k -> m <= fuel ->
  exists s, stems (cells d0 h) (firstn m k) s /\
    let k' := used kd (cells d0 h) k (firstn m k) s in own_set kd fuel h k m d = own_set kd (length k') h k' (length k') d.
Proof.
  induction fuel as [|fuel IH]; intros h k m d d0 Hw Hm Hle Hf; [lia|].
  destruct m as [|m]; [lia|]. destruct k as [|c k]; [cbn in Hle; lia|].
  assert (Hfm : firstn (S m) (c :: k) = c :: firstn m k) by reflexivity.
  assert (Hlm : length (firstn m k) = m) by (rewrite firstn_length; cbn in Hle; lia).
  rewrite Hfm. cbv zeta.
  cbn [own_set].
  pose proof (find_child_spec c (hitems h) 0 None) as Hfc.
  destruct (find_child c (hitems h) 0 None) as [i n|lz] eqn:Efc.
  2:{ destruct Hfc as [Hfc _].
    assert (Hno : forall q, q <> [] -> char0 q = c -> cells d0 h q = None) by (intros q Hq Hc; apply cells_notin; auto; now rewrite Hc).
    exists []. split.
    { split; [now exists (c :: firstn m k)|]. split; [now left|]. intros q r Hq Hrq Hrk. destruct r as [|y r]; [apply prefix_refl|]. exfalso. apply Hq.
      destruct Hrk as (u & E). injection E as Ec _. destruct Hrq as (u' & ->). apply Hno; [discriminate|]. cbn. congruence. }
    unfold used. rewrite (Hno (c :: firstn m k)) by (auto; discriminate). rewrite (streq_neq [] (c :: firstn m k)) by discriminate. rewrite cells_nil. cbn [orb].
    destruct kd.
    - cbn [own_set length]. rewrite Efc. reflexivity.
    - cbn [own_set length]. rewrite Efc. rewrite Hfm. cbn [firstn]. rewrite firstn_all. reflexivity. }
  destruct Hfc as (l1 & l2 & El & _ & Hh & _).
  assert (Hin : In n (hitems h)) by (rewrite El; apply in_or_app; right; now left).
  pose proof (wff_key _ _ Hw Hin) as Hnk. pose proof (wff_sub _ _ Hw Hin) as Hns.
  assert (Hnode : cells d0 h (nkey n) <> None) by (rewrite <- (app_nil_r (nkey n)), cells_app by auto; discriminate).
  pose proof (scan_keycmp c (firstn m k) (nkey n) Hnk Hh) as Hk.
  destruct (scan 1 (firstn m k) (tl (nkey n))) as [| |x|x] eqn:Esc.
  - inversion Hk as [E| | |]. exists (c :: firstn m k). split; [split; [apply prefix_refl|split; [right; exists (nkey n); split; [exact Hnode|rewrite E; apply prefix_refl]|auto]]|].
    unfold used. rewrite streq_refl, Bool.orb_true_r. cbn [orb]. cbn [own_set length]. rewrite Efc, firstn_all, Esc. reflexivity.
  - inversion Hk as [|a r E| |]. exists (c :: firstn m k). split; [split; [apply prefix_refl|split; [right; exists (nkey n); split; [exact Hnode|rewrite E; now eexists]|auto]]|].
    unfold used. rewrite streq_refl, Bool.orb_true_r. cbn [orb]. cbn [own_set length]. rewrite Efc, firstn_all, Esc, Hlm.
    cbn [firstn]. rewrite firstn_firstn, Nat.min_id. reflexivity.
  - inversion Hk as [| |a r Ek Ex|]; subst x; clear Hk.
    assert (Hlen : S m = length (nkey n) + S (length r)).
    { apply (f_equal (@length _)) in Ek. rewrite app_length in Ek. cbn [length] in Ek. lia. }
    assert (Hpre : c :: k = nkey n ++ skipn (length (nkey n)) (c :: k)).
    { rewrite <- (firstn_skipn (length (nkey n)) (c :: k)) at 1. f_equal.
      assert (E : firstn (length (nkey n)) (firstn (S m) (c :: k)) = nkey n).
      { rewrite Hfm, Ek. apply firstn_app_exact. }
      rewrite firstn_firstn in E. rewrite Nat.min_l in E by lia. exact E. }
    set (s := skipn (length (nkey n)) (c :: k)) in *.
    assert (Hls : length s = length (c :: k) - length (nkey n)) by apply skipn_length.
    assert (Es : firstn (S m - length (nkey n)) s = a :: r)
          by (unfold s; rewrite firstn_skipn_comm', Hfm, Ek; apply skipn_app_exact).
    destruct (IH (nsubs n) s (S m - length (nkey n)) d (ndata n) Hns) as (s1 & Hst & E2).
    { lia. } { cbn [length] in *. lia. } { destruct (nkey n); [congruence|]. cbn [length] in *. lia. }
    rewrite Es in Hst, E2. cbv zeta in E2.
    exists (nkey n ++ s1). rewrite Ek. split; [apply (stems_lift _ (cells (ndata n) (nsubs n))); [intros; now apply cells_app|discriminate|exact Hst]|].
    rewrite Hpre. rewrite (used_lift kd _ (cells (ndata n) (nsubs n))) by (intros; now apply cells_app).
    set (k2 := used kd (cells (ndata n) (nsubs n)) s (a :: r) s1) in *.
    assert (Hk2c : k2 = a :: tl k2).
    { unfold k2, used. destruct (_ || _ || _); [reflexivity|]. destruct s; [now rewrite firstn_nil in Es|]. destruct (S m - length (nkey n)); cbn in Es |- *; congruence. }
    clearbody k2. rewrite E2.
    destruct (nkey n) as [|c0 nk0] eqn:Enk; [congruence|]. unfold head0 in Hh. rewrite Enk in Hh. cbn in Hh. subst c0.
    rewrite Hk2c. remember (own_set kd (length (a :: tl k2)) (nsubs n) (a :: tl k2) (length (a :: tl k2)) d) as R eqn:ER.
    cbn [app length own_set]. rewrite Efc, firstn_all, Enk. cbn [tl]. rewrite scan_E1.
    cbn [Nat.add skipn]. rewrite skipn_app_exact.
    replace (S (length (nk0 ++ a :: tl k2)) - S (length nk0)) with (length (a :: tl k2))
      by (rewrite app_length; cbn [length]; lia).
    rewrite (own_set_fuel kd (length (nk0 ++ a :: tl k2)) (length (a :: tl k2))); try exact Hns;
      try (rewrite ?app_length; cbn [length]; lia).
    rewrite <- ER. reflexivity.
  - inversion Hk as [| | |p a ra b rb Hp0 Ek Ek' Hab Ex]; subst x; clear Hk.
    assert (Hoth : forall q, q <> [] -> char0 q = head0 n -> cells d0 h q = ncells n q) by (intros; now apply cells_in).
    assert (HcP : char0 p = head0 n) by (symmetry; unfold head0; rewrite Ek; destruct p; [congruence|reflexivity]).
    assert (HT : forall u, ~ prefix (nkey n) (p ++ u) -> cells d0 h (p ++ u) = None).
    { intros u Hu. rewrite Hoth; [now apply ncells_off|destruct p; [congruence|discriminate]|destruct p; [congruence|exact HcP]]. }
    assert (HTK : cells d0 h (c :: firstn m k) = None).
    { rewrite Ek'. apply HT. rewrite Ek. intros (z & Ez). rewrite <- app_assoc in Ez. apply app_inv_head in Ez. cbn in Ez. congruence. }
    assert (HTp : cells d0 h p = None).
    { rewrite <- (app_nil_r p). apply HT. rewrite app_nil_r, Ek. intros Hx. apply prefix_length in Hx. rewrite app_length in Hx. cbn in Hx. lia. }
    exists p. split.
    { split; [rewrite Ek'; now eexists|]. split; [right; exists (nkey n); split; [exact Hnode|rewrite Ek; now eexists]|].
      intros q u Hq Huq Huk. destruct u as [|y u]; [now exists p|]. destruct (Nat.le_gt_cases (length (y :: u)) (length p)) as [L|L].
      - apply (prefix_both p (y :: u) (c :: firstn m k)); auto. rewrite Ek'. now eexists.
      - exfalso. assert (P : prefix (p ++ [b]) (y :: u)). { apply (prefix_both _ (p ++ [b]) (c :: firstn m k)); [exact Huk|rewrite Ek'; exists rb; now rewrite <- app_assoc|rewrite app_length; cbn in *; lia]. }
        destruct P as (u1 & Eu). destruct Huq as (u2 & ->). rewrite Eu in Hq. rewrite <- !app_assoc in Hq. apply Hq, HT. cbn [app]. rewrite Ek. intros (z & Ez).
        rewrite <- app_assoc in Ez. apply app_inv_head in Ez. cbn in Ez. congruence. }
    unfold used. rewrite HTK, HTp. rewrite (streq_neq p (c :: firstn m k)) by (intros E2; rewrite Ek' in E2; apply (f_equal (@length _)) in E2; rewrite app_length in E2; cbn in E2; lia).
    replace (false || false || match kd with Plain _ => false | Objects => false end) with false by now destruct kd.
    cbn [own_set length]. rewrite Efc, firstn_all.
    destruct p as [|c0 p]; [congruence|]. cbn in Ek'. injection Ek' as Ec Ek'. subst c0.
    assert (Ekk : k = p ++ b :: (rb ++ skipn m k)).
    { rewrite <- (firstn_skipn m k) at 1. rewrite Ek', <- app_assoc. reflexivity. }
    assert (Esc2 : scan 1 k (tl (nkey n)) = E0 (length (c :: p))).
    { rewrite Ek, Ekk. cbn [app tl]. rewrite scan_E0 by exact Hab. reflexivity. }
    rewrite Esc2. reflexivity.
Qed.
End Length.
