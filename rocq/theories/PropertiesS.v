(** Property theorems for the exact law of the string dictionaries of
    comps_objradix.c and comps_radix.c and of their users (C05, C06, C11, C60, C61,
    C75, C77, C78).

    [rrun cp t os] (RTreeTab3): the calls [os] on the dictionary [t] ([cp] copies a
    value).  [yrun]: the same calls on a table without a tree; its rows are the
    strings where keys end or part, each with a value or none and a flag for a
    list below it whose tail pointer is NULL.  [w_run] (RTreeTab5): the calls on such
    a table, with the values that each call destroys and the values that are lost. *)
From Coq Require Import Permutation.
From Verif Require Import CStr CStrFacts HSListModel HSListFacts RTreeModel RTreeFacts RTreeFacts2 RTreeFacts3 RTreeFacts4 SpecA SpecB
  OwnModel OwnFacts OwnFacts2 OwnFacts3 OwnFacts4 MDictFacts MDictSpec RTreeTab RTreeTab2 RTreeTab3 RTreeTab4 RTreeTab5
  ParseModel ObjModel StrModel PyObjModel PyDictModel PyDictFacts RTreeTab6.

(** * C05, C06, C11 *)
(** Every history of set, get, unset, clear, clone and copy is defined when the table
    says so; then every get, count and listing (up to its order) is that of the table. *)
Theorem C05_run_exact : forall {V} (cp : V -> V) (os : list (rop V)),
  match rrun cp rt_create os, yrun cp (mkY y_new 0) os with
  | Ok (t, a), Ok (s, b) => Forall2 same_out a b
  | UB, UB => True
  | _, _ => False
  end.
Proof. exact @rrun_exact. Qed.
Print Assumptions C05_run_exact.

(** One set on any dictionary that a history can make: other keys keep their values
    unless the key is a proper prefix of keys present, ends where none parted, and the
    list it goes into has a NULL tail; then exactly the other keys below that list are
    lost. *)
Theorem C05_set_exact : forall {V} (cp : V -> V) (os : list (rop V)) t a s b k d, k <> [] ->
  rrun cp rt_create os = Ok (t, a) -> yrun cp (mkY y_new 0) os = Ok (s, b) ->
  exists t', rt_set t k d = Ok t' /\ rt_get t' k = Ok d /\
    forall q, q <> k -> rt_get t' q =
      match tget (y_tab s) k, tget (y_tab s) (stem (y_tab s) k), tget (y_tab s) (parent (y_tab s) k) with
      | None, None, Some (_, true) => if streq (stem (y_tab s) k) k && inside (parent (y_tab s) k) k q then Ok None else rt_get t q
      | _, _, _ => rt_get t q
      end.
Proof. exact @set_lost. Qed.
Print Assumptions C05_set_exact.

(** One unset: it uses freed memory exactly when the row before the key is no empty
    string and is, or becomes, weak; otherwise it removes the key, and with a weak row
    everything below it. *)
Theorem C06_unset_exact : forall {V} (cp : V -> V) (os : list (rop V)) t a s b k, k <> [] ->
  rrun cp rt_create os = Ok (t, a) -> yrun cp (mkY y_new 0) os = Ok (s, b) ->
  match tget (y_tab s) k, tget (y_tab s) (parent (y_tab s) k) with
  | Some (_, w), Some (_, wp) =>
      if (wp || w && forallb (fun q => starts k q) (longer (y_tab s) (parent (y_tab s) k))) && negb (streq (parent (y_tab s) k) []) then rt_unset t k = UB
      else exists t', rt_unset t k = Ok t' /\ forall q, rt_get t' q = if streq q k || w && starts k q then Ok None else rt_get t q
  | _, _ => rt_unset t k = Ok t
  end.
Proof. exact @unset_lost. Qed.
Print Assumptions C06_unset_exact.

(** Keys that are lost ("x" when "ab" is set after "abc"), longer keys removed with a
    shorter one, the count, a copy that keeps everything. *)
Definition lossy : list (rop nat) :=
  [RSet (S_ "abc") (Some 1); RSet (S_ "x") (Some 2); RSet (S_ "ab") (Some 3); RGet (S_ "x"); RGet (S_ "abc"); RLen; RPairs;
   RSet (S_ "q") (Some 4); RSet (S_ "qr") (Some 5); RUnset (S_ "q"); RGet (S_ "qr"); RLen;
   RSet (S_ "zed") (Some 6); RClone; RSet (S_ "z") (Some 7); RGet (S_ "abc"); RCopy; RLen; RPairs].
Definition lossy_outs (l : list (str * nat)) : list (rout nat) :=
  [RDone; RDone; RDone; RGot None; RGot (Some 1); RCount 3; RListed [(S_ "ab", 3); (S_ "abc", 1)];
   RDone; RDone; RDone; RGot None; RCount 5; RDone; RDone; RDone; RGot (Some 1); RDone; RCount 0; RListed l].
Example C05_run_case :
  rmap snd (rrun (fun v => v) rt_create lossy) = Ok (lossy_outs [(S_ "ab", 3); (S_ "abc", 1); (S_ "z", 7); (S_ "zed", 6)]) /\
  rmap snd (yrun (fun v => v) (mkY y_new 0) lossy) = Ok (lossy_outs [(S_ "z", 7); (S_ "zed", 6); (S_ "ab", 3); (S_ "abc", 1)]).
Proof. split; vm_compute; reflexivity. Qed.
Example C06_run_case :
  rrun (fun v => v) rt_create [RSet (S_ "a") (Some 1); RSet (S_ "ab") (Some 2); RUnset (S_ "ab")] = UB /\
  yrun (fun v => v) (mkY y_new 0) [RSet (S_ "a") (Some 1); RSet (S_ "ab") (Some 2); RUnset (S_ "ab")] = UB.
Proof. split; vm_compute; reflexivity. Qed.

(** * C77 *)
(** For every history of either dictionary that has a destructor: the calls destroy
    what the table says, destroying the dictionary destroys the values in the table,
    and the values given to it are these and the lost ones. *)
Theorem C77_run_exact : forall {V} kd ctor (os : list (oop V)), kd <> Plain false -> Forall (covered kd) os ->
  match o_run kd ctor o_create os, w_run kd ctor y_new os with
  | Ok (s, es), Ok (tb, es', lost) =>
      Forall2 same_values es es' /\
      exists ev, o_destroy kd s = Ok ev /\ Permutation (flat_map olist ev) (y_vals tb) /\ Permutation (destroyed es ++ flat_map olist ev ++ lost) (given kd ctor os)
  | UB, UB => True
  | _, _ => False
  end.
Proof. exact @w_run_exact. Qed.
Print Assumptions C77_run_exact.
Definition leaky : list (oop nat) :=
  [OSet true (S_ "abc") (Some 1); OSet true (S_ "x") (Some 2); OSet true (S_ "xy") (Some 3); OSet true (S_ "ab") (Some 4);
   OSet true [] (Some 5); OSetN true (S_ "abz") 2 (Some 6); OGet true (S_ "x"); OUnset (S_ "ab"); OSet true (S_ "abc") (Some 7)].
Example C77_run_case : Forall (covered (Plain true)) leaky /\
  exists s es tb es', o_run (Plain true) (fun d => d) o_create leaky = Ok (s, es) /\ w_run (Plain true) (fun d => d) y_new leaky = Ok (tb, es', [3; 2; 5]) /\
    destroyed es = [4; 6; 1] /\ y_vals tb = [7] /\ given (Plain true) (fun d => d) leaky = [1; 2; 3; 4; 5; 6; 7].
Proof.
  split; [repeat (constructor; [right; discriminate|]); constructor|]. eexists _, _, _, _. split; [vm_compute; reflexivity|]. split; [vm_compute; reflexivity|]. split; [vm_compute; reflexivity|]. split; vm_compute; reflexivity.
Qed.

(** * C78 *)
(** Setting with a length after any history: the key used is the first [m] characters
    if they are a row of the table or end inside one, for objects also if they leave
    the table at a row; otherwise the whole key. *)
Theorem C78_set_n_exact : forall {V} kd ctor (os : list (oop V)) s es tb es' lost own k m d, kd <> Plain false -> Forall (covered kd) os ->
  o_run kd ctor o_create os = Ok (s, es) -> w_run kd ctor y_new os = Ok (tb, es', lost) -> m <= length k ->
  o_step kd ctor s (OSetN own k m d) = o_step kd ctor s (OSet own (w_key kd tb k m) d).
Proof. exact @set_n_exact. Qed.
Print Assumptions C78_set_n_exact.
(** With "abcd" and "abx" stored: a row, an end inside a row, a new end at a row, a new
    end inside a row. *)
Definition few : list (oop nat) := [OSet true (S_ "abcd") (Some 1); OSet true (S_ "abx") (Some 2)].
Definition keys_used kd (tb : list (str * (option nat * bool))) : list str :=
  [w_key kd tb (S_ "abq") 2; w_key kd tb (S_ "abcqq") 3; w_key kd tb (S_ "abyy") 3; w_key kd tb (S_ "abcyy") 4].
Example C78_exact_case : Forall (covered (Plain true)) few /\ Forall (covered Objects) few /\
  (exists s es tb es' lost, o_run (Plain true) (fun d => d) o_create few = Ok (s, es) /\ w_run (Plain true) (fun d => d) y_new few = Ok (tb, es', lost) /\
    keys_used (Plain true) tb = [S_ "ab"; S_ "abc"; S_ "abyy"; S_ "abcyy"]) /\
  (exists s es tb es' lost, o_run Objects (fun d => d) o_create few = Ok (s, es) /\ w_run Objects (fun d => d) y_new few = Ok (tb, es', lost) /\
    keys_used Objects tb = [S_ "ab"; S_ "abc"; S_ "aby"; S_ "abcyy"]).
Proof.
  split; [repeat (constructor; [right; discriminate|]); constructor|]. split; [repeat (constructor; [left; reflexivity|]); constructor|].
  split; eexists _, _, _, _, _; (split; [vm_compute; reflexivity|]); (split; [vm_compute; reflexivity|]); vm_compute; reflexivity.
Qed.

(** * C75 *)
(** Every list of attributes of an XML element: the values are freed when they are
    replaced or with the element, except the ones that the table loses. *)
Theorem C75_attributes_exact : forall (attrs : list (str * str)),
  exists t s effs ev tb es' lost,
    attrs_dict rt_create attrs = Ok t /\ o_run (Plain true) (fun d => d) o_create (attr_ops attrs) = Ok (s, effs) /\
    o_root s = troot t /\ o_destroy (Plain true) s = Ok ev /\
    w_run (Plain true) (fun d => d) y_new (attr_ops attrs) = Ok (tb, es', lost) /\
    Permutation (destroyed effs ++ flat_map olist ev ++ lost) (map snd attrs).
Proof. exact attrs_exact. Qed.
Print Assumptions C75_attributes_exact.
Example C75_exact_case :
  (exists tb es', w_run (Plain true) (fun d => d) y_new (attr_ops [(S_ "arches", S_ "1"); (S_ "lang", S_ "2"); (S_ "arch", S_ "3")]) = Ok (tb, es', [S_ "2"])) /\
  (exists tb es', w_run (Plain true) (fun d => d) y_new (attr_ops [(S_ "arch", S_ "1"); (S_ "lang", S_ "2"); (S_ "arches", S_ "3")]) = Ok (tb, es', [])).
Proof. split; eexists _, _; vm_compute; reflexivity. Qed.

(** * C60, C61 *)
(** Every history of assignments and clear() of a StrDict: all it answers is what the
    table of the accepted assignments answers. *)
Theorem C60_run_exact : forall os, no_del os ->
  exists d rs, sd_run sd_new os = Ok (d, rs) /\ sd_reads d (y_assign (mkY y_new 0) os).
Proof. exact sd_run_exact. Qed.
Print Assumptions C60_run_exact.
(** Any two StrDicts: update() stores every pair of the other one, no key after one
    that it is a proper prefix of; they are equal exactly when the tables hold the
    same values. *)
Theorem C61_pair_exact : forall o1 o2, no_del o1 -> no_del o2 ->
  let s1 := y_assign (mkY y_new 0) o1 in let s2 := y_assign (mkY y_new 0) o2 in
  exists d e r1 r2, sd_run sd_new o1 = Ok (d, r1) /\ sd_run sd_new o2 = Ok (e, r2) /\
    (exists kvs d', Permutation kvs (y_pairs (y_tab s2)) /\ prefixes_first kvs /\ sd_update d (Some e) = Ok (d', Ret tt) /\ sd_reads d' (y_puts s1 kvs)) /\
    (exists b, sd_cmp d (Some e) OpEq = Ok (Ret b) /\ sd_cmp d (Some e) OpNe = Ok (Ret (negb b)) /\ (b = true <-> forall k, y_get (y_tab s1) k = y_get (y_tab s2) k)).
Proof. exact sd_pair_exact. Qed.
Print Assumptions C61_pair_exact.
Definition words : list sdop :=
  [SdSet (PyText (S_ "de")) (PyText (S_ "1")); SdSet (PyText (S_ "pt_BR")) (PyBytes (S_ "2")); SdSet (PyText []) (PyText (S_ "3"));
   SdSet PyNone (PyText (S_ "4")); SdSet (PyText (S_ "pt")) (PyText (S_ "5")); SdSet (PyText (S_ "de")) PyNone].
Example C60_exact_case : no_del words /\
  let s := y_assign (mkY y_new 0) words in
  y_len s = 3 /\ y_pairs (y_tab s) = [(S_ "pt", Some (S_ "5")); (S_ "pt_BR", Some (S_ "2"))].
Proof.
  split; [|split; vm_compute; reflexivity]. intros k H. cbn in H. repeat (destruct H as [H|H]; [discriminate|]). exact H.
Qed.
(** 'de' is lost by the assignment, and by an update with 'pt'. *)
Example C61_exact_case :
  let s1 := y_assign (mkY y_new 0) (firstn 2 words) in
  let s2 := y_assign (mkY y_new 0) [SdSet (PyText (S_ "pt")) (PyText (S_ "5"))] in
  y_pairs (y_tab s2) = [(S_ "pt", Some (S_ "5"))] /\
  y_pairs (y_tab (y_puts s1 [(S_ "pt", Some (S_ "5"))])) = [(S_ "pt", Some (S_ "5")); (S_ "pt_BR", Some (S_ "2"))] /\
  y_get (y_tab s1) (S_ "de") = Some (Some (S_ "1")).
Proof. repeat split; vm_compute; reflexivity. Qed.
