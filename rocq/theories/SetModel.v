(** Model of comps_set.c: a set is a tail-pointer list plus an equality
    callback [eqf] (C: [set->eqf(it->data, item)], stored element first). *)
From Verif Require Import CStr HSListModel.

Section CSet.
Context {A : Type} (eqf : A -> A -> bool).

(** comps_set_in, comps_set.c:73-80. *)
Definition set_in (s : hsl A) (x : A) : bool := existsb (fun y => eqf y x) (hitems s).

(** comps_set_at, comps_set.c:82-91 ([None] is -1). *)
Fixpoint find_at (l : list A) (x : A) (i : nat) : option nat :=
  match l with
  | [] => None
  | y :: r => if eqf y x then Some i else find_at r x (S i)
  end.
Definition set_at (s : hsl A) (x : A) : option nat := find_at (hitems s) x 0.

(** comps_set_data_at, comps_set.c:93-101 ([None] is NULL). *)
Definition set_data_at (s : hsl A) (x : A) : option A := find (fun y => eqf y x) (hitems s).

(** comps_set_add, comps_set.c:103-113; the data constructor is the identity
    (or NULL) in every use inside libcomps except the index sets of
    comps_set_cmp. *)
Definition set_add (s : hsl A) (x : A) : res (hsl A * bool) :=
  if set_in s x then Ok (s, false) else s' <- hs_append s x ;; Ok (s', true).

(** comps_set_remove, comps_set.c:115-129. *)
Definition set_remove (s : hsl A) (x : A) : hsl A * option A :=
  match set_at s x with
  | None => (s, None)
  | Some i => (hs_remove s i, nth_error (hitems s) i)
  end.

(** comps_set_clear, comps_set.c:196-198. *)
Definition set_clear (s : hsl A) : hsl A := hs_clear s.

(** Removal from the index sets of comps_set_cmp (built by append only and
    compared with comps_set_index_cmp): plain lists of positions. *)
Fixpoint idx_remove (i : nat) (l : list nat) : list nat :=
  match l with
  | [] => []
  | j :: r => if j =? i then r else j :: idx_remove i r
  end.

(** Main loop of comps_set_cmp, comps_set.c:163-178: walks set1; returns whether
    it broke out with [ret = 2], and the two remaining index sets. *)
Fixpoint cmp_loop (s2 : hsl A) (its : list A) (index : nat) (np1 np2 : list nat)
  : bool * list nat * list nat :=
  match np1, np2 with
  | _ :: _, _ :: _ =>
      match its with
      | [] => (false, np1, np2)
      | x :: r =>
          match set_at s2 x with
          | None => (true, np1, np2)
          | Some at_ => cmp_loop s2 r (S index) (idx_remove index np1) (idx_remove at_ np2)
          end
      end
  | _, _ => (false, np1, np2)
  end.

(** comps_set_cmp, comps_set.c:137-194. *)
Definition set_cmp (s1 s2 : hsl A) : Z :=
  match cmp_loop s2 (hitems s1) 0 (seq 0 (length (hitems s1))) (seq 0 (length (hitems s2))) with
  | (true, _, _) => 2
  | (false, [], []) => 0
  | (false, [], _ :: _) => -1
  | (false, _ :: _, []) => 1
  | (false, _ :: _, _ :: _) => 2
  end%Z.

End CSet.

(** Adding every element of a list (comps_objrtree_cmp 308-313 and others). *)
Fixpoint set_add_all {A} (eqf : A -> A -> bool) (s : hsl A) (l : list A) : res (hsl A) :=
  match l with
  | [] => Ok s
  | x :: r => p <- set_add eqf s x ;; set_add_all eqf (fst p) r
  end.
