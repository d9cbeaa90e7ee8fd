(** What is claimed about copies of document objects. *)
From Verif Require Import CStr ObjMemModel SpecX.

(** Object [b] in memory [h'] is what [a] is in memory [h]: of the same kind, with the
    same members, items or entries in the same order, each again the same.  [n]: the
    nesting. *)
Fixpoint alike (n : nat) (h h' : mem) (a b : addr) : Prop :=
  match n with
  | O => False
  | S n' => exists c d, at_ h a c /\ at_ h' b d /\ kind c = kind d /\
      Forall2 (fun s t => fst s = fst t /\ match snd s, snd t with Ptr None, Ptr None => True | Ptr (Some x), Ptr (Some y) => alike n' h h' x y | _, _ => False end) (slots c) (slots d)
  end.
