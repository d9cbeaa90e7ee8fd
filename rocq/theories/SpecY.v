(** What is claimed about the memory of sums of Python lists: histories of calls that
    may be sums. *)
From Verif Require Import CStr ObjMemModel ObjMemSum SpecX.

Inductive call2 := Old (c : call) | CSum (p : part) (l1 l2 : addr) | CSumPkgs (l1 l2 : addr).
(** The objects in a list. *)
Definition objects_in (h : mem) (l : addr) (xs : list addr) : Prop := exists c, at_ h l c /\ map snd (slots c) = map (fun x => Ptr (Some x)) xs.
Definition takes2 (c : call2) : list addr := match c with Old c => takes c | _ => [] end.
Definition allowed2 (h : mem) (held : list addr) (c : call2) : Prop :=
  match c with
  | Old c => allowed h held c
  | CSum p l1 l2 => usable h held l1 (KList (pety p)) /\ usable h held l2 (KList (pety p))
  | CSumPkgs l1 l2 => usable h held l1 (KList LPkg) /\ usable h held l2 (KList LPkg)
  end.
(** No two objects in a list have one id, and no object has two items of one name. *)
Definition separate_list (h : mem) (p : part) (l : addr) : Prop := forall xs, objects_in h l xs -> NoDup (map (id_of h) xs) /\ forall x, In x xs -> different h p x.
(** Sums that lose nothing. *)
Definition tidy2 (h : mem) (c : call2) : Prop :=
  match c with
  | Old c => tidy h c
  | CSum p l1 l2 => separate_list h p l1 /\ separate_list h p l2
  | CSumPkgs l1 l2 => forall xs, objects_in h l1 xs -> NoDup (map (name_of h) xs)
  end.
Definition value_dec (a b : option (str + Z)) : {a = b} + {a <> b}.
Proof. decide equality. decide equality; [apply (list_eq_dec Ascii.ascii_dec)|apply Z.eq_dec]. Defined.
(** Those of the second list that no object of the first has the id (or name) of. *)
Definition others (key : addr -> option (str + Z)) (xs ys : list addr) : list addr :=
  filter (fun y => if in_dec value_dec (key y) (map key xs) then false else true) ys.
Section Run.
Variable oracle : mem -> addr -> addr -> bool.
Variable matches : mem -> addr -> bool.
Definition run2 (c : call2) : M (list addr) :=
  match c with
  | Old c => run oracle matches c
  | CSum PGroup l1 l2 => gives (sum_groups oracle l1 l2)
  | CSum PCat l1 l2 => gives (sum_cats oracle l1 l2)
  | CSum PEnv l1 l2 => gives (sum_envs oracle l1 l2)
  | CSumPkgs l1 l2 => gives (sum_pkgs oracle l1 l2)
  end.
(** As [history], with sums. *)
Inductive history2 : bool -> mem -> list addr -> Prop :=
| start2 : history2 true [] []
| next2 t t' h held c kept h' got : history2 t h held -> (forall a, occ a held = occ a (takes2 c ++ kept)) -> allowed2 h kept c -> run2 c h = Ok (h', got) ->
    (t' = true -> t = true /\ tidy2 h c) -> history2 t' h' (got ++ kept).
(** A sum: memory after it, the new list [r], whose items are [news], objects that did
    not exist, and [shared], objects of the second list themselves. *)
Definition summed (h h' : mem) (r : addr) (n : nat) (shared : list addr) : Prop := exists news,
  length h <= r /\ objects_in h' r (news ++ shared) /\ length news = n /\ NoDup news /\ forall a, In a news -> length h <= a.
(** What a client can reach stays as it is; only counters change.  The dictionary of a
    document is left out. *)
Definition untouched (h h' : mem) (held : list addr) : Prop := forall a c, from h held a -> at_ h a c -> kind c <> KDict DObjs ->
  exists c', at_ h' a c' /\ kind c' = kind c /\ slots c' = slots c.
End Run.
