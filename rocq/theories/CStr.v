(** C-level conventions shared by every model file: strings, results with
    undefined behaviour, character comparison.
    All citations are relative to /repo/libcomps/src. *)
From Coq Require Export String Ascii Bool ZArith Arith Lia List.
Export ListNotations.
Open Scope list_scope.

(** A NUL-terminated C string, without the terminator.  The element [zero]
    (NUL) must not occur in a real one: see [cstr]. *)
Definition str := list ascii.

(** Literal helper: [S_ "abc"]. *)
Definition S_ (s : string) : str := list_ascii_of_string s.

(** A list of bytes that a NUL-terminated string can really hold. *)
Definition cstr (s : str) : Prop := ~ In zero s.
Definition cstrb (s : str) : bool := forallb (fun c => negb (Ascii.eqb c zero)) s.

(** Outcome of a C function: a value, undefined behaviour (null or dangling
    dereference, out-of-bounds access, type confusion), or -- only for fuelled
    loops, and proved unreachable -- exhausted fuel. *)
Inductive res (A : Type) : Type :=
| Ok (a : A)
| UB
| NoFuel.
Arguments Ok {A} a.
Arguments UB {A}.
Arguments NoFuel {A}.

Definition bind {A B} (r : res A) (f : A -> res B) : res B :=
  match r with Ok a => f a | UB => UB | NoFuel => NoFuel end.
Definition rmap {A B} (f : A -> B) (r : res A) : res B := bind r (fun a => Ok (f a)).

Declare Scope res_scope.
Notation "x <- e ;; f" := (bind e (fun x => f))
  (at level 61, e at next level, right associativity) : res_scope.
Open Scope res_scope.

(** [s[0]] of a NUL-terminated string: NUL for the empty string. *)
Definition char0 (s : str) : ascii := match s with [] => zero | c :: _ => c end.

(** Value of a plain [char], signed as on the platforms libcomps ships on
    (x86-64); used where the code compares [char]s with [<]. *)
Definition schar (c : ascii) : Z :=
  let n := Z.of_nat (nat_of_ascii c) in if (n <? 128)%Z then n else (n - 256)%Z.

(** Value of an [unsigned char]: the comparison used by strcmp. *)
Definition uchar (c : ascii) : nat := nat_of_ascii c.

(** libc strcmp (sign only). *)
Fixpoint strcmp (a b : str) : comparison :=
  match a, b with
  | [], [] => Eq
  | [], _ :: _ => Lt
  | _ :: _, [] => Gt
  | x :: a', y :: b' =>
      if Ascii.eqb x y then strcmp a' b'
      else if uchar x <? uchar y then Lt else Gt
  end.

(** [strcmp(a,b) == 0]. *)
Definition streq (a b : str) : bool := match strcmp a b with Eq => true | _ => false end.

(** Replace the [i]-th element of a list (writing through a pointer to it). *)
Fixpoint list_upd {A} (l : list A) (i : nat) (x : A) : list A :=
  match l, i with
  | [], _ => []
  | _ :: r, O => x :: r
  | y :: r, S i' => y :: list_upd r i' x
  end.

(** Remove the [i]-th element. *)
Definition list_del {A} (l : list A) (i : nat) : list A := firstn i l ++ skipn (S i) l.

(** Insert before position [i]. *)
Definition list_ins {A} (l : list A) (i : nat) (x : A) : list A :=
  firstn i l ++ x :: skipn i l.

(** [p] is a prefix of [s]. *)
Definition prefix (p s : str) : Prop := exists r, s = p ++ r.
Definition proper_prefix (p s : str) : Prop := exists c r, s = p ++ c :: r.
