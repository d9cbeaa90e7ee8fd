(** Model of the Python dictionaries (libcomps/src/python/src): StrDict, the
    translation tables (pycomps_dict.c), and MDict, the blacklist and the
    whiteout (pycomps_mdict.c).

    CPython is modelled by the calls made here.  A Python str is its UTF-8
    encoding; what a call gives back is a [pyres]. *)
From Coq Require Import NArith.
From Verif Require Import CStr HSListModel SetModel RTreeModel MRTreeModel ObjModel StrModel PyObjModel.

(** * Results of calls *)
Inductive pyexc := KeyError | TypeErr | UnicodeError.
(** [RetSet r]: a result together with a set exception; [NoExc]: the failure
    value without an exception.  CPython turns both into SystemError. *)
Inductive pyres (R : Type) := Ret (r : R) | Raise (e : pyexc) | RetSet (r : R) | NoExc.
Arguments Ret {R} r. Arguments Raise {R} e. Arguments RetSet {R} r. Arguments NoExc {R}.

(** * UTF-8, as CPython decodes it (RFC 3629) *)
Definition byte_in (lo hi : N) (c : ascii) : bool := ((lo <=? N_of_ascii c) && (N_of_ascii c <=? hi))%N.
Definition cont : ascii -> bool := byte_in 128 191.
Definition two (a b : ascii) : bool := byte_in 194 223 a && cont b.
Definition three (a b : ascii) : bool :=
  byte_in 224 224 a && byte_in 160 191 b || (byte_in 225 236 a || byte_in 238 239 a) && cont b
  || byte_in 237 237 a && byte_in 128 159 b.
Definition four (a b : ascii) : bool :=
  byte_in 240 240 a && byte_in 144 191 b || byte_in 241 243 a && cont b || byte_in 244 244 a && byte_in 128 143 b.
Fixpoint utf8 (s : str) : bool :=
  match s with
  | [] => true
  | a :: r =>
      if byte_in 0 127 a then utf8 r
      else match r with
           | [] => false
           | b :: r1 =>
               if two a b then utf8 r1
               else match r1 with
                    | [] => false
                    | c :: r2 =>
                        if three a b && cont c then utf8 r2
                        else match r2 with
                             | [] => false
                             | d :: r3 => four a b && cont c && cont d && utf8 r3
                             end
                    end
           end
  end.
(** PyUnicode_FromString. *)
Definition to_py (s : str) : pyres str := if utf8 s then Ret s else Raise UnicodeError.
(** A list filled from an iterator that makes one such call per step. *)
Fixpoint to_pys (l : list str) : pyres (list str) :=
  match l with
  | [] => Ret []
  | s :: r => match to_py s, to_pys r with
              | Ret x, Ret xs => Ret (x :: xs)
              | Ret _, e => e
              | _, _ => Raise UnicodeError
              end
  end.

(** * Arguments *)
(** __pycomps_stringable_to_char for a key, pycomps_utils.c:136-148: None gives 1
    (108-134) without an exception. *)
Inductive karg := KStr (s : str) | KTypeErr | KNone.
Definition key_arg (k : pyval) : karg :=
  match k with PyText s => KStr (cut s) | PyNone => KNone | _ => KTypeErr end.
Definition key_fails {R} (pending : bool) (k : karg) : pyres R :=
  match k with KNone => if pending then Raise TypeErr else NoExc | _ => Raise TypeErr end.
(** __pycomps_unicode_in, __pycomps_bytes_in, pycomps_utils.c:30-40, on a value of
    exactly these types (PyCOMPS_StrDictInfo, pycomps_dict.c:541-547); [None]: no
    such type.  A str without an encoding becomes a string object without a
    value while the exception stays set ([true]). *)
Definition str_in (v : pyval) : option (ostr * bool) :=
  match v with
  | PyText s | PyBytes s => Some (Some (cut s), false)
  | PyBadText => Some (None, true)
  | _ => None
  end.

(** * StrDict *)
Definition sdict := rtree ostr.
Definition sd_new : sdict := rt_create.
(** PyCOMPSDict_set, pycomps_dict.c:222-249.  226 reads the type of the value,
    which is NULL for [del].  The value is converted before the key. *)
Definition sd_set (d : sdict) (k v : pyval) : res (sdict * pyres unit) :=
  match v with
  | PyNull => UB
  | _ =>
      let c := str_in v in
      match key_arg k with
      | KStr s =>
          match c with
          | Some (x, pending) => d' <- rt_set d s (Some x) ;; Ok (d', if pending then RetSet tt else Ret tt)
          | None => Ok (d, Raise TypeErr)
          end
      | bad => Ok (d, key_fails (match c with Some (_, p) => p | None => false end) bad)
      end
  end.
(** PyCOMPSDict_get, 177-195: d[k]. *)
Definition sd_get (d : sdict) (k : pyval) : res (pyres str) :=
  match key_arg k with
  | KStr s => v <- rt_get d s ;; Ok (match v with Some x => to_py (str_tostr x) | None => Raise KeyError end)
  | bad => Ok (key_fails false bad)
  end.
(** PyCOMPSDict_get_, 197-218: d.get(k). *)
Definition sd_get_ (d : sdict) (k : pyval) : res (pyres (option str)) :=
  match key_arg k with
  | KStr s =>
      v <- rt_get d s ;;
      Ok (match v with
          | Some x => match to_py (str_tostr x) with Ret y => Ret (Some y) | _ => Raise UnicodeError end
          | None => Ret None
          end)
  | bad => Ok (key_fails false bad)
  end.
(** PyCOMPSDict_has_key, 303-316. *)
Definition sd_has_key (d : sdict) (k : pyval) : res (pyres bool) :=
  match key_arg k with
  | KStr s => v <- rt_get d s ;; Ok (Ret (match v with Some _ => true | None => false end))
  | bad => Ok (key_fails false bad)
  end.
(** PyCOMPSDict_len, 146-148. *)
Definition sd_len (d : sdict) : nat := tlen d.
(** Lists made from PyCOMPSDict_getiter, getitervalues, getiteritems, 318-346, with
    PyCOMPSDict_iternext 469-480; __pycomps_dict_key_out (pycomps_utils.c),
    __pycomps_dict_val_out 23-29, __pycomps_dict_pair_out 31-43: PyTuple_Pack is
    called with whatever the two conversions gave, and dereferences it. *)
Definition sd_keys (d : sdict) : res (pyres (list str)) := ks <- rt_keys d ;; Ok (to_pys ks).
Definition sd_values (d : sdict) : res (pyres (list str)) := vs <- rt_values d ;; Ok (to_pys (map str_tostr vs)).
Definition pair_ok (p : str * ostr) : bool := utf8 (fst p) && utf8 (str_tostr (snd p)).
Definition sd_items (d : sdict) : res (pyres (list (str * str))) :=
  ps <- rt_pairs d ;;
  if forallb pair_ok ps then Ok (Ret (map (fun p => (fst p, str_tostr (snd p))) ps)) else UB.
(** PyCOMPSDict_clear, copy, 149-160. *)
Definition sd_clear (d : sdict) : sdict := rt_clear d.
Definition sd_copy (d : sdict) : sdict := rt_copy_shallow d.
(** PyCOMPSDict_update, 161-175; [None]: an argument of another type. *)
Definition sd_update (d : sdict) (o : option sdict) : res (sdict * pyres unit) :=
  match o with
  | Some e => d' <- rt_unite d e ;; Ok (d', Ret tt)
  | None => Ok (d, Raise TypeErr)
  end.
(** PyCOMPSDict_cmp, 121-144. *)
Definition dict_cmp {D} (cmp : D -> D -> res bool) (d : D) (o : option D) (op : cmp_op) : res (pyres bool) :=
  match o with
  | None => Ok (Raise TypeErr)
  | Some e =>
      match op with
      | OpEq => b <- cmp d e ;; Ok (Ret b)
      | OpNe => b <- cmp d e ;; Ok (Ret (negb b))
      | _ => Ok (RetSet false)
      end
  end.
Definition sd_cmp : sdict -> option sdict -> cmp_op -> res (pyres bool) := dict_cmp (rt_cmp ostr_cmp).
(** PyCOMPSDict_str, 73-119.  __pycomps_lang_decode (pycomps_utils.c:173-180)
    passes a failed PyUnicode_Decode, NULL, to PyUnicode_FromObject. *)
Definition entry_text (p : str * str) (sep : str) : str := fst p ++ S_ " = '" ++ snd p ++ S_ "'" ++ sep.
Definition sd_str (d : sdict) : res str :=
  ps <- rt_pairs d ;;
  if forallb pair_ok ps
  then Ok (S_ "{" ++ flat_map (fun p => entry_text (fst p, str_tostr (snd p)) (S_ ", ")) ps ++ S_ "}")
  else UB.

(** * MDict *)
Definition mdict := mtree ostr.
Notation mvals := (list (mval ostr)).
Definition pm_new : mdict := mt_create.
(** What is assigned: a StrSeq with its own list; the StrSeq that reading the same
    key gave, which shares the stored list (PyCOMPSMDict_get 197-218 hands it
    out); a Python list; something else; nothing ([del]). *)
Inductive mdarg := MSeq (l : mvals) | MOwn | MList (l : list pyval) | MOther | MDel.
(** __pycomps_strlist_in, 427-448; [None] after an item that is no string. *)
Fixpoint strlist_in (l : list pyval) : option (mvals * bool) :=
  match l with
  | [] => Some ([], false)
  | v :: r => match str_in v, strlist_in r with
              | Some (x, p), Some (xs, q) => Some (MV x :: xs, p || q)
              | _, _ => None
              end
  end.
(** 241-262: remove the key, then store the elements one by one; for an empty list
    store a NULL and take it out of the list again. *)
Definition pm_store (t : mdict) (s : str) (vs : mvals) : res mdict :=
  match vs with [] => mt_put_null t s | _ => put_all t s vs end.
(** PyCOMPSMDict_set, 220-269.  __pycomps_strseq_in 423-425 takes a reference to
    the list.  If the key stays in the tree its list is emptied in place
    (comps_objmradix.c:507-601), and a shared list with it. *)
Definition pm_set (d : mdict) (k : pyval) (v : mdarg) : res (mdict * pyres unit) :=
  let pending := match v with MList l => match strlist_in l with Some (_, p) => p | None => true end | _ => false end in
  match key_arg k with
  | KStr s =>
      let done := Ok (if pending then RetSet tt else Ret tt) in
      match v with
      | MDel => d' <- mt_unset d s ;; r <- done ;; Ok (d', r)
      | MOther => Ok (d, Raise TypeErr)
      | MSeq l => d1 <- mt_unset d s ;; d' <- pm_store d1 s l ;; r <- done ;; Ok (d', r)
      | MOwn =>
          l <- mt_get d s ;;
          d1 <- mt_unset d s ;;
          l1 <- mt_get d1 s ;;
          d' <- pm_store d1 s (match l1 with Some x => x | None => match l with Some y => y | None => [] end end) ;;
          r <- done ;; Ok (d', r)
      | MList l =>
          match strlist_in l with
          | Some (xs, _) => d1 <- mt_unset d s ;; d' <- pm_store d1 s xs ;; r <- done ;; Ok (d', r)
          | None => Ok (d, Raise TypeErr)
          end
      end
  | bad => Ok (d, key_fails pending bad)
  end.
(** PyCOMPSMDict_get, 197-218: d[k] and, by the table 405-421, d.get(k). *)
Definition pm_get (d : mdict) (k : pyval) : res (pyres mvals) :=
  match key_arg k with
  | KStr s => v <- mt_get d s ;; Ok (match v with Some l => Ret l | None => Raise KeyError end)
  | bad => Ok (key_fails false bad)
  end.
(** PyCOMPSMDict_has_key, 322-335. *)
Definition pm_has_key (d : mdict) (k : pyval) : res (pyres bool) :=
  match key_arg k with
  | KStr s => v <- mt_get d s ;; Ok (Ret (match v with Some _ => true | None => false end))
  | bad => Ok (key_fails false bad)
  end.
(** The texts of the elements of a StrSeq: __pycomps_str_out, pycomps_utils.c:42-49,
    with comps_objlist_tostr_u for a nested list. *)
Fixpoint mval_text (v : mval ostr) : res str :=
  match v with
  | MV x => Ok (str_tostr x)
  | MNest l =>
      ts <- (fix go (l : mvals) : res (list str) :=
               match l with [] => Ok [] | y :: r => t <- mval_text y ;; ts <- go r ;; Ok (t :: ts) end) l ;;
      list_tostr ts
  end.
Definition seq_texts (l : mvals) : res (list str) := map_r mval_text l.
(** PyCOMPSMDict_len, 166-168. *)
Definition pm_len (d : mdict) : Z := mlen d.
(** Lists made from PyCOMPSMDict_getiter, getitervalues, getiteritems, 337-365.
    __pycomps_mdict_val_out 23-32 is given an element of the list of values, an
    object list, and uses it as a pair. *)
Definition pm_keys (d : mdict) : res (pyres (list str)) := ks <- mt_keys d ;; Ok (to_pys ks).
Definition pm_values (d : mdict) : res (pyres (list mvals)) :=
  vs <- mt_values d ;; match vs with [] => Ok (Ret []) | _ => UB end.
Definition pm_items (d : mdict) : res (pyres (list (str * mvals))) :=
  ps <- mt_pairs d ;; if forallb (fun p => utf8 (fst p)) ps then Ok (Ret ps) else UB.
(** PyCOMPSMDict_clear, copy, update, cmp, 141-195.  The copy of a non-empty
    dictionary passes the address of the list pointer to comps_object_destroy
    (comps_objmradix.c:185). *)
Definition pm_clear (d : mdict) : res mdict := mt_clear d.
Definition pm_copy (d : mdict) : res mdict :=
  match hitems (mroot d) with [] => Ok (mkMT hs_empty (mlen d)) | _ => UB end.
Definition pm_update (d : mdict) (o : option mdict) : res (mdict * pyres unit) :=
  match o with
  | Some e => d' <- mt_unite d e ;; Ok (d', Ret tt)
  | None => Ok (d, Raise TypeErr)
  end.
(** Lists of strings are compared by comps_objlist_cmp; a nested list compares
    with a nested list. *)
Fixpoint mval_eq (a b : mval ostr) : bool :=
  match a, b with
  | MV x, MV y => ostr_cmp x y
  | MNest l, MNest m =>
      (fix go (l m : mvals) : bool :=
         match l, m with [], [] => true | x :: r, y :: s => mval_eq x y && go r s | _, _ => false end) l m
  | _, _ => false
  end.
Fixpoint mvals_eq (l m : mvals) : bool :=
  match l, m with [], [] => true | x :: r, y :: s => mval_eq x y && mvals_eq r s | _, _ => false end.
Definition pm_cmp : mdict -> option mdict -> cmp_op -> res (pyres bool) := dict_cmp (mt_cmp mvals_eq).
(** PyCOMPSMDict_str, 69-139: the loop stops at the last pair, which is printed
    after it; for an empty list 98 dereferences the NULL iterator.  As in
    PyCOMPSDict_str an undecodable text is passed on as NULL. *)
Definition decode (s : str) : res str := if utf8 s then Ok s else UB.
Fixpoint pm_entries (ps : list (str * mvals)) : res str :=
  match ps with
  | [] => UB
  | [(k, l)] => k' <- decode k ;; ts <- seq_texts l ;; t <- list_tostr ts ;; t' <- decode t ;; Ok (entry_text (k', t') [])
  | (k, l) :: r =>
      k' <- decode k ;; ts <- seq_texts l ;; t <- list_tostr ts ;; t' <- decode t ;;
      rest <- pm_entries r ;; Ok (entry_text (k', t') (S_ ", ") ++ rest)
  end.
Definition pm_str (d : mdict) : res str :=
  ps <- mt_pairs d ;; b <- pm_entries ps ;; Ok (S_ "{" ++ b ++ S_ "}").

(** d.update(d): comps_objmrtree_unite (comps_objmradix.c:327-330) walks the list
    of a node while comps_objmrtree_set appends to that very list.  One turn of
    that loop, at position [i] of the list [l]; [None]: the loop is left. *)
Definition self_turn (st : mvals * nat) : option (mvals * nat) :=
  match nth_error (fst st) (snd st) with Some v => Some (fst st ++ [v], S (snd st)) | None => None end.
Fixpoint self_turns (n : nat) (st : mvals * nat) : option (mvals * nat) :=
  match n with O => Some st | S m => match self_turn st with Some st' => self_turns m st' | None => None end end.

(** * Histories *)
Inductive sdop := SdSet (k v : pyval) | SdClear.
Fixpoint sd_run (d : sdict) (os : list sdop) : res (sdict * list (pyres unit)) :=
  match os with
  | [] => Ok (d, [])
  | SdSet k v :: r => a <- sd_set d k v ;; b <- sd_run (fst a) r ;; Ok (fst b, snd a :: snd b)
  | SdClear :: r => b <- sd_run (sd_clear d) r ;; Ok (fst b, Ret tt :: snd b)
  end.
(** MDict: every state that assignments, deletions and updates from one another
    lead to. *)
Inductive pmreach : mdict -> Prop :=
| PM_new : pmreach pm_new
| PM_set d k v d' r : pmreach d -> pm_set d k v = Ok (d', r) -> pmreach d'
| PM_update d e d' r : pmreach d -> pmreach e -> pm_update d (Some e) = Ok (d', r) -> pmreach d'.
