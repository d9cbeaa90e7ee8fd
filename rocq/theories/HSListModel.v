(** Model of comps_hslist.c: the singly linked list with a tail pointer used
    inside dictionaries and sets. *)
From Verif Require Import CStr.

(** What [hslist->last] designates: NULL, the [i]-th item reachable from
    [first], or an item that has been freed. *)
Inductive tail := TNull | TAt (i : nat) | TBad.

(** comps_hslist.h: COMPS_HSList {first, last, ...}.  [hitems] are the data of
    the items reachable from [first].  The constructor/cloner/destructor
    callbacks are not part of the state (callers pass plain data). *)
Record hsl (A : Type) := mkH { hitems : list A; htail : tail }.
Arguments mkH {A} hitems htail.
Arguments hitems {A} h.
Arguments htail {A} h.

Section HSList.
Context {A : Type}.
Implicit Types (h : hsl A) (x : A).

(** comps_hslist_init, comps_hslist.c:33-45. *)
Definition hs_empty : hsl A := mkH [] TNull.

(** comps_hslist_append, comps_hslist.c:47-67.  With [last == NULL] the code
    assigns [first] as well (line 62), dropping whatever was reachable; with a
    tail pointer it links behind the tail, cutting whatever followed it. *)
Definition hs_append h x : res (hsl A) :=
  match htail h with
  | TNull => Ok (mkH [x] (TAt 0))
  | TAt i => Ok (mkH (firstn (S i) (hitems h) ++ [x]) (TAt (S i)))
  | TBad => UB
  end.

(** comps_hslist_insert_after, comps_hslist.c:69-90; [i] is the position of the
    item passed. *)
Definition hs_insert_after h (i : nat) x : hsl A :=
  mkH (list_ins (hitems h) (S i) x)
      (match htail h with
       | TNull => TNull
       | TBad => TBad
       | TAt j => if j =? i then TAt (S i) else if j <? i then TAt j else TAt (S j)
       end).

(** comps_hslist_insert_at, comps_hslist.c:91-123.  A position past the end (or
    negative) leaves the list alone; the tail pointer is only ever set by the
    position-0 branch (lines 112-113). The int counter is not wrapped. *)
Definition hs_insert_at h (pos : Z) x : hsl A :=
  if (pos =? 0)%Z then
    mkH (x :: hitems h)
        (match htail h with TNull => TAt 0 | TAt j => TAt (S j) | TBad => TBad end)
  else if ((0 <? pos) && (pos <=? Z.of_nat (length (hitems h))))%Z then
    mkH (list_ins (hitems h) (Z.to_nat pos) x)
        (match htail h with
         | TAt j => if j <? Z.to_nat pos then TAt j else TAt (S j)
         | t => t
         end)
  else h.

(** comps_hslist_prepend, comps_hslist.c:125-141: never touches [last]. *)
Definition hs_prepend h x : hsl A :=
  mkH (x :: hitems h) (match htail h with TAt j => TAt (S j) | t => t end).

(** comps_hslist_shift, comps_hslist.c:143-158: frees the first item. *)
Definition hs_shift h : hsl A * option A :=
  match hitems h with
  | [] => (h, None)
  | x :: r =>
      (mkH r (match r with
              | [] => TNull
              | _ => match htail h with
                     | TAt O => TBad
                     | TAt (S j) => TAt j
                     | t => t
                     end
              end), Some x)
  end.

(** comps_hslist_pop, comps_hslist.c:160-179.  With [last == NULL] on a
    non-empty list the loop runs to [it == NULL] and line 176 dereferences it. *)
Definition hs_pop h : res (hsl A * option A) :=
  match hitems h with
  | [] => Ok (h, None)
  | _ =>
      match htail h with
      | TAt i =>
          match nth_error (hitems h) i with
          | None => UB
          | Some x =>
              Ok (match i with
                  | O => mkH [] TNull
                  | S i' => mkH (firstn (S i') (hitems h)) (TAt i')
                  end, Some x)
          end
      | _ => UB
      end
  end.

(** comps_hslist_remove, comps_hslist.c:206-227; [i] is the position of the item
    passed (a position outside the list stands for a foreign item: no effect). *)
Definition hs_remove h (i : nat) : hsl A :=
  if i <? length (hitems h) then
    mkH (list_del (hitems h) i)
        (match htail h with
         | TAt j =>
             match i with
             | O => match j with
                    | O => match list_del (hitems h) i with [] => TNull | _ => TAt 0 end
                    | S j' => TAt j'
                    end
             | S i' => if j =? i then TAt i' else if j <? i then TAt j else TAt (j - 1)
             end
         | t => t
         end)
  else h.

(** comps_hslist_data_at, comps_hslist.c:229-238 (NULL when out of range). *)
Definition hs_data_at h (i : nat) : option A := nth_error (hitems h) i.

(** comps_hslist_clear, comps_hslist.c:254-272. *)
Definition hs_clear h : hsl A := hs_empty.

(** Writing through the data pointer of the [i]-th item. *)
Definition hs_update h (i : nat) x : hsl A := mkH (list_upd (hitems h) i x) (htail h).

End HSList.

(** comps_hslist_clone, comps_hslist.c:240-252: rebuilt with append. *)
Fixpoint hs_append_all {A} (h : hsl A) (l : list A) : res (hsl A) :=
  match l with
  | [] => Ok h
  | x :: r => h' <- hs_append h x ;; hs_append_all h' r
  end.
Definition hs_clone {A B} (cloner : A -> B) (h : hsl A) : res (hsl B) :=
  hs_append_all hs_empty (map cloner (hitems h)).
