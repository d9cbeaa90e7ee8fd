(** What is claimed about the memory of the document objects: histories of calls by a
    client that keeps to the rules, and what memory looks like after them. *)
From Verif Require Import CStr ObjMemModel.

(** * Memory *)
Definition at_ (h : mem) (a : addr) (c : cell) : Prop := nth_error h a = Some (Some c).
Definition alloc (h : mem) (a : addr) : Prop := exists c, at_ h a c.
(** An object of a kind. *)
Definition is (h : mem) (a : addr) (k : tag) : Prop := exists c, at_ h a c /\ kind c = k.
(** An object pointing to another: [f] says through which member, item or entry. *)
Definition points (h : mem) (a : addr) (f : str) (b : addr) : Prop := exists c, at_ h a c /\ In (f, Ptr (Some b)) (slots c).
(** What can be reached from some objects. *)
Inductive from (h : mem) (refs : list addr) : addr -> Prop :=
| from_held a : In a refs -> from h refs a
| from_next a f b : from h refs a -> points h a f b -> from h refs b.
Definition occ (a : addr) (l : list addr) : nat := count_occ Nat.eq_dec l a.
Definition pointers (c : cell) : list addr := flat_map (fun kv => match snd kv with Ptr (Some a) => [a] | _ => [] end) (slots c).
(** All pointers in memory that is not freed. *)
Definition all_pointers (h : mem) : list addr := flat_map (fun o => match o with Some c => pointers c | None => [] end) h.
(** The counter of each object is the number of references to it: those held outside
    and the pointers in memory.  The counter starts at 0 for the first. *)
Definition counted (h : mem) (held : list addr) : Prop := forall a c, at_ h a c -> S (refc c) = occ a held + occ a (all_pointers h).
(** Nothing points to freed memory, and nothing unwritten is left. *)
Definition sound (h : mem) (held : list addr) : Prop :=
  (forall a, In a held -> alloc h a) /\ (forall a f b, points h a f b -> alloc h b) /\ forall a c f, at_ h a c -> ~ In (f, Hole) (slots c).

(** * Calls *)
Inductive part := PGroup | PCat | PEnv.
Definition pkind (p : part) : tag := match p with PGroup => KGroup | PCat => KCat | PEnv => KEnv end.
Definition pkey (p : part) : str := match p with PGroup => o_groups | PCat => o_cats | PEnv => o_envs end.
Definition pety (p : part) : ety := match p with PGroup => LGroup | PCat => LCat | PEnv => LEnv end.
(** The lists of items of an object, with what is in them. *)
Definition plists (p : part) : list (str * ety) := match p with PGroup => [(f_pkgs, LPkg)] | PCat => [(f_gids, LGid)] | PEnv => [(f_groups, LGid); (f_options, LGid)] end.
Inductive which := WPkg | WGid.
Definition wkind (w : which) : tag := match w with WPkg => KPkg | WGid => KGid end.
Definition wvals (w : which) : list str := match w with WPkg => [f_name; f_requires; f_basearch] | WGid => [f_name] end.
Definition is_text (h : mem) (a : addr) : Prop := exists v, is h a (KVal v).
(** What may be in a list. *)
Definition belongs (h : mem) (e : ety) (a : addr) : Prop :=
  match e with LPkg => is h a KPkg | LGid => is h a KGid | LGroup => is h a KGroup | LCat => is h a KCat | LEnv => is h a KEnv | LStr => is_text h a end.

Inductive call :=
| CText (v : str + Z) | CList (e : ety) | CItem (w : which) | CObj (p : part) | CDoc (enc : ref)
| CShare (a : addr) | CRelease (a : addr) | CCopy (a : addr)
| CAppend (e : ety) (l x : addr) | CAppendX (e : ety) (l x : addr)
| CSetProp (p : part) (o : addr) (k : str) (v : str + Z) | CUnsetProp (p : part) (o : addr) (k : str) | CGetProp (p : part) (o : addr) (k : str)
| CSetArches (p : part) (o : addr) (l : ref) | CSetList (p : part) (o : addr) (f : str) (e : ety) (l : addr) | CGetList (p : part) (o : addr) (f : str) (e : ety)
| CAddItem (p : part) (o : addr) (f : str) (e : ety) (x : addr) | CSetLang (p : part) (o : addr) (f : str) (lang : str) (x : addr)
| CSetVal (w : which) (o : addr) (f : str) (v : str + Z) | CGetVal (w : which) (o : addr) (f : str) | CSetItemArches (w : which) (o : addr) (l : ref)
| CDocGet (d : addr) (k : str) | CDocSet (d : addr) (k : str) (x : addr) | CDocAdd (p : part) (d x : addr) | CDocAddLang (d : addr) (key : str) (x : addr)
| CDocAddMulti (d : addr) (k key : str) (x : addr) | CDoctypeSet (d : addr) (v : ref) | CDoctypeGet (d : addr) (f : str)
| CUnion (p : part) (a b : addr) | CMeet (p : part) (a b : addr) | CFilter (p : part) (a arches : addr)
| CDocUnion (a b : addr) | CDocMeet (a b : addr) | CDocFilter (a arches : addr)
| CQuery (p : part) (d : addr) (id name desc : str) (lang : option str) | CPackages (g : ref) (name : str) | CDocCmp (a b : addr).

Definition refs_of (r : ref) : list addr := match r with Some a => [a] | None => [] end.
Definition gives (m : M addr) : M (list addr) := do a <- m; ret [a].
Definition gives_opt (m : M ref) : M (list addr) := do r <- m; ret (refs_of r).
Definition gives_none {A} (m : M A) : M (list addr) := m ;;; ret [].
Section Run.
Variable oracle : mem -> addr -> addr -> bool.
Variable matches : mem -> addr -> bool.
(** A call and the references it gives to the client. *)
Definition run (c : call) : M (list addr) :=
  match c with
  | CText v => gives (new_val v) | CList e => gives (new_list e)
  | CItem WPkg => gives new_pkg | CItem WGid => gives new_gid
  | CObj PGroup => gives new_group | CObj PCat => gives new_cat | CObj PEnv => gives new_env
  | CDoc enc => gives (new_doc enc)
  | CShare a => incref (Some a) ;;; ret [a]
  | CRelease a => gives_none (release (Some a))
  | CCopy a => gives (copy_obj a)
  | CAppend _ l x => gives_none (append l (Some x)) | CAppendX _ l x => gives_none (append_x l (Some x))
  | CSetProp _ o k v => gives_none (set_prop o k v) | CUnsetProp _ o k => gives_none (unset_prop o k) | CGetProp _ o k => gives_opt (get_prop o k)
  | CSetArches _ o l => gives_none (set_arches o l) | CSetList _ o f _ l => gives_none (set_objlist o f l) | CGetList _ o f _ => gives_opt (get_val o f)
  | CAddItem _ o f e x => gives_none (add_item o f e x)
  | CSetLang _ o f lang x => gives_none (do r <- member o f; do d <- follow r; dset d lang (Some x))
  | CSetVal _ o f v => gives_none (set_val o f v) | CGetVal _ o f => gives_opt (get_val o f) | CSetItemArches _ o l => gives_none (set_item_arches o l)
  | CDocGet d k => gives (doc_get d k) | CDocSet d k x => gives_none (doc_set d k x) | CDocAdd p d x => gives_none (doc_add d (pkey p) x)
  | CDocAddLang d key x => gives_none (doc_add_lang d key (Some x)) | CDocAddMulti d k key x => gives_none (doc_add_multi d k key (Some x))
  | CDoctypeSet d v => gives_none (doctype_set d v) | CDoctypeGet d f => gives_opt (get_val d f)
  | CUnion PGroup a b => gives (group_union oracle a b) | CUnion PCat a b => gives (cat_union oracle a b) | CUnion PEnv a b => gives (env_union oracle a b)
  | CMeet PGroup a b => gives (group_meet oracle a b) | CMeet PCat a b => gives (cat_meet oracle a b) | CMeet PEnv a b => gives (env_meet oracle a b)
  | CFilter PGroup a l => gives (group_filter oracle a l) | CFilter PCat a l => gives (cat_filter oracle a l) | CFilter PEnv a l => gives (env_filter oracle a l)
  | CDocUnion a b => gives (doc_union oracle a b) | CDocMeet a b => gives (doc_meet oracle a b) | CDocFilter a l => gives (doc_filter oracle a l)
  | CQuery p d id name desc lang => gives (doc_query matches d (pkey p) (pety p) id name desc lang)
  | CPackages g name => gives_opt (get_packages oracle matches g name)
  | CDocCmp a b => gives_none (doc_cmp oracle a b)
  end.
(** The references a call takes from the client. *)
Definition takes (c : call) : list addr :=
  match c with
  | CRelease a => [a]
  | CAppendX _ _ x => [x] | CAddItem _ _ _ _ x => [x]
  | CSetArches _ _ l => refs_of l | CSetItemArches _ _ l => refs_of l
  | CDocAdd _ _ x => [x] | CDocAddLang _ _ x => [x] | CDocAddMulti _ _ _ x => [x]
  | _ => []
  end.
(** The rules: [held] are the references the client keeps.  An object may be passed if
    it is reached from what is kept and has the right kind; a reference that is taken
    must be the client's (see [history]); the new value of a setter that destroys the
    old one first must be held by the client. *)
Definition usable (h : mem) (held : list addr) (a : addr) (k : tag) : Prop := from h held a /\ is h a k.
Definition copyable (k : tag) : Prop := match k with KMDict | KDoc | KDict DObjs => False | _ => True end.
Definition allowed (h : mem) (held : list addr) (c : call) : Prop :=
  match c with
  | CText _ | CList _ | CItem _ | CObj _ => True
  | CDoc enc => match enc with Some a => from h held a /\ is_text h a | None => True end
  | CShare a => from h held a
  | CRelease _ => True
  | CCopy a => exists k, usable h held a k /\ copyable k
  | CAppend e l x => usable h held l (KList e) /\ from h held x /\ belongs h e x
  | CAppendX e l x => usable h held l (KList e) /\ belongs h e x
  | CSetProp p o k _ => usable h held o (pkind p) /\ k <> f_arches
  | CUnsetProp p o _ | CGetProp p o _ => usable h held o (pkind p)
  | CSetArches p o l => usable h held o (pkind p) /\ forall a, l = Some a -> is h a (KList LStr)
  | CSetList p o f e l => usable h held o (pkind p) /\ In (f, e) (plists p) /\ In l held /\ is h l (KList e)
  | CGetList p o f e => usable h held o (pkind p) /\ In (f, e) (plists p)
  | CAddItem p o f e x => usable h held o (pkind p) /\ In (f, e) (plists p) /\ belongs h e x
  | CSetLang p o f _ x => usable h held o (pkind p) /\ (f = f_names \/ f = f_descs) /\ from h held x /\ is_text h x
  | CSetVal w o f _ | CGetVal w o f => usable h held o (wkind w) /\ In f (wvals w)
  | CSetItemArches w o l => usable h held o (wkind w) /\ forall a, l = Some a -> is h a (KList LStr)
  | CDocGet d _ => usable h held d KDoc
  | CDocSet d k x => usable h held d KDoc /\ from h held x /\ is h x (obj_kind k)
  | CDocAdd p d x => usable h held d KDoc /\ is h x (pkind p)
  | CDocAddLang d _ x => usable h held d KDoc /\ is_text h x
  | CDocAddMulti d k _ x => usable h held d KDoc /\ (k = o_black \/ k = o_white) /\ is_text h x
  | CDoctypeSet d v => usable h held d KDoc /\ forall a, v = Some a -> In a held /\ is_text h a
  | CDoctypeGet d f => usable h held d KDoc /\ In f [f_dtname; f_dtsys; f_dtpub]
  | CUnion p a b | CMeet p a b => usable h held a (pkind p) /\ usable h held b (pkind p)
  | CFilter p a l => usable h held a (pkind p) /\ usable h held l (KList LStr)
  | CDocUnion a b | CDocMeet a b | CDocCmp a b => usable h held a KDoc /\ usable h held b KDoc
  | CDocFilter a l => usable h held a KDoc /\ usable h held l (KList LStr)
  | CQuery _ d _ _ _ _ => usable h held d KDoc
  | CPackages g _ => forall a, g = Some a -> usable h held a KGroup
  end.
(** The name of an item, if it has one. *)
Definition name_of (h : mem) (x : addr) : option (str + Z) :=
  match nth_error h x with
  | Some (Some c) =>
    match find_slot f_name (slots c) with
    | Some (Ptr (Some b)) => match nth_error h b with Some (Some cb) => match kind cb with KVal v => Some v | _ => None end | _ => None end
    | _ => None
    end
  | _ => None
  end.
(** No list of the object has two items of one name. *)
Definition different (h : mem) (p : part) (o : addr) : Prop := forall f e l cl xs,
  In (f, e) (plists p) -> points h o f l -> at_ h l cl -> map snd (slots cl) = map (fun x => Ptr (Some x)) xs -> NoDup (map (name_of h) xs).
(** The id of an object, if it has one. *)
Definition id_of (h : mem) (x : addr) : option (str + Z) :=
  match nth_error h x with
  | Some (Some c) =>
    match find_slot f_props (slots c) with
    | Some (Ptr (Some p)) =>
      match nth_error h p with
      | Some (Some cp) =>
        match find_slot (S_ "id") (slots cp) with
        | Some (Ptr (Some b)) => match nth_error h b with Some (Some cb) => match kind cb with KVal v => Some v | _ => None end | _ => None end
        | _ => None
        end
      | _ => None
      end
    | _ => None
    end
  | _ => None
  end.
(** The document has a list for a part; no two objects in it have one id, and no object
    has two items of one name. *)
Definition separate (h : mem) (p : part) (d : addr) : Prop := exists o l cl xs,
  points h d f_objects o /\ points h o (pkey p) l /\ at_ h l cl /\ map snd (slots cl) = map (fun x => Ptr (Some x)) xs /\
  NoDup (map (id_of h) xs) /\ forall x, In x xs -> different h p x.
(** Calls that lose nothing. *)
Definition tidy (h : mem) (c : call) : Prop :=
  match c with
  | CUnion p a b => different h p a /\ different h p b
  | CDocUnion a b => forall p, separate h p a /\ separate h p b
  | CPackages None _ => False
  | _ => True
  end.
(** Histories that began with no memory: what is in memory, and the references the
    client has.  [true]: all calls were tidy. *)
Inductive history : bool -> mem -> list addr -> Prop :=
| start : history true [] []
| next t t' h held c kept h' got : history t h held -> (forall a, occ a held = occ a (takes c ++ kept)) -> allowed h kept c -> run c h = Ok (h', got) ->
    (t' = true -> t = true /\ tidy h c) -> history t' h' (got ++ kept).
End Run.
