(** The bytes between saving and loading.  The code of libcomps here is small:
    comps_doc.c:186-209 and 227-256 build a tree with xmlNewTextWriterDoc, write it
    with xmlSaveFormatFileEnc or xmlSaveFormatFileTo (format 1) and comps_parse.c:218-237
    and 257 give the bytes to expat, a file in blocks of BUFF_SIZE, a string at once.
    The rest is the documented behaviour of the two libraries for documents in
    UTF-8: libxml2's serialisation of a tree (escapes, indentation, document type)
    and the part of XML 1.0 that such files use, with expat's rules for cutting
    character data.  DESIGN.md lists what is left out. *)
From Coq Require Import NArith.
From Verif Require Import CStr DocModel ParseModel XmlModel XmlFacts Utf8Facts.

Definition LF : ascii := "010"%char.
Definition CR : ascii := "013"%char.
Definition TAB : ascii := "009"%char.
Definition DQ : ascii := "034"%char.
Definition SQ : ascii := "039"%char.
Notation "'!' x" := (list_ascii_of_string x%string) (at level 9, x at level 0).

(** Characters of XML 1.0 (production 2) and texts made of them, in UTF-8. *)
Definition xml_char (c : N) : Prop :=
  (c = 9 \/ c = 10 \/ c = 13 \/ 32 <= c < 55296 \/ 57343 < c < 65534 \/ 65535 < c < 1114112)%N.
Definition xml_text (s : str) : Prop := exists cs, Forall xml_char cs /\ s = flat_map encode cs.

(** * Writing *)
(** The tree the calls build (xmlNewTextWriterDoc); open elements innermost first,
    each with its attributes and what it holds so far. *)
Definition frame : Type := (str * list (str * str) * list xml)%type.
Definition put (x : xml) (st : list frame) : list frame :=
  match st with (n, a, b) :: r => (n, a, b ++ [x]) :: r | [] => [] end.
Fixpoint build (st : list frame) (cs : list call) : option (xml * list call) :=
  match cs with
  | WStart n :: r => build ((n, [], []) :: st) r
  | WAttr k v :: r => match st with (n, a, []) :: st' => build ((n, a ++ [(k, v)], []) :: st') r | _ => None end
  | WText s :: r => match st with [] => None | _ => build (put (Text s) st) r end
  | WEnd :: r =>
      match st with
      | [] => None
      | [(n, a, b)] => Some (Elem n a b, r)
      | (n, a, b) :: st' => build (put (Elem n a b) st') r
      end
  | _ => None
  end.
(** xmlEscapeEntities: texts. *)
Definition esc_text (c : ascii) : str :=
  if Ascii.eqb c "<" then ! "&lt;" else if Ascii.eqb c ">" then ! "&gt;" else if Ascii.eqb c "&" then ! "&amp;"
  else if Ascii.eqb c CR then ! "&#13;" else [c].
(** xmlBufAttrSerializeTxtContent: attribute values. *)
Definition esc_attr (c : ascii) : str :=
  if Ascii.eqb c "<" then ! "&lt;" else if Ascii.eqb c ">" then ! "&gt;" else if Ascii.eqb c "&" then ! "&amp;"
  else if Ascii.eqb c DQ then ! "&quot;" else if Ascii.eqb c LF then ! "&#10;" else if Ascii.eqb c CR then ! "&#13;"
  else if Ascii.eqb c TAB then ! "&#9;" else [c].
(** An empty text makes no node. *)
Definition node_of (t : xml) : bool := match t with Text [] => false | _ => true end.
Definition is_text (t : xml) : bool := match t with Text (_ :: _) => true | _ => false end.
Definition attr_bytes (kv : str * str) : str := " "%char :: fst kv ++ ["="%char; DQ] ++ flat_map esc_attr (snd kv) ++ [DQ].
Definition indent (lv : nat) : str := concat (repeat (! "  ") lv).
(** xmlNodeDumpOutputInternal with format 1: elements holding text are written
    without line breaks inside. *)
Fixpoint print (fmt : bool) (lv : nat) (t : xml) : str :=
  match t with
  | Text s => flat_map esc_text s
  | Elem n a b =>
      let fmt' := fmt && negb (existsb is_text b) in
      "<"%char :: n ++ flat_map attr_bytes a ++
      (if existsb node_of b then
         ">"%char ::
         flat_map (fun x => if node_of x then (if fmt' then LF :: indent (S lv) else []) ++ print fmt' (S lv) x else []) b ++
         (if fmt' then LF :: indent lv else []) ++ ["<"%char; "/"%char] ++ n ++ [">"%char]
       else ["/"%char; ">"%char])
  end.
(** xmlBufWriteQuotedString. *)
Definition quoted (s : str) : str :=
  if existsb (Ascii.eqb DQ) s then
    if existsb (Ascii.eqb SQ) s then DQ :: flat_map (fun c => if Ascii.eqb c DQ then ! "&quot;" else [c]) s ++ [DQ]
    else SQ :: s ++ [SQ]
  else DQ :: s ++ [DQ].
(** xmlDtdDumpOutput; xmlTextWriterStartDTD refuses a missing name and a public id
    without a system id. *)
Definition dtd_bytes (n p s : option str) : option str :=
  match n, p, s with
  | Some n, Some p, Some s => Some (! "<!DOCTYPE " ++ n ++ ! " PUBLIC " ++ quoted p ++ ! " " ++ quoted s ++ ! ">")
  | Some n, None, Some s => Some (! "<!DOCTYPE " ++ n ++ ! " SYSTEM " ++ quoted s ++ ! ">")
  | Some n, None, None => Some (! "<!DOCTYPE " ++ n ++ ! ">")
  | _, _, _ => None
  end.
Definition printed (cs : list call) : option str :=
  match cs with
  | WStartDoc e :: WDTD n p s :: WEndDTD :: r =>
      match dtd_bytes n p s, build [] r with
      | Some d, Some (t, [WEndDoc]) =>
          Some (! "<?xml version=" ++ DQ :: ! "1.0" ++ DQ :: ! " encoding=" ++ DQ :: e ++ DQ :: ! "?>" ++ LF :: d ++ LF :: print true 0 t ++ [LF])
      | _, _ => None
      end
  | _ => None
  end.

(** * Reading *)
Definition xml_space (c : ascii) : bool := Ascii.eqb c " " || Ascii.eqb c TAB || Ascii.eqb c LF || Ascii.eqb c CR.
(** Name characters: letters, digits, [.-_:] and every byte of a longer character. *)
Definition name_char (c : ascii) : bool :=
  let n := N_of_ascii c in
  ((48 <=? n) && (n <=? 58) || (65 <=? n) && (n <=? 90) || (97 <=? n) && (n <=? 122) || (n =? 45) || (n =? 46) || (n =? 95) || (128 <=? n))%N.
(** Characters of a public id (production 13). *)
Definition pubid_char (c : ascii) : bool :=
  let n := N_of_ascii c in
  xml_space c || ((48 <=? n) && (n <=? 57) || (64 <=? n) && (n <=? 90) || (97 <=? n) && (n <=? 122))%N
  || existsb (Ascii.eqb c) (! "-'()+,./:=?;!*#$_%").
(** References: the five entities, decimal character references. *)
Fixpoint dec_of (acc : N) (s : str) : option N :=
  match s with
  | [] => Some acc
  | c :: r => let n := N_of_ascii c in if ((48 <=? n) && (n <=? 57))%N then dec_of (10 * acc + (n - 48))%N r else None
  end.
Definition resolve (r : str) : option str :=
  if streq r (! "lt") then Some (! "<") else if streq r (! "gt") then Some (! ">") else if streq r (! "amp") then Some (! "&")
  else if streq r (! "quot") then Some [DQ] else if streq r (! "apos") then Some [SQ]
  else match r with
       | "#"%char :: c :: d => match dec_of 0 (c :: d) with Some n => Some (encode n) | None => None end
       | _ => None
       end.
(** What stands between [<!] and [>], cut at white space outside quotes; [true]: it was quoted. *)
Fixpoint decl_words (cur : str) (q : option ascii) (s : str) : option (list (bool * str)) :=
  let done (l : list (bool * str)) := match cur with [] => l | _ => (false, cur) :: l end in
  match s with
  | [] => match q with None => Some (done []) | Some _ => None end
  | c :: r =>
      match q with
      | Some x => if Ascii.eqb c x then option_map (cons (true, cur)) (decl_words [] None r) else decl_words (cur ++ [c]) q r
      | None =>
          if xml_space c then option_map done (decl_words [] None r)
          else if Ascii.eqb c DQ || Ascii.eqb c SQ then option_map done (decl_words [] (Some c) r)
          else decl_words (cur ++ [c]) None r
      end
  end.
(** normalizePublicId: runs of white space become one space, none at the ends. *)
Fixpoint norm_pubid (gap : bool) (s : str) : str :=
  match s with
  | [] => []
  | c :: r => if xml_space c then (if gap then norm_pubid true r else match norm_pubid true r with [] => [] | r' => " "%char :: r' end)
              else c :: norm_pubid false r
  end.
Definition doctype_of (raw : str) : option event :=
  match decl_words [] None raw with
  | Some ((false, k) :: (false, n) :: r) =>
      if streq k (! "DOCTYPE") && forallb name_char n then
        match r with
        | [] => Some (EDoctype (Some n) None None)
        | [(false, w); (true, s)] => if streq w (! "SYSTEM") then Some (EDoctype (Some n) (Some s) None) else None
        | [(false, w); (true, p); (true, s)] =>
            if streq w (! "PUBLIC") && forallb pubid_char p then Some (EDoctype (Some n) (Some s) (Some (norm_pubid true p))) else None
        | _ => None
        end
      else None
  | _ => None
  end.

Inductive mode :=
| MText (acc : str)                                  (** character data not yet reported *)
| MRef (r : str)                                     (** after [&] *)
| MOpen                                              (** after [<] *)
| MName (n : str)
| MTag (n : str) (a : list (str * str)) (gap : bool) (** in a start tag; [gap]: after white space *)
| MKey (n : str) (a : list (str * str)) (k : str)
| MEq (n : str) (a : list (str * str)) (k : str)
| MVal (n : str) (a : list (str * str)) (k : str) (q : ascii) (v : str)
| MVRef (n : str) (a : list (str * str)) (k : str) (q : ascii) (v r : str)
| MEmpty (n : str) (a : list (str * str))            (** after [/] in a start tag *)
| MClose (n : str)
| MInstr (quest : bool)                              (** after [<?] *)
| MDecl (raw : str) (q : option ascii).              (** after [<!] *)
(** Open elements; whether the root and the document type have been seen. *)
Record rs := mkR { r_mode : mode; r_open : list str; r_root : bool; r_dtd : bool }.
Definition r0 : rs := mkR (MText []) [] false false.
Definition in_mode (m : mode) (st : rs) : rs := mkR m (r_open st) (r_root st) (r_dtd st).
(** Character data so far are reported; outside the root only white space is
    allowed and nothing is reported to this handler. *)
Definition flush (acc : str) (open : list str) : option (list event) :=
  match acc, open with
  | [], _ => Some []
  | _, [] => if forallb xml_space acc then Some [] else None
  | _, _ => Some [EChars acc]
  end.
Definition started (n : str) (st : rs) : rs := mkR (MText []) (n :: r_open st) true (r_dtd st).
Definition dup (k : str) (a : list (str * str)) : bool := existsb (streq k) (map fst a).

(** Data may not hold []]>]. *)
Definition brackets (acc : str) : bool := match rev acc with a :: b :: _ => Ascii.eqb a "]" && Ascii.eqb b "]" | _ => false end.
Definition r_step (st : rs) (c : ascii) : option (rs * list event) :=
  match r_mode st with
  | MText acc =>
      if Ascii.eqb c "<" then option_map (fun e => (in_mode MOpen st, e)) (flush acc (r_open st))
      else if Ascii.eqb c "&" then
        match r_open st with [] => None | _ => option_map (fun e => (in_mode (MRef []) st, e)) (flush acc (r_open st)) end
      else if Ascii.eqb c LF then
        match flush acc (r_open st), flush [LF] (r_open st) with
        | Some e, Some e' => Some (in_mode (MText []) st, e ++ e')
        | _, _ => None
        end
      else if Ascii.eqb c CR || Ascii.eqb c ">" && brackets acc then None
      else Some (in_mode (MText (acc ++ [c])) st, [])
  | MRef r =>
      if Ascii.eqb c ";" then option_map (fun s => (in_mode (MText []) st, [EChars s])) (resolve r)
      else Some (in_mode (MRef (r ++ [c])) st, [])
  | MOpen =>
      if Ascii.eqb c "/" then Some (in_mode (MClose []) st, [])
      else if Ascii.eqb c "?" then Some (in_mode (MInstr false) st, [])
      else if Ascii.eqb c "!" then if r_root st || r_dtd st then None else Some (in_mode (MDecl [] None) st, [])
      else if name_char c then
        match r_open st with [] => if r_root st then None else Some (in_mode (MName [c]) st, []) | _ => Some (in_mode (MName [c]) st, []) end
      else None
  | MName n =>
      if name_char c then Some (in_mode (MName (n ++ [c])) st, [])
      else if xml_space c then Some (in_mode (MTag n [] true) st, [])
      else if Ascii.eqb c "/" then Some (in_mode (MEmpty n []) st, [])
      else if Ascii.eqb c ">" then Some (started n st, [EStart n []])
      else None
  | MTag n a gap =>
      if xml_space c then Some (in_mode (MTag n a true) st, [])
      else if Ascii.eqb c "/" then Some (in_mode (MEmpty n a) st, [])
      else if Ascii.eqb c ">" then Some (started n st, [EStart n a])
      else if name_char c && gap then Some (in_mode (MKey n a [c]) st, [])
      else None
  | MKey n a k =>
      if name_char c then Some (in_mode (MKey n a (k ++ [c])) st, [])
      else if Ascii.eqb c "=" && negb (dup k a) then Some (in_mode (MEq n a k) st, [])
      else None
  | MEq n a k => if Ascii.eqb c DQ || Ascii.eqb c SQ then Some (in_mode (MVal n a k c []) st, []) else None
  | MVal n a k q v =>
      if Ascii.eqb c q then Some (in_mode (MTag n (a ++ [(k, v)]) false) st, [])
      else if Ascii.eqb c "<" then None
      else if Ascii.eqb c "&" then Some (in_mode (MVRef n a k q v []) st, [])
      else Some (in_mode (MVal n a k q (v ++ [if xml_space c then " "%char else c])) st, [])
  | MVRef n a k q v r =>
      if Ascii.eqb c ";" then option_map (fun s => (in_mode (MVal n a k q (v ++ s)) st, [])) (resolve r)
      else Some (in_mode (MVRef n a k q v (r ++ [c])) st, [])
  | MEmpty n a => if Ascii.eqb c ">" then Some (mkR (MText []) (r_open st) true (r_dtd st), [EStart n a; EEnd n]) else None
  | MClose n =>
      if Ascii.eqb c ">" then
        match r_open st with
        | m :: o => if streq n m then Some (mkR (MText []) o (r_root st) (r_dtd st), [EEnd n]) else None
        | [] => None
        end
      else if name_char c then Some (in_mode (MClose (n ++ [c])) st, [])
      else None
  | MInstr quest =>
      if quest && Ascii.eqb c ">" then Some (in_mode (MText []) st, [])
      else Some (in_mode (MInstr (Ascii.eqb c "?")) st, [])
  | MDecl raw q =>
      match q with
      | Some x => Some (in_mode (MDecl (raw ++ [c]) (if Ascii.eqb c x then None else q)) st, [])
      | None =>
          if Ascii.eqb c ">" then option_map (fun e => (mkR (MText []) (r_open st) (r_root st) true, [e])) (doctype_of raw)
          else if Ascii.eqb c "<" || Ascii.eqb c "[" then None
          else Some (in_mode (MDecl (raw ++ [c]) (if Ascii.eqb c DQ || Ascii.eqb c SQ then Some c else None)) st, [])
      end
  end.
(** At the end of a block expat reports the character data it has, but keeps an
    incomplete character and a trailing []] or []]] (it could begin []]>]); [r]
    is the data backwards. *)
Definition kept_back (r : str) : nat :=
  let n c := N_of_ascii c in
  match r with
  | [] => 0
  | a :: r1 =>
      if Ascii.eqb a "]" then match r1 with b :: _ => if Ascii.eqb b "]" then 2 else 1 | [] => 1 end
      else if (192 <=? n a)%N then 1
      else match r1 with
           | [] => 0
           | b :: r2 => if (128 <=? n a)%N && (224 <=? n b)%N then 2
                        else match r2 with [] => 0 | c :: _ => if ((128 <=? n a) && (128 <=? n b) && (240 <=? n c))%N then 3 else 0 end
           end
  end.
Definition held (acc : str) : str * str :=
  let k := length acc - kept_back (rev acc) in (firstn k acc, skipn k acc).
Definition r_end (st : rs) : option (rs * list event) :=
  match r_mode st with
  | MText acc => option_map (fun e => (in_mode (MText (snd (held acc))) st, e)) (flush (fst (held acc)) (r_open st))
  | _ => Some (st, [])
  end.
(** The symbols of the input: bytes, and the end of a block. *)
Definition r_symbol (st : rs) (x : option ascii) : option (rs * list event) :=
  match x with Some c => r_step st c | None => r_end st end.
Fixpoint r_run (st : rs) (l : list (option ascii)) : option (rs * list event) :=
  match l with
  | [] => Some (st, [])
  | x :: r =>
      match r_symbol st x with
      | Some (st1, e1) => match r_run st1 r with Some (st2, e2) => Some (st2, e1 ++ e2) | None => None end
      | None => None
      end
  end.
Definition block (s : str) : list (option ascii) := map Some s ++ [None].
(** XML_ParseBuffer for each block, then the final call with no bytes
    (comps_parse.c:218-237): the events of every call; [None]: an error.  XML_Parse of a
    string (257) is one block. *)
Fixpoint r_blocks (st : rs) (bs : list str) : option (list (list event)) :=
  match bs with
  | [] => match r_mode st, r_open st, r_root st with MText [], [], true => Some [] | _, _, _ => None end
  | b :: r =>
      match r_run st (block b) with
      | Some (st1, e) => option_map (cons e) (r_blocks st1 r)
      | None => None
      end
  end.
Definition reads (bs : list str) (ess : list (list event)) : Prop := xml_text (concat bs) /\ r_blocks r0 bs = Some ess.
(** BUFF_SIZE, comps_parse.c:28; fread fills every block but the last. *)
Definition BUFF_SIZE : nat := 1024.
Fixpoint cut_blocks (n : nat) (fuel : nat) (s : str) : list str :=
  match fuel, s with
  | S fuel', _ :: _ => firstn n s :: cut_blocks n fuel' (skipn n s)
  | _, _ => []
  end.
(** comps_parse_file on the bytes of a file: the blocks, then the call without
    bytes; comps_parse_str: one call.  [None]: outside the subset read here. *)
Definition load_file (st : pst) (b : str) (o : option dopts) : option (res (pst * Z)) :=
  option_map (fun ess => parse_file false st (Some (map (fun e => (e, None)) (ess ++ [[]]))) o)
             (r_blocks r0 (cut_blocks BUFF_SIZE (length b) b)).
Definition load_str (st : pst) (b : str) (o : option dopts) : option (res (pst * Z)) :=
  option_map (fun ess => parse_str false st (concat ess, None) o) (r_blocks r0 [b]).
