(** Model of comps_log.c and comps_log_codes.c: the message log.

    Simplification: log arguments are the COMPS_Str and COMPS_Num objects that
    the library passes, or NULL; an entry keeps copies (error, warning) or the
    objects themselves (_x variants), which read the same here because nobody
    else holds the latter. *)
From Verif Require Import CStr HSListModel ObjModel Dec StrModel.

(** An argument of a log call: comps_str(...), comps_num(...). *)
Inductive larg := LStr (s : ostr) | LNum (z : Z).
(** COMPS_LogEntry, comps_log.h:9-14. *)
Record entry := mkEn { en_code : Z; en_type : Z; en_args : list (option larg) }.
(** COMPS_Log, comps_log.h:16-21; [lg_err] is what has been written to stderr. *)
Record log := mkLog { lg_entries : hsl entry; lg_std : bool; lg_err : list str }.

(** comps_log_codes.h:8-36. *)
Definition ENTRY_ERR : Z := 0.
Definition ENTRY_WAR : Z := 1.
Definition NL : str := [ascii_of_nat 10].
(** COMPS_LogCodeFormat, comps_log.c:3-52, indexed by the codes of
    comps_log_codes.h:11-37.  [None]: a hole of the array (a NULL pointer) or an
    index outside it. *)
Definition log_format (code : Z) : option str :=
  match code with
  | 1 => Some (S_ "")
  | 2 => Some (S_ "WARNING: Unknown elemenet '%s' at line:%s" ++ NL)
  | 27 => Some (S_ "WARNING: Unknown attribute '%s' in element '%s' at line:%s col: %s" ++ NL)
  | 3 => Some (S_ "WARNING: Element <%s> at line:%s col:%s has been already found" ++ NL)
  | 4 => Some (S_ "ERROR: Parser error at line:%s col:%s" ++ NL ++ S_ "    %s" ++ NL)
  | 5 => Some (S_ "WARNING: Wrong default param value '%s' at line:%s col:%s" ++ NL)
  | 6 => Some (S_ "WARNING: Wrong uservisible param value'%s' at line:%s col:%s" ++ NL)
  | 7 => Some (S_ "WARNING: Unkonwn package type '%s' at line:%s col:%s" ++ NL)
  | 8 => Some (S_ "WARNING: <default> subelement required at line:%s col:%s" ++ NL)
  | 9 => Some (S_ "WARNING: <uservisible> subelementrequired at line:%s col%s" ++ NL)
  | 10 => Some (S_ "ERROR: '<name>' subelement required at line:%s col:%s" ++ NL)
  | 11 => Some (S_ "WARNING: '<id>' subelement required at line:%s col:%s" ++ NL)
  | 12 => Some (S_ "WARNING: '<description>' subelement required at line:%s col:%s" ++ NL)
  | 13 => Some (S_ "WARNING: '<grouplist>' subelement not parsed and groupid found at line:%s col:%s" ++ NL)
  | 14 => Some (S_ "WARNING: '<optionlist>' subelement not parsed and groupid found at line:%s col:%s" ++ NL)
  | 16 => Some (S_ "ERROR: <%s> found with no suitable parent at line:%s col:%s" ++ NL)
  | 17 => Some (S_ "Malloc failed. Cannot continue" ++ NL)
  | 18 => Some (S_ "Can't read file" ++ NL)
  | 19 => Some (S_ "Can't write file %s" ++ NL)
  | 20 => Some (S_ "Can't generate xml" ++ NL)
  | 21 => Some (S_ "Element %s is required at line:%s column :%s but missing" ++ NL)
  | 22 => Some (S_ "%s is empty at line:%s column :%s" ++ NL)
  | 23 => Some (S_ "'%s' found between elements at line:%s column :%s" ++ NL)
  | 24 => Some (S_ "<%s> content missing at line:%s column:%s" ++ NL)
  | 25 => Some (S_ "Group with id %s has no packages.skipping xml output" ++ NL)
  | 15 => Some (S_ "Category with id %s has no group ids.skipping xml output" ++ NL)
  | 26 => Some (S_ "Environment with id %s has no group ids and no .option ids. Skipping xml output" ++ NL)
  | _ => None
  end%Z.

(** vsprintf / vprintf with a format in which only %s occurs; an argument that
    is not there is undefined. *)
Fixpoint vformat (fmt : str) (args : list str) : res str :=
  match fmt with
  | [] => Ok []
  | c :: r =>
      if Ascii.eqb c "%" then
        match r with
        | d :: r' =>
            if Ascii.eqb d "s" then
              match args with
              | a :: args' => t <- vformat r' args' ;; Ok (a ++ t)
              | [] => UB
              end
            else UB
        | [] => UB
        end
      else t <- vformat r args ;; Ok (c :: t)
  end.

(** __comps_log_entry_out, comps_log.c:165-175: comps_object_tostr of every
    argument. *)
Definition larg_tostr (a : option larg) : res str :=
  match a with
  | None => Ok []
  | Some (LStr s) => Ok (str_tostr s)
  | Some (LNum z) => num_tostr z
  end.
(** comps_log_entry_str, comps_log.c:177-193.  [expand] (comps_log_codes.c:56-80)
    handles at most five arguments; with more nothing is written and the caller
    reads uninitialised memory.  A buffer size that would be negative is huge as
    a size_t: malloc then fails and NULL is written to. *)
Definition entry_str (e : entry) : res str :=
  args <- map_r larg_tostr (en_args e) ;;
  match log_format (en_code e) with
  | None => UB
  | Some fmt =>
      if 5 <? length args then UB
      else t <- vformat fmt args ;;
           put (length fmt + sum_len args + 1 - 2 * length args) t
  end.
(** comps_log_entry_print, comps_log.c:195-209: the text and a newline; with
    more than five arguments only the newline. *)
Definition entry_print (e : entry) : res str :=
  args <- map_r larg_tostr (en_args e) ;;
  match log_format (en_code e) with
  | None => UB
  | Some fmt => if 5 <? length args then Ok NL else t <- vformat fmt args ;; Ok (t ++ NL)
  end.

(** comps_log_create, comps_log.c:54-63. *)
Definition log_create (std : bool) : log := mkLog hs_empty std [].
(** comps_object_copy of an argument. *)
Definition larg_copy (a : larg) : larg :=
  match a with LStr s => LStr (ostr_copy s) | LNum z => LNum z end.
(** __comps_log_entry 101-118 and __comps_log_entry_x 120-136. *)
Definition log_put (l : log) (e : entry) : res log :=
  err <- (if lg_std l then s <- entry_str e ;; Ok (lg_err l ++ [s]) else Ok (lg_err l)) ;;
  h <- hs_append (lg_entries l) e ;;
  Ok (mkLog h (lg_std l) err).
Definition log_entry (l : log) (code type : Z) (args : list (option larg)) : res log :=
  log_put l (mkEn code type (map (obj_copy larg_copy) args)).
Definition log_entry_x (l : log) (code type : Z) (args : list (option larg)) : res log :=
  log_put l (mkEn code type args).
(** comps_log_error 138-143, error_x 144-149, warning 151-156, warning_x 157-162. *)
Definition log_error l code args := log_entry l code ENTRY_ERR args.
Definition log_error_x l code args := log_entry_x l code ENTRY_ERR args.
Definition log_warning l code args := log_entry l code ENTRY_WAR args.
Definition log_warning_x l code args := log_entry_x l code ENTRY_WAR args.
(** comps_log_print, comps_log.c:211-216. *)
Fixpoint print_entries (l : list entry) : res str :=
  match l with [] => Ok [] | e :: r => s <- entry_print e ;; t <- print_entries r ;; Ok (s ++ t) end.
Definition log_print (l : log) : res str := print_entries (hitems (lg_entries l)).

(** The four logging functions as one operation, for histories. *)
Inductive lcall := LCall (warning x : bool) (code : Z) (args : list (option larg)).
Definition log_do (l : log) (c : lcall) : res log :=
  match c with
  | LCall false false k a => log_error l k a
  | LCall false true k a => log_error_x l k a
  | LCall true false k a => log_warning l k a
  | LCall true true k a => log_warning_x l k a
  end.
Fixpoint log_run (l : log) (cs : list lcall) : res log :=
  match cs with [] => Ok l | c :: r => l' <- log_do l c ;; log_run l' r end.
(** Every log call of the library: code and number of arguments, with the place. *)
Definition call_sites : list (Z * nat) :=
  [ (20%Z, 0) (* comps_doc.c:196, 205, 238, 246, 248, 250; comps_utils.c:143 *);
    (19%Z, 1) (* comps_doc.c:209 *);
    (25%Z, 1) (* comps_doccategory.c:228, comps_docenv.c:312, comps_docgroup.c:303 *);
    (21%Z, 3) (* comps_elem.c:420 *);
    (3%Z, 3)  (* comps_elem.c:430, 855 *);
    (22%Z, 3) (* comps_elem.c:561, 580 *);
    (24%Z, 3) (* comps_elem.c:624, 737 *);
    (5%Z, 3)  (* comps_elem.c:781, 807, 823 *);
    (18%Z, 0) (* comps_parse.c:208, 228 *);
    (17%Z, 0) (* comps_parse.c:221, 290, 350, 422 *);
    (4%Z, 3)  (* comps_parse.c:230, 258 *);
    (23%Z, 3) (* comps_parse.c:313, 379 *);
    (16%Z, 3) (* comps_parse.c:373 *);
    (27%Z, 4) (* comps_parse.c:465 *) ].
