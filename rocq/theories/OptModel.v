(** The command line: /repo/lube/config.cpp 17-115 and config.h 22-47. *)
From Coq Require Import ZArith Bool List String Floats.SpecFloat.
From Verif Require Import Base ValModel StrModel JsonModel IniModel.
Import ListNotations.
Local Open Scope Z_scope.
Local Open Scope list_scope.

(** * getopt() of glibc, for option strings that do not begin with '+', '-' or ':' and have no
    two colons in a row.  The words are those after the name of the program. *)
(** How the option string describes a character (strchr finds the first one). *)
Inductive kind := KBad | KFlag | KArg.
Fixpoint kind_of (optstring : str) (c : Z) : kind :=
  match optstring with
  | [] => KBad
  | x :: t => if x =? c then match t with 58 :: _ => KArg | _ => KFlag end else kind_of t c
  end.
Definition opt_kind (optstring : str) (c : Z) : kind :=
  if (c =? 58) || (c =? 59) then KBad else kind_of optstring c.
(** What one call returns: the character and [optarg], [None] being null. *)
Definition event := (Z * option str)%type.
(** The characters of a word after its '-'; [next] is the word behind it.  The flag tells
    whether that one was taken as an argument. *)
Fixpoint cluster (optstring : str) (cs : str) (next : option str) : list event * bool :=
  match cs with
  | [] => ([], false)
  | c :: cs =>
    match opt_kind optstring c with
    | KBad => let (e, used) := cluster optstring cs next in ((63, None) :: e, used)
    | KFlag => let (e, used) := cluster optstring cs next in ((c, None) :: e, used)
    | KArg => match cs with
              | [] => match next with
                      | Some w => ([(c, Some w)], true)
                      | None => ([(63, None)], false)
                      end
              | _ => ([(c, Some cs)], false)
              end
    end
  end.
(** All calls until -1 is returned, and the words left, which have been moved to the end. *)
Fixpoint getopt (optstring : str) (words : list str) : list event * list str :=
  match words with
  | [] => ([], [])
  | [45; 45] :: rest => ([], rest)
  | (45 :: (_ :: _) as cs) :: rest =>
    let (e, used) := cluster optstring cs (hd_error rest) in
    match rest with
    | _ :: rest' => let (e', left) := getopt optstring (if used then rest' else rest) in (e ++ e', left)
    | [] => (e, [])
    end
  | w :: rest => let (e, left) := getopt optstring rest in (e, w :: left)
  end.

(** * The class *)
(** [mName], [mOptString], [mOpts], [mUsage]. *)
Record option_state := mkopt { o_name : str; o_string : str; o_opts : val; o_usage : list str }.
(** /repo/lube/config.cpp 17-36: the constructors. *)
Definition option_new (iName : str) : option_state := mkopt iName [] VNil [].
(** /repo/lube/config.cpp 73-84: [operator ()(char, var, var)]. *)
Definition declare (fmtf : spec_float -> str) (o : option_state) (iChar : Z) (iDescription : str) (iDefault : val) : outcome option_state :=
  let* opts := assign (VNil, VNil) (o_opts o) (VChar iChar) iDefault in
  let string := o_string o ++ [iChar] ++ (if vdefined iDefault then [58] else []) in
  let desc := txt " -" ++ [iChar] ++ txt " " ++ c_str iDescription
              ++ (if vdefined iDefault then txt " [" ++ format fmtf iDefault 0 ++ txt "]" else []) in
  Ok (mkopt (o_name o) string opts (o_usage o ++ [desc])).
(** /repo/lube/config.cpp 57-66: [arg]; the text has the number of the option in its middle. *)
Definition opt_arg (optarg : option str) : outcome val :=
  match optarg with
  | Some w => Ok (vstr w)
  | None => Throw "at argument ... optarg is null"
  end.
(** /repo/lube/config.cpp 91-104: the loop of [parse]; [None] when it calls usage(0). *)
Fixpoint parse_loop (mOpts : val) (events : list event) : outcome (option val) :=
  match events with
  | [] => Ok (Some mOpts)
  | (c, optarg) :: t =>
    let* q := veq (VChar c) (VChar 63) in
    if q : bool then Ok None else
    let* (mOpts, v) := subscript mOpts (VChar c) in
    let* a := if vdefined v then opt_arg optarg else Ok (VInt 1) in
    let* mOpts := assign (VNil, VNil) mOpts (VChar c) a in
    parse_loop mOpts t
  end.
(** /repo/lube/config.cpp 106-115: [usage]. *)
Definition usage_text (o : option_state) (argv0 : str) : str :=
  o_name o ++ [10] ++ txt "Usage: " ++ argv0
  ++ (match o_string o with [] => [] | s => txt " -[" ++ s ++ txt "]" end)
  ++ txt " [args] (see 'man 3 getopt')" ++ [10]
  ++ List.concat (map (fun l => c_str l ++ [10]) (o_usage o)).
(** [parse] and then [args] (config.cpp 68-71, var.cpp 435-441), or the text printed before the
    program ends with status 0 (config.h 39). *)
Inductive parsed := Done (opts args : val) | Exits (text : str).
Definition parse (o : option_state) (argv0 : str) (words : list str) : outcome parsed :=
  let (events, left) := getopt (o_string o) words in
  let* r := parse_loop (o_opts o) events in
  Ok (match r with
      | Some opts => Done opts (match left with [] => VNil | _ => VArr TVar (map vstr left) end)
      | None => Exits (usage_text o argv0)
      end).
