(** Ini files and configuration: /repo/lube/inifile.cpp and /repo/lube/config.cpp. *)
From Coq Require Import ZArith Bool List String.
From Coq.Floats Require Import SpecFloat.
From Verif Require Import Base StrModel ValModel NumModel JsonModel.
Import ListNotations.
Local Notation length := List.length.
Local Open Scope list_scope.
Local Open Scope Z_scope.

(** [m\[k1\]\[k2\] = v] (/repo/lube/inifile.cpp 68, /repo/lube/config.cpp 156 and 182): the
    subscript of /repo/lube/var.cpp 735-753 applied to [m] and then, through the reference
    it returned, to the element, which becomes a map if it was nil.  With [k1] nil the
    second subscript acts on a temporary and [m] only becomes a map. *)
Definition assign2 (junk : val * val) (m k1 k2 v : val) : outcome val :=
  let go l :=
    let* (l, p) := map_index junk l k1 in
    match p with
    | None => Ok (VMap l)
    | Some i => match nth_error l i with
                | None => UB OutOfBounds
                | Some (kk, inner) => let* inner := assign junk inner k2 v in
                                      Ok (VMap (set_nth l i (kk, inner)))
                end
    end in
  match m with
  | VNil => go []
  | VMap l => go l
  | _ => Throw "not modelled"
  end.

(** /repo/lube/inifile.cpp 44-69: one turn of the loop of [inifile::read] on the line [f];
    the state is [oVar] and [section].  The pieces of split are fresh strings, so their
    in-place strip is seen by nobody else.  [shift()] on a string drops its first char. *)
Definition ini_line (st : val * str) (f : str) : outcome (val * str) :=
  let (oVar, section) := st in
  let* f := strip_inplace f in
  match f with
  | [] => Ok st
  | c :: _ =>
    if (c =? 59) || (c =? 35) then Ok st
    else if c =? 91 then
      let* close := index (vstr f) (VChar 93) in
      if close =? -1 then Throw "inifile::read(): can't find ]"
      else Ok (oVar, tl (firstn (Z.to_nat close) f))
    else
      let* kv := split (S (length f)) f [61] 0 in
      let* kv := if (length kv <? 2)%nat then split (S (length f)) f [58] 0 else Ok kv in
      if (length kv <? 2)%nat then Throw "inifile::read(): couldn't split" else
      let* k := strip_inplace (nth 0 kv []) in
      let* v := strip_inplace (nth 1 kv []) in
      let* oVar := assign2 (VNil, VNil) oVar (vstr section) (vstr k) (vstr v) in
      Ok (oVar, section)
  end.

(** /repo/lube/inifile.cpp 39-71: the loop.  [f] is the line variable, whose array getline
    re-uses; at the end of the file the variable is nil. *)
Fixpoint ini_loop (fuel : nat) (is : istream) (f : str) (st : val * str) : outcome (val * str) :=
  match fuel with
  | O => Fuel
  | S n =>
    let* (l, is) := getline (2 + length (is_rest is)) f is in
    match l with
    | None => Ok st
    | Some f => let* st := ini_line st f in ini_loop n is f st
    end
  end.
(** /repo/lube/inifile.cpp 33-72: [inifile::read] on the content of a file that opens. *)
Definition ini_read (content : str) : outcome val :=
  let* (oVar, _) := ini_loop (2 + length content) (mkis content) [] (VNil, []) in
  Ok oVar.

(** * Configuration: /repo/lube/config.cpp.  The state is the global [sConfig] (line 122)
    and the [mSection] of the object. *)

(** [sConfig\[k\]] read as a value (/repo/lube/config.cpp 167, 172, 187, 196): subscripting
    inserts a missing key. *)
Definition subscript (m k : val) : outcome (val * val) :=
  let go l :=
    let* (l, p) := map_index (VNil, VNil) l k in
    match p with
    | None => Ok (VMap l, VNil)
    | Some i => match nth_error l i with
                | None => UB OutOfBounds
                | Some (_, v) => Ok (VMap l, v)
                end
    end in
  match m with
  | VNil => go []
  | VMap l => go l
  | _ => Throw "not modelled"
  end.

(** /repo/lube/config.cpp 161-168: [Config::configSection]. *)
Definition configSection (sConfig iSection : val) : outcome (val * val) :=
  let* (sConfig, _) := subscript sConfig iSection in Ok (sConfig, iSection).
(** /repo/lube/config.cpp 132-139: the constructor.  [sConfig\[nil\]] makes a map of nil. *)
Definition config_ctor (sConfig iSection : val) : outcome (val * val) :=
  let* sConfig := if vdefined sConfig then Ok sConfig
                  else let* (m, _) := subscript sConfig VNil in Ok m in
  configSection sConfig iSection.

(** /repo/lube/config.cpp 153-157: the inner merge loop; [secval\[entry\]] finds the entry
    at hand. *)
Fixpoint merge_entries (sConfig seckey : val) (l : list (val * val)) : outcome val :=
  match l with
  | [] => Ok sConfig
  | (entry, x) :: t =>
    let* sConfig := assign2 (VNil, VNil) sConfig seckey entry x in
    merge_entries sConfig seckey t
  end.
(** /repo/lube/config.cpp 149-158: the outer loop.  [secval.size()] of a scalar would be 1,
    but ini files deliver maps only. *)
Fixpoint merge_sections (sConfig : val) (l : list (val * val)) : outcome val :=
  match l with
  | [] => Ok sConfig
  | (seckey, secval) :: t =>
    match secval with
    | VMap s => let* sConfig := merge_entries sConfig seckey s in merge_sections sConfig t
    | VNil => merge_sections sConfig t
    | _ => Throw "not modelled"
    end
  end.
(** /repo/lube/config.cpp 141-159: [Config::configFile] on the content of the file. *)
Definition configFile (sConfig : val) (content : str) : outcome val :=
  let* cnf := ini_read content in
  match cnf with
  | VMap l => merge_sections sConfig l
  | _ => Ok sConfig
  end.

(** /repo/lube/config.cpp 170-176: [Config::config(var)].  [sec.index(iEntry)] is an ind, -1
    being false. *)
Definition config_get (sConfig mSection iEntry : val) : outcome (val * val) :=
  let* (sConfig, sec) := subscript sConfig mSection in
  if vdefined sec then
    let* i := index sec iEntry in
    if i =? -1 then Ok (sConfig, VNil)
    else let* (_, v) := subscript sec iEntry in Ok (sConfig, v)
  else Ok (sConfig, VNil).
(** /repo/lube/config.cpp 178-183: [Config::configSet]. *)
Definition configSet (sConfig mSection iEntry iValue : val) : outcome val :=
  if vdefined mSection then assign2 (VNil, VNil) sConfig mSection iEntry iValue
  else Ok sConfig.
(** /repo/lube/config.cpp 193-200: [Config::config<T>(var, T)] for a numeric type, with the
    cast of /repo/lube/var.cpp 646-700. *)
Definition config_num (t : ety) (sConfig mSection iEntry : val) (iDefault : val) : outcome (val * val) :=
  let* (sConfig, sec) := subscript sConfig mSection in
  if vdefined sec then
    let* i := index sec iEntry in
    if i =? -1 then Ok (sConfig, iDefault)
    else let* (_, v) := subscript sec iEntry in
         let* r := cast t v in Ok (sConfig, r)
  else Ok (sConfig, iDefault).

(** /repo/lube/inifile.cpp 74-81: [inifile::write] of a map: each element is written with
    operator << (the JSON formatter) and a newline; the keys are not written. *)
Definition ini_write (fmtf : spec_float -> str) (l : list (val * val)) : str :=
  List.concat (map (fun p => format fmtf (snd p) 0 ++ [10]) l).
