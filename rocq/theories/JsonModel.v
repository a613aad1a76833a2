(** JSON reader and writer: /repo/lube/json.cpp. *)
From Coq Require Import ZArith Bool List String Ascii.
From Coq.Floats Require Import SpecFloat.
From Verif Require Import Base StrModel ValModel NumModel.
Import ListNotations.
Local Open Scope list_scope.
Local Open Scope Z_scope.

(** Text literals as lists of chars. *)
Fixpoint txt (s : string) : str :=
  match s with
  | EmptyString => []
  | String a t => Z.of_nat (nat_of_ascii a) :: txt t
  end.

(** * The input stream

    [js_ff] is true for a varstream, which reports the byte 0xFF as end-of-file
    (/repo/lube/stream.cpp 50-69), and false for file and string streams.  The state
    bits follow libstdc++'s istream. *)
Record jstream := { js_rest : str; js_eof : bool; js_fail : bool; js_ff : bool }.
Definition js_open (ff : bool) (s : str) : jstream :=
  {| js_rest := s; js_eof := false; js_fail := false; js_ff := ff |}.
Definition js_good (s : jstream) : bool := negb (js_eof s || js_fail s).
Definition js_set (s : jstream) (r : str) (e f : bool) : jstream :=
  {| js_rest := r; js_eof := js_eof s || e; js_fail := js_fail s || f; js_ff := js_ff s |}.

(** istream::peek() and istream::get(), converted to char; [get] also tells whether a
    character was delivered. *)
Definition s_peek (s : jstream) : Z * jstream :=
  if js_good s then
    match js_rest s with
    | [] => (-1, js_set s [] true false)
    | c :: _ => if js_ff s && (c =? -1) then (-1, js_set s (js_rest s) true false) else (c, s)
    end
  else (-1, js_set s (js_rest s) false true).
Definition s_get (s : jstream) : option Z * jstream :=
  if js_good s then
    match js_rest s with
    | [] => (None, js_set s [] true true)
    | c :: t => if js_ff s && (c =? -1) then (None, js_set s t true true)
                else (Some c, js_set s t false false)
    end
  else (None, js_set s (js_rest s) false true).
Definition char_or_eof (o : option Z) : Z := match o with Some c => c | None => -1 end.

(** * Reading *)

(** /repo/lube/json.cpp 45-54: [JSON::peek].  Every round removes one character. *)
Fixpoint j_peek (fuel : nat) (s : jstream) : outcome (Z * jstream) :=
  match fuel with
  | O => Fuel
  | S f => let (c, s) := s_peek s in
           if isspace c then j_peek f (snd (s_get s)) else Ok (c, s)
  end.
Definition jpeek (s : jstream) : outcome (Z * jstream) := j_peek (S (List.length (js_rest s))) s.

(** /repo/lube/json.cpp 134-162: [JSON::doString], the loop at 140-159. *)
Fixpoint string_loop (fuel : nat) (acc : str) (s : jstream) : outcome (str * jstream) :=
  match fuel with
  | O => Fuel
  | S f =>
    let (o, s) := s_get s in
    match o with
    | None => Throw "Unterminated JSON string"
    | Some got =>
      if got =? 34 then Ok (acc, s)
      else if got =? 92 then
        let (o, s) := s_get s in
        if char_or_eof o =? 34 then string_loop f (acc ++ [34]) s
        else Throw "Unrecognised JSON string escape"
      else string_loop f (acc ++ [got]) s
    end
  end.
Definition doString (s : jstream) : outcome (str * jstream) :=
  let (o, s) := s_get s in
  if negb (char_or_eof o =? 34) then Throw "JSON string doesn't start with """
  else string_loop (S (List.length (js_rest s))) [] s.

(** strchr(",[]{}", c), /repo/lube/json.cpp 194; the terminator is found too. *)
Definition delim (c : Z) : bool :=
  (c =? 44) || (c =? 91) || (c =? 93) || (c =? 123) || (c =? 125) || (c =? 0).

(** /repo/lube/json.cpp 190-197, the loop of [JSON::doRaw]. *)
Fixpoint raw_loop (fuel : nat) (acc : str) (s : jstream) : outcome (str * jstream) :=
  match fuel with
  | O => Fuel
  | S f =>
    let (o, s) := s_get s in
    match o with
    | None => Ok (acc, s)
    | Some c => if isspace c then Ok (acc, s)
                else if delim c then Ok (acc, s)
                else raw_loop f (acc ++ [c]) s
    end
  end.

(** [val == "..."] on two strings, /repo/lube/json.cpp 200-204; see [veq] in ValModel.v. *)
Definition vstr (s : str) : val := VArr TChar (map VChar s).
Definition str_eq (s t : str) : outcome bool := veq (vstr s) (vstr t).

(** /repo/lube/json.cpp 185-216: [JSON::doRaw]. *)
Definition raw_value (v : str) : outcome val :=
  let* t := str_eq v (txt "true") in
  if t : bool then Ok (VInt 1) else
  let* t := str_eq v (txt "false") in
  if t : bool then Ok (VInt 0) else
  let* t := str_eq v (txt "null") in
  if t : bool then Ok VNil else
  let num := toNumber v in
  if vdefined num then Ok num else Throw "Unrecognised JSON raw value: ".
Definition doRaw (s : jstream) : outcome (val * jstream) :=
  let* (v, s) := raw_loop (S (List.length (js_rest s))) [] s in
  let* r := raw_value v in
  Ok (r, s).

(** /repo/lube/json.cpp 56-132: [JSON::doValue], and the loops of [JSON::doObject] (84-106)
    and [JSON::doArray] (116-130) with the variables obj, key and arr as arguments.  The
    opening character has been seen by peek in doValue, so the tests at 82 and 114 read
    it again.  Recursion depth (C++ stack) is not bounded here. *)
Fixpoint doValue (fuel : nat) (s : jstream) {struct fuel} : outcome (val * jstream) :=
  match fuel with
  | O => Fuel
  | S f =>
    let* (c, s) := jpeek s in
    if c =? 123 then
      let (o, s) := s_get s in
      if negb (char_or_eof o =? 123) then Throw "JSON object doesn't start with {"
      else object_loop f (VMap []) VNil s
    else if c =? 91 then
      let (o, s) := s_get s in
      if negb (char_or_eof o =? 91) then Throw "JSON array doesn't start with ["
      else array_loop f VNil s
    else if c =? 34 then
      let* (r, s) := doString s in Ok (vstr r, s)
    else doRaw s
  end
with object_loop (fuel : nat) (obj key : val) (s : jstream) {struct fuel} : outcome (val * jstream) :=
  match fuel with
  | O => Fuel
  | S f =>
    if js_fail s then Ok (obj, s) else
    let* (c, s) := jpeek s in
    if c =? 125 then Ok (obj, snd (s_get s))
    else if c =? 34 then
      let* (k, s) := doString s in object_loop f obj (vstr k) s
    else if c =? 58 then
      let s := snd (s_get s) in
      let* (v, s) := doValue f s in
      let* obj := assign (VNil, VNil) obj key v in
      object_loop f obj key s
    else if c =? 44 then object_loop f obj VNil (snd (s_get s))
    else Throw "Unknown character"
  end
with array_loop (fuel : nat) (arr : val) (s : jstream) {struct fuel} : outcome (val * jstream) :=
  match fuel with
  | O => Fuel
  | S f =>
    if js_fail s then Ok (arr, s) else
    let* (c, s) := jpeek s in
    if c =? 93 then Ok (arr, snd (s_get s))
    else if c =? 44 then array_loop f arr (snd (s_get s))
    else let* (v, s) := doValue f s in
         let* arr := push arr v in
         array_loop f arr s
  end.

(** /repo/lube/json.cpp 223-235: [stream >> var].  The fuel suffices for every stream
    (theorem C39). *)
Definition read_var (s : jstream) : outcome (val * jstream) :=
  doValue (2 * List.length (js_rest s) + 4) s.
(** Reading a var from a text held in a stream of either kind. *)
Definition parse (ff : bool) (s : str) : outcome val :=
  let* (v, _) := read_var (js_open ff s) in Ok v.

(** * Writing *)

(** [ostream << long] (and int). *)
Fixpoint udec (fuel : nat) (z : Z) (acc : str) : str :=
  match fuel with
  | O => acc
  | S f => if z <? 10 then (48 + z) :: acc else udec f (z / 10) ((48 + z mod 10) :: acc)
  end.
Definition dec (z : Z) : str :=
  if z <? 0 then 45 :: udec (Z.to_nat (Z.log2 (- z) + 1)) (- z) []
  else udec (Z.to_nat (Z.log2 z + 1)) z [].

Definition spaces (n : nat) : str := repeat 32 n.

(** Comma separated items of a dense array, /repo/lube/json.cpp 361-366. *)
Fixpoint sep_items (l : list str) : str :=
  match l with
  | [] => []
  | x :: t => match t with [] => x | _ :: _ => x ++ txt ", " ++ sep_items t end
  end.

(** /repo/lube/json.cpp 242-369: [JSON::format] and [JSON::formatArray].  [fmtf] is
    [ostream << double], left abstract.  Views are formatted by formatView (372-434), see
    ShowModel. *)
Fixpoint format (fmtf : spec_float -> str) (v : val) (iIndent : nat) {struct v} : str :=
  match v with
  | VNil => txt "null"
  | VChar c => 39 :: c :: [39]
  | VInt z | VLong z => dec z
  | VFloat f | VDouble f => fmtf f
  | VArr TChar l => 34 :: c_str (map char_of l) ++ [34]
  | VArr TVar l =>
    91 :: 10 ::
    (fix items (l : list val) : str :=
       match l with
       | [] => []
       | x :: t => spaces (iIndent + 2) ++ format fmtf x (iIndent + 2) ++
                   match t with [] => [] | _ :: _ => [44] end ++ [10] ++ items t
       end) l ++
    spaces iIndent ++ [93]
  | VArr _ l => 91 :: sep_items (map (fun x => format fmtf x 0) l) ++ [93]
  | VMap l =>
    123 ::
    (fix items (l : list (val * val)) : str :=
       match l with
       | [] => []
       | (k, x) :: t => [10] ++ spaces (iIndent + 2) ++ format fmtf k 0 ++ [58; 32] ++
                        format fmtf x (iIndent + 2) ++
                        match t with [] => [] | _ :: _ => [44] end ++ items t
       end) l ++
    match l with [] => [] | _ :: _ => 10 :: spaces iIndent end ++ [125]
  | VView _ _ _ => []
  end.
