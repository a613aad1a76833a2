(** varstream: /repo/lube/stream.cpp, and the std::iostream members through which a program
    uses it.

    The buffer [varbuf] is unbuffered (setp(0,0), setg(0,0,0), stream.cpp 33-34), so every
    character goes through the virtual functions below.  The rules of std::istream and
    std::ostream (sentry, state bits, catching exceptions thrown by the buffer) are those
    of libstdc++ with the default exception mask. *)
From Coq Require Import ZArith Bool List.
From Verif Require Import Base StrModel.
Import ListNotations.
Local Open Scope Z_scope.

(** traits_type::eof(). *)
Definition EOF : Z := -1.
(** traits_type::to_int_type(char). *)
Definition to_int (c : Z) : Z := c mod 256.

(** The members mVar (a char array) and mInd, /repo/lube/var.h 260-261. *)
Record varbuf := { vb_str : str; vb_ind : Z }.

(** /repo/lube/stream.cpp 39-48.  [mVar.push(int)] on a char array stores the low byte
    (/repo/lube/var.cpp 1087, 289, 129). *)
Definition overflow (b : varbuf) (iInt : Z) : Z * varbuf :=
  if negb (iInt =? EOF)
  then (iInt, {| vb_str := vb_str b ++ [wrap_char iInt]; vb_ind := vb_ind b |})
  else (iInt, b).

(** [mVar\[i\].get<char>()], /repo/lube/var.cpp 711-721: [None] is the exception thrown for
    a negative index.  The callers have checked [i < size()]. *)
Definition char_at (s : str) (i : Z) : option Z :=
  if i <? 0 then None else nth_error s (Z.to_nat i).

Definition size (b : varbuf) : Z := Z.of_nat (length (vb_str b)).
Definition set_ind (b : varbuf) (i : Z) : varbuf := {| vb_str := vb_str b; vb_ind := i |}.

(** /repo/lube/stream.cpp 50-61; 63-69; 71-78; 80-88. *)
Definition uflow (b : varbuf) : option Z * varbuf :=
  if vb_ind b <? size b then (char_at (vb_str b) (vb_ind b), set_ind b (vb_ind b + 1))
  else (Some EOF, b).
Definition underflow (b : varbuf) : option Z :=
  if vb_ind b <? size b then char_at (vb_str b) (vb_ind b) else Some EOF.
Definition pbackfail (b : varbuf) : option Z * varbuf :=
  if 0 <? vb_ind b then (char_at (vb_str b) (vb_ind b - 1), set_ind b (vb_ind b - 1))
  else (Some EOF, b).
(** [mInd] is an int, the position is wider (std::streampos). *)
Definition seekpos (b : varbuf) (iPos : Z) : Z * varbuf :=
  if iPos <? size b then (iPos, set_ind b (wrap 32 iPos)) else (iPos, b).
(** std::streambuf::seekoff, which varbuf does not override (/repo/lube/var.h 252-258): it reports
    that it failed. *)
Definition seekoff (b : varbuf) (iOff : Z) : Z * varbuf := (-1, b).

(** A varstream: the buffer and the state bits shared by its istream and ostream halves. *)
Record varstream := { vs_buf : varbuf; vs_eof : bool; vs_fail : bool; vs_bad : bool }.

(** /repo/lube/stream.cpp 19-36 and 90-97, on a string. *)
Definition open_stream (s : str) : varstream :=
  {| vs_buf := {| vb_str := s; vb_ind := 0 |}; vs_eof := false; vs_fail := false; vs_bad := false |}.

Definition good (v : varstream) : bool := negb (vs_eof v || vs_fail v || vs_bad v).
Definition with_buf (v : varstream) (b : varbuf) : varstream :=
  {| vs_buf := b; vs_eof := vs_eof v; vs_fail := vs_fail v; vs_bad := vs_bad v |}.
Definition setstate (v : varstream) (e f b : bool) : varstream :=
  {| vs_buf := vs_buf v; vs_eof := vs_eof v || e; vs_fail := vs_fail v || f; vs_bad := vs_bad v || b |}.

(** std::istream::get(): the int returned. *)
Definition get (v : varstream) : Z * varstream :=
  if good v then
    match uflow (vs_buf v) with
    | (None, b) => (EOF, setstate (with_buf v b) false true true)
    | (Some c, b) => if c =? EOF then (EOF, setstate (with_buf v b) true true false)
                     else (c, with_buf v b)
    end
  else (EOF, setstate v false true false).

(** std::istream::peek(). *)
Definition peek (v : varstream) : Z * varstream :=
  if good v then
    match underflow (vs_buf v) with
    | None => (EOF, setstate v false false true)
    | Some c => if c =? EOF then (EOF, setstate v true false false) else (c, v)
    end
  else (EOF, setstate v false true false).

(** std::istream::unget() and putback(c): eofbit is cleared first; the character given to
    putback is ignored by pbackfail. *)
Definition unget (v : varstream) : varstream :=
  let v := {| vs_buf := vs_buf v; vs_eof := false; vs_fail := vs_fail v; vs_bad := vs_bad v |} in
  if good v then
    match pbackfail (vs_buf v) with
    | (None, b) => setstate (with_buf v b) false false true
    | (Some c, b) => if c =? EOF then setstate (with_buf v b) false false true else with_buf v b
    end
  else setstate v false true false.

(** std::ostream::put(c). *)
Definition put (v : varstream) (c : Z) : varstream :=
  if good v then
    let (r, b) := overflow (vs_buf v) (to_int c) in
    if r =? EOF then setstate (with_buf v b) false false true else with_buf v b
  else setstate v false true false.

(** std::ostream << string: std::streambuf::xsputn calls overflow for every character. *)
Fixpoint write (v : varstream) (s : str) : varstream :=
  match s with
  | [] => v
  | c :: t => write (put v c) t
  end.

(** std::ios::clear(). *)
Definition clear (v : varstream) : varstream :=
  {| vs_buf := vs_buf v; vs_eof := false; vs_fail := false; vs_bad := false |}.

(** std::istream::seekg(pos). *)
Definition seekg (v : varstream) (p : Z) : varstream :=
  let v := {| vs_buf := vs_buf v; vs_eof := false; vs_fail := vs_fail v; vs_bad := vs_bad v |} in
  if good v then
    let (r, b) := seekpos (vs_buf v) p in
    if r =? -1 then setstate (with_buf v b) false true false else with_buf v b
  else setstate v false true false.

(** std::istream::seekg(offset, direction); what the offset is relative to makes no difference. *)
Definition seekg_rel (v : varstream) (o : Z) : varstream :=
  let v := {| vs_buf := vs_buf v; vs_eof := false; vs_fail := vs_fail v; vs_bad := vs_bad v |} in
  if good v then
    let (r, b) := seekoff (vs_buf v) o in
    if r =? -1 then setstate (with_buf v b) false true false else with_buf v b
  else setstate v false true false.

(** std::istream::tellg(): the position returned. *)
Definition tellg (v : varstream) : Z * varstream :=
  if good v then let (r, b) := seekoff (vs_buf v) 0 in (r, with_buf v b)
  else (-1, setstate v false true false).

(** std::ostream::seekp(pos): the same virtual function, which ignores the mode it is given; only
    a failed stream is refused, and the bit of the end of file stays. *)
Definition seekp (v : varstream) (p : Z) : varstream :=
  if vs_fail v || vs_bad v then v else
  let (r, b) := seekpos (vs_buf v) p in
  if r =? -1 then setstate (with_buf v b) false true false else with_buf v b.

(** Programs over a varstream and what they observe. *)
Inductive sop := Put (c : Z) | Get | Peek | Unget | Clear | Seek (p : Z) | SeekRel (o : Z) | Tell | SeekPut (p : Z).
Definition step (v : varstream) (o : sop) : option Z * varstream :=
  match o with
  | Put c => (None, put v c)
  | Get => let (c, v) := get v in (Some c, v)
  | Peek => let (c, v) := peek v in (Some c, v)
  | Unget => (None, unget v)
  | Clear => (None, clear v)
  | Seek p => (None, seekg v p)
  | SeekRel o => (None, seekg_rel v o)
  | Tell => let (c, v) := tellg v in (Some c, v)
  | SeekPut p => (None, seekp v p)
  end.
Fixpoint run (v : varstream) (ops : list sop) : list (option Z) * varstream :=
  match ops with
  | [] => ([], v)
  | o :: t => let (x, v) := step v o in
              let (xs, v) := run v t in (x :: xs, v)
  end.
