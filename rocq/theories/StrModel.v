(** String methods of var: /repo/lube/string.cpp, /repo/lube/utf8.cpp.

    A string var is a dense char array; here it is the list of its chars.  A char is a
    [Z] between -128 and 127 (signed char).  The terminator that [Heap::resize] keeps at
    index size() (/repo/lube/heap.cpp 266-268) is not part of the list. *)
From Coq Require Import ZArith Bool List.
From Verif Require Import Base.
Import ListNotations.
Local Open Scope Z_scope.

Notation str := (list Z) (only parsing).

(** What a C string function sees through [var::str()] (/repo/lube/var.cpp 194-200): the
    chars up to the first NUL.  Modelled for heap strings and nil only. *)
Fixpoint c_str (s : str) : str :=
  match s with
  | [] => []
  | c :: t => if c =? 0 then [] else c :: c_str t
  end.

(** isspace in the C locale; negative chars are not space. *)
Definition isspace (c : Z) : bool := (c =? 32) || ((9 <=? c) && (c <=? 13)).

(** std::toupper / std::tolower in the C locale. *)
Definition c_toupper (c : Z) : Z := if (97 <=? c) && (c <=? 122) then c - 32 else c.
Definition c_tolower (c : Z) : Z := if (65 <=? c) && (c <=? 90) then c + 32 else c.

(** strstr on C strings: offset of the first occurrence. *)
Fixpoint prefixb (p s : str) : bool :=
  match p, s with
  | [], _ => true
  | x :: p', y :: s' => (x =? y) && prefixb p' s'
  | _ :: _, [] => false
  end.
Fixpoint strstr (s p : str) : option nat :=
  if prefixb p s then Some O
  else match s with
       | [] => None
       | _ :: t => option_map S (strstr t p)
       end.

(** /repo/lube/string.cpp 155-164, the while loop of [split(const char*, int)].
    [r] is the result so far, [source] the rest of the C string. *)
Fixpoint split_loop (fuel : nat) (iStr : str) (iMax : Z) (source : str) (r : list str)
  : outcome (list str * str) :=
  match fuel with
  | O => Fuel
  | S f =>
    match strstr source iStr with
    | None => Ok (r, source)
    | Some len =>
      let s := firstn len source in
      let r := r ++ [s] in
      let source := skipn (len + length iStr) source in
      if negb (iMax =? 0) && (iMax - 1 <=? Z.of_nat (length r)) then Ok (r, source)
      else split_loop f iStr iMax source r
    end
  end.

(** /repo/lube/string.cpp 148-168: [var::split(const char* iStr, int iMax)].  The
    result is the array of vars built by the pushes; each piece is a fresh string.
    [iMax - 1] is assumed not to overflow. *)
Definition split (fuel : nat) (self iStr : str) (iMax : Z) : outcome (list str) :=
  let iStr := c_str iStr in
  let source := c_str self in
  let* (r, source) := if negb (iMax =? 1) then split_loop fuel iStr iMax source []
                      else Ok ([], source) in
  Ok (r ++ [source]).

(** [while (std::isspace( *p)) { ++p; }] and [while ( *p && !isspace( *p)) ++p]. *)
Fixpoint skip_space (p : str) : str :=
  match p with
  | [] => []
  | c :: t => if isspace c then skip_space t else p
  end.
Fixpoint take_word (p : str) : str * str :=
  match p with
  | [] => ([], [])
  | c :: t => if isspace c then ([], p)
              else let (w, rest) := take_word t in (c :: w, rest)
  end.

(** /repo/lube/string.cpp 183-203, the main loop of [split(int)]. *)
Fixpoint wsplit_loop (fuel : nat) (iMax : Z) (p : str) (r : list str) : outcome (list str) :=
  match fuel with
  | O => Fuel
  | S f =>
    match p with
    | [] => Ok r
    | _ :: _ =>
      let (w, p) := take_word p in
      let r := match w with [] => r | _ :: _ => r ++ [w] end in
      let p := skip_space p in
      if negb (iMax =? 0) && (iMax - 1 <=? Z.of_nat (length r)) then
        match p with
        | [] => wsplit_loop f iMax p r
        | _ :: _ => Ok (r ++ [p])
        end
      else wsplit_loop f iMax p r
    end
  end.

(** /repo/lube/string.cpp 177-206: [var::split(int iMax)].  The empty list stands for
    the undefined var that is returned when nothing was pushed. *)
Definition wsplit (fuel : nat) (self : str) (iMax : Z) : outcome (list str) :=
  wsplit_loop fuel iMax (skip_space (c_str self)) [].

(** Element write on a dense array. *)
Fixpoint set_nth {A} (l : list A) (i : nat) (x : A) : list A :=
  match l, i with
  | [], _ => []
  | _ :: t, O => x :: t
  | y :: t, S j => y :: set_nth t j x
  end.

(** /repo/lube/var.cpp 1129-1137, the dense branch of [var::insert], for two different
    arrays of the same element type: resize, then shift up from the end, then copy.
    [junk] is the content of the cells exposed by resize.  The caller has checked
    [iIndex <= size()] (lines 1106-1107). *)
Fixpoint shift_up {A} (a : list A) (k : nat) (i lo : nat) (d : A) (n : nat) : list A :=
  (* i runs downwards from its start while i >= lo + k, n steps *)
  match n with
  | O => a
  | S m => shift_up (set_nth a i (nth (i - k) a d)) k (i - 1) lo d m
  end.
Fixpoint copy_in {A} (a x : list A) (at_ : nat) : list A :=
  match x with
  | [] => a
  | y :: t => copy_in (set_nth a at_ y) t (S at_)
  end.
Definition dense_insert {A} (junk : A) (a x : list A) (iIndex : nat) : list A :=
  let n := length a in
  let k := length x in
  let a := a ++ repeat junk k in
  let a := shift_up a k (n + k - 1) iIndex junk (n - iIndex) in
  copy_in a x iIndex.

(** /repo/lube/string.cpp 208-227: [var::join] on an array of vars whose elements are all
    strings.  (On a string it returns the string itself; on nil it throws.) *)
Fixpoint join_loop (first : bool) (sep : str) (l : list str) (r : str) : str :=
  match l with
  | [] => r
  | x :: t =>
    let r := if first then dense_insert 0 r x 0
             else let r := dense_insert 0 r sep (length r) in
                  dense_insert 0 r x (length r) in
    join_loop false sep t r
  end.
Definition join (self : list str) (iStr : str) : str :=
  join_loop true (c_str iStr) self [].

(** /repo/lube/string.cpp 235-240: the two counting loops of [Strip::string]. *)
Fixpoint count_space (s : str) : nat :=
  match s with
  | [] => O
  | c :: t => if isspace c then S (count_space t) else O
  end.

(** memmove(op, op+src, n) inside a buffer. *)
Definition memmove_down {A} (a : list A) (src n : nat) : list A :=
  firstn n (skipn src a) ++ skipn n a.

(** /repo/lube/string.cpp 230-249: [Strip::string] in place ([s.strip()]).  A negative
    length handed to memmove becomes a huge size_t. *)
Definition strip_inplace (s : str) : outcome str :=
  let is := Z.of_nat (length s) in
  let leading := count_space s in
  let trailing := count_space (rev s) in
  let newSize := is - Z.of_nat leading - Z.of_nat trailing in
  let* s := if (0 <? Z.of_nat leading) then
              if newSize <? 0 then UB BadSize
              else Ok (memmove_down s leading (Z.to_nat newSize))
            else Ok s in
  if newSize =? is then Ok s
  else if newSize <? 0 then UB AssertFail          (* var.cpp 918 *)
  else Ok (firstn (Z.to_nat newSize) s).

(** /repo/lube/string.cpp 230-257: [libube::strip(s)] returning a new string.  [op] was
    taken from the storage allocated by StringFunctor::alloc (string.cpp 39-44); the
    assignment [oVar = ""] (line 252) drops the only handle on that storage, so the loop
    at 254-255 writes to freed memory as soon as it runs once. *)
Definition strip_outofplace (s : str) : outcome str :=
  let is := Z.of_nat (length s) in
  let leading := count_space s in
  let trailing := count_space (rev s) in
  let newSize := is - Z.of_nat leading - Z.of_nat trailing in
  if newSize <? 0 then UB AssertFail               (* var.cpp 918 *)
  else if newSize =? 0 then Ok []
  else UB UseAfterFree.

(** /repo/lube/string.cpp 319-345. *)
Definition str_toupper (s : str) : str := map c_toupper s.
Definition str_tolower (s : str) : str := map c_tolower s.

(** /repo/lube/utf8.cpp 47-71.  [p] is the memory from the given pointer to the end of
    the valid part of the buffer. *)
Definition rd (p : str) (i : nat) : outcome Z :=
  match nth_error p i with Some c => Ok c | None => UB OutOfBounds end.
Fixpoint utf8_cont (p : str) (i n : nat) : outcome bool :=
  match n with
  | O => Ok true
  | S m => let* c := rd p i in
           if negb (Z.land c 192 =? 128) then Ok false else utf8_cont p (S i) m
  end.
Definition utf8len (p : str) : outcome Z :=
  let* c := rd p 0 in
  if Z.land c 128 =? 0 then Ok 1 else
  let len := if Z.land c 224 =? 192 then 2
             else if Z.land c 240 =? 224 then 3
             else if Z.land c 248 =? 240 then 4 else 0 in
  if len =? 0 then Ok 0 else
  let* ok := utf8_cont p 1 (Z.to_nat (len - 1)) in
  if ok : bool then Ok len else Ok 0.

(** /repo/lube/utf8.cpp 76-94: [var::len] on a string.  The buffer is the string and its
    terminator. *)
Fixpoint len_loop (fuel : nat) (s : str) (clen code : Z) : outcome Z :=
  match fuel with
  | O => Fuel
  | S f =>
    if clen <? Z.of_nat (length s) then
      let* l := utf8len (skipn (Z.to_nat clen) (s ++ [0])) in
      if l =? 0 then Ok (-1) else len_loop f s (clen + l) (code + 1)
    else if clen =? Z.of_nat (length s) then Ok code else Ok (-1)
  end.
Definition len (s : str) : outcome Z := len_loop (S (length s)) s 0 0.

(** An std::istream without exceptions: the bytes left (as signed chars) and the eofbit. *)
Record istream := { is_rest : str; is_eof : bool }.
Definition mkis (l : str) : istream := {| is_rest := l; is_eof := false |}.

(** istream::peek() sets eofbit at the end of the data. *)
Definition is_peek (is : istream) : istream :=
  match is_rest is with
  | [] => {| is_rest := []; is_eof := true |}
  | _ => is
  end.
(** istream::get(): at the end the result is EOF, which becomes (char)-1. *)
Definition is_get (is : istream) : Z * istream :=
  match is_rest is with
  | [] => (-1, {| is_rest := []; is_eof := true |})
  | c :: t => (c, {| is_rest := t; is_eof := is_eof is |})
  end.

(** [resize(n)] on a string buffer: [buf] holds size+1 cells, the last being the
    terminator. New cells have unknown content (modelled by 0). *)
Definition buf_resize (buf : str) (n : nat) : str :=
  set_nth (firstn (S n) (buf ++ repeat 0 (S n))) n 0.

(** /repo/lube/string.cpp 124-137. *)
Fixpoint getline_loop (fuel : nat) (is : istream) (buf : str) (read size : nat)
  : outcome (str * nat * istream) :=
  match fuel with
  | O => Fuel
  | S f =>
    if is_eof is then Ok (buf, read, is) else
    let (c, is) := is_get is in
    if c =? 10 then Ok (buf, read, is) else
    if Nat.leb (length buf) read then UB OutOfBounds else
    let buf := set_nth buf read c in
    let read := S read in
    if Nat.eqb read size then
      let size := ((size + 1) * 2 - 1)%nat in
      getline_loop f is (buf_resize buf size) read size
    else getline_loop f is buf read size
  end.

(** /repo/lube/string.cpp 106-140: [var::getline].  [None] is nil (end of file).  [old]
    is the previous content of the variable when it was a string (its array is re-used),
    [] otherwise; int overflow of the buffer size is not modelled. *)
Definition getline (fuel : nat) (old : str) (is : istream) : outcome (option str * istream) :=
  let is := is_peek is in
  if is_eof is then Ok (None, is) else
  let buf := buf_resize (old ++ [0]) 63 in
  let* (buf, read, is) := getline_loop fuel is buf 0 63 in
  Ok (Some (firstn read (buf_resize buf read)), is).

(** /repo/lube/txtfile.cpp 33-44: [txtfile::read] on the content of the file. *)
Fixpoint txt_read_loop (fuel : nat) (is : istream) (f : str) (o : list str) : outcome (list str) :=
  match fuel with
  | O => Fuel
  | S n =>
    let* (l, is) := getline (2 + length (is_rest is)) f is in
    match l with
    | None => Ok o
    | Some f => txt_read_loop n is f (o ++ [f])
    end
  end.
Definition txt_read (content : str) : outcome (list str) :=
  txt_read_loop (2 + length content) (mkis content) [] [].

(** /repo/lube/txtfile.cpp 46-53: [txtfile::write] on an array of strings:
    [os << iVar.at(i) << std::endl], where << is the JSON formatter
    (/repo/lube/json.cpp 297-301: quote, C string, quote). *)
Definition txt_write (l : list str) : str :=
  concat (map (fun s => [34] ++ c_str s ++ [34] ++ [10]) l).
