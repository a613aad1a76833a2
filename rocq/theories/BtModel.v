(** The call stack in the text of an error: [error::backTrace] of /repo/lube/var.cpp, for a system
    that has [backtrace], which is what [HAVE_BACKTRACE] says. *)
From Coq Require Import ZArith Bool List String Ascii DecimalString.
Import ListNotations.
Local Open Scope list_scope.
Local Open Scope nat_scope.

(** A C string without the NUL at its end; no char in it is NUL. *)
Definition text := list ascii.
Definition txt (s : string) : text := list_ascii_of_string s.
(** [strchr]: where the first such char is, if there is one. *)
Fixpoint strchr (s : text) (c : ascii) : option nat :=
  match s with
  | [] => None
  | d :: s => if Ascii.eqb d c then Some 0 else match strchr s c with Some n => Some (S n) | None => None end
  end.
Definition newline : text := ["010"%char].
(** What [abi::__cxa_demangle] gives for a name: the status, and the text in the buffer it
    returns if the status is 0.  Otherwise it returns no buffer and leaves the one it was given. *)
Definition demangler := text -> Z * text.
(** The function so far: the text written, how many blocks are allocated, of which one is the array
    of symbols, and whether [buffer] is not null. *)
Record bt := { b_out : text; b_live : nat; b_buf : bool }.
(** A function returns, or writes through a null pointer. *)
Inductive bres (A : Type) := BDone (x : A) | BNull.
Arguments BDone {A} x.
Arguments BNull {A}.
(** [case 0] to [case -3], var.cpp 1578-1592. *)
Definition shown (status : Z) (buffer name : text) : text :=
  if (status =? 0)%Z then buffer
  else if (status =? -1)%Z then txt "Memory fuckup"
  else if (status =? -2)%Z then name
  else if (status =? -3)%Z then txt "Invalid"
  else [].
(** One turn of the loop, var.cpp 1558-1593: the state, and whether the function returns there.
    The buffer is null after a name that is not demangled, so the next that is makes a new one. *)
Definition frame (dm : demangler) (symbol : text) (b : bt) : bres (bt * bool) :=
  let paren1 := strchr symbol "(" in
  let paren2 := strchr symbol ")" in
  match paren1 with
  | None => BNull
  | Some p1 =>
    if match paren2 with Some p2 => Nat.eqb p2 (p1 + 1) | None => false end
    then BDone ({| b_out := b_out b ++ txt "(undefined)"; b_live := b_live b; b_buf := b_buf b |}, true)
    else
      let rest := skipn (p1 + 1) symbol in
      match strchr rest "+" with
      | None => BNull
      | Some p =>
        let name := firstn p rest in
        let (status, buffer) := dm name in
        let ok := (status =? 0)%Z in
        BDone ({| b_out := b_out b ++ newline ++ txt "  " ++ shown status buffer name;
                  b_live := if ok && negb (b_buf b) then S (b_live b) else b_live b;
                  b_buf := ok |}, false)
      end
  end.
Fixpoint frames (dm : demangler) (symbols : list text) (b : bt) : bres (bt * bool) :=
  match symbols with
  | [] => BDone (b, false)
  | s :: l => match frame dm s b with
              | BDone (b, false) => frames dm l b
              | r => r
              end
  end.
(** An int as the stream writes it. *)
Definition decimal (n : nat) : text := txt (NilEmpty.string_of_uint (Nat.to_uint n)).
(** [error::backTrace], var.cpp 1539-1597: the text it adds to that of the error, and how many blocks
    of memory are left allocated.  The list is what [backtrace_symbols] gives, of at most 64 symbols,
    and it gives none if it fails.  That [malloc] of the buffer succeeds is assumed. *)
Definition backTrace (dm : demangler) (symbols : option (list text)) : bres (text * nat) :=
  match symbols with
  | None => BDone (newline ++ txt "  backtrace_symbols() failed", 0)
  | Some l =>
    let b := {| b_out := newline ++ txt "Call stack (size " ++ decimal (List.length l) ++ txt "):"; b_live := 2; b_buf := true |} in
    match frames dm l b with
    | BNull => BNull
    | BDone (b, true) => BDone (b_out b, b_live b)
    | BDone (b, false) => BDone (b_out b, b_live b - (if b_buf b then 1 else 0) - 1)
    end
  end.
