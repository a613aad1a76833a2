(** /repo/lube/curl.cpp: what a transfer returns.

    libcurl is arbitrary: curl_easy_perform calls the callback with any number of blocks of bytes
    and then returns a code, CURLE_OK or another one for which curl_easy_strerror has a text.  The
    address, the options and the global initialisation (55-63, 90-93) are not modelled;
    curl_easy_init (87-89) is taken to succeed. *)
From Coq Require Import ZArith Bool List String.
From Verif Require Import Base StrModel ValModel MemModel.
Import ListNotations.
Local Open Scope list_scope.
Local Open Scope mem_scope.

(** [Easy::writeCallback], curl.cpp 112-120, on a block [c] of [iSize * iNMemb] bytes; [d] is the
    variable that stands for the member [mData], [str] is the variable after it. *)
Definition write_callback (d : nat) (c : str) : M unit :=
  exec (SDecl (EStr c)) ;; exec (SAppend (EVar d) (EVar (S d))) ;; exec SEnd.
Fixpoint callbacks (d : nat) (cs : list str) : M unit :=
  match cs with
  | [] => ret tt
  | c :: cs => write_callback d c ;; callbacks d cs
  end.
(** [var r = c.transfer(url);], curl.cpp 65-70: the constructor of Easy sets [mData] to the empty
    string (86), [perform] (101-110) returns a copy of it or throws, and [mData] goes with the
    object. *)
Definition transfer (cs : list str) (failure : option string) : M unit := fun s =>
  let d := List.length (stk s) in
  keep_value d (exec (SDecl (EStr [])) ;; callbacks d cs ;;
                match failure with Some e => throw e | None => copy_of (LS d) end) s.
