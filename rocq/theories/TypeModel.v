(** The names of types: [typeStr] and [atypeStr], /repo/lube/var.cpp 979-1029. *)
From Coq Require Import ZArith Bool List String Ascii.
From Verif Require Import Base StrModel ValModel MemModel.
Import ListNotations.
Local Open Scope list_scope.
Local Open Scope mem_scope.
Local Open Scope Z_scope.

(** A string constant of the program, as chars. *)
Definition chars (s : string) : str := map (fun c => Z.of_nat (nat_of_ascii c)) (list_ascii_of_string s).

(** [libube::typeStr(ind)], var.cpp 983-1000; the codes are those of var.h 30-42. *)
Definition type_name (t : Z) : M string :=
  if t =? 0 then ret "array"%string else
  if t =? 1 then ret "char"%string else
  if t =? 2 then ret "int"%string else
  if t =? 3 then ret "long"%string else
  if t =? 4 then ret "float"%string else
  if t =? 5 then ret "double"%string else
  if t =? 6 then ret "cfloat"%string else
  if t =? 7 then ret "cdouble"%string else
  if t =? 8 then ret "var"%string else
  if t =? 9 then ret "pair"%string else
  throw "libube::typeStr(): Unknown type".

(** [var::typeStr], var.cpp 1008-1011: the name becomes a var by [var(const char* )]. *)
Definition type_str (this : lval) : M mvar :=
  let! t := type_of this in
  let! n := type_name t in
  string_var (chars n).

(** [var::atypeStr], var.cpp 1019-1028.  [heap()] is null for a var that is not defined, and
    [heap()->type()] is a virtual call on it (heap.h 52).  The varstream the text is put together
    in is left out: it is gone when the function returns, and [var(s)] is a string of the text. *)
Definition atype_str (this : lval) : M mvar :=
  let! t := type_of this in
  if t =? 0 then
    let! h := heap_of this in
    match h with
    | None => ub NullDeref
    | Some l => let! o := get_obj l in
                let! u := obj_type o in
                let! n := type_name (hcode u) in
                string_var (chars "array[" ++ chars n ++ chars "]")
    end
  else type_str this.
