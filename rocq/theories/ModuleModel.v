(** /repo/lube/module.cpp and module.h: loading of libraries and the lives of their instances.  The
    model tells the calls made to the system and to the libraries, in order. *)
From Coq Require Import Bool List String Arith.
Import ListNotations.
Local Open Scope list_scope.

(** Calls: dlopen of library [l] that succeeds; the factory of [l] makes instance [i]; a virtual
    function of an instance is called; an instance is deleted; dlclose. *)
Inductive event := EOpen (l : nat) | EMake (i l : nat) | EUse (i : nat) | EDelete (i : nat) | EClose (l : nat).
(** What there is in the file system for a library: nothing that can be opened, a library without
    the function "factory", or a proper one. *)
Inductive lib := Absent | NoFactory | Present.
(** What a call of a factory does: leave the pointer null, throw, or make an instance; [fits] if it
    is of the class the loader wants. *)
Inductive made := Null | Raises | Instance (fits : bool).
(** A module object: the library of [mHandle], and [mInstance]; module.h 51-56. *)
Record object := mkobject { o_lib : nat; o_inst : list nat }.
(** The module objects there are, by the name of their variables, and the number of the next instance. *)
Record world := mkworld { w_mods : list (nat * object); w_next : nat }.

Fixpoint look (x : nat) (m : list (nat * object)) : option object :=
  match m with [] => None | (y, o) :: m => if Nat.eqb x y then Some o else look x m end.
Fixpoint drop (x : nat) (m : list (nat * object)) : list (nat * object) :=
  match m with [] => [] | (y, o) :: m => if Nat.eqb x y then m else (y, o) :: drop x m end.
Fixpoint put (x : nat) (o : object) (m : list (nat * object)) : list (nat * object) :=
  match m with [] => [] | (y, p) :: m => if Nat.eqb x y then (y, o) :: m else (y, p) :: put x o m end.

(** Statements: [module x(l);], [x.create();], the end of the life of [x], [module y = x;] and a
    call of a function of an instance. *)
Inductive op := New (x l : nat) | Create (x : nat) (m : made) | End (x : nat) | Copy (y x : nat) | Use (i : nat).

(** module.cpp 20-40.  If the constructor throws, the destructor does not run: a library without a
    factory stays open. *)
Definition new (libs : nat -> lib) (x l : nat) (w : world) : world * list event * option string :=
  match libs l with
  | Absent => (w, [], Some "cannot open shared object file"%string)
  | NoFactory => (w, [EOpen l], Some "undefined symbol: factory"%string)
  | Present => (mkworld ((x, mkobject l []) :: w_mods w) (w_next w), [EOpen l], None)
  end.
(** module.cpp 43-49. *)
Definition destroy (o : object) : list event := map EDelete (o_inst o) ++ [EClose (o_lib o)].
(** module.cpp 52-67 and module.h 80-82: the instance is stored before the cast, that may throw
    std::bad_cast. *)
Definition create (x : nat) (o : object) (m : made) (w : world) : world * list event * option string :=
  match m with
  | Null => (w, [], Some "Module factory failed"%string)
  | Raises => (w, [], Some "factory"%string)
  | Instance fits =>
      (mkworld (put x (mkobject (o_lib o) (o_inst o ++ [w_next w])) (w_mods w)) (S (w_next w)), [EMake (w_next w) (o_lib o)],
       if fits then None else Some "std::bad_cast"%string)
  end.
(** One statement: the world after it, the calls, and what it throws.  Statements about objects that
    do not exist are not C++ programs.  module.h 45-57 declares no copy constructor: the members are
    copied. *)
Definition step (libs : nat -> lib) (c : op) (w : world) : option (world * list event * option string) :=
  match c with
  | New x l => match look x (w_mods w) with Some _ => None | None => Some (new libs x l w) end
  | Create x m => match look x (w_mods w) with Some o => Some (create x o m w) | None => None end
  | End x => match look x (w_mods w) with Some o => Some (mkworld (drop x (w_mods w)) (w_next w), destroy o, None) | None => None end
  | Copy y x => match look x (w_mods w), look y (w_mods w) with
                | Some o, None => Some (mkworld ((y, o) :: w_mods w) (w_next w), [], None)
                | _, _ => None
                end
  | Use i => if Nat.ltb i (w_next w) then Some (w, [EUse i], None) else None
  end.
(** A program; exceptions are caught after each statement. *)
Fixpoint run (libs : nat -> lib) (p : list op) (w : world) : option (world * list event) :=
  match p with
  | [] => Some (w, [])
  | c :: p => match step libs c w with
              | Some (w, t, _) => match run libs p w with Some (w, u) => Some (w, t ++ u) | None => None end
              | None => None
              end
  end.
Definition empty : world := mkworld [] 0.
