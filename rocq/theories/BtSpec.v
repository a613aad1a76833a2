(** What the properties of the call stack in an error say. *)
From Coq Require Import ZArith Bool List String Ascii.
From Verif Require Import BtModel.
Import ListNotations.
Local Open Scope list_scope.
Local Open Scope nat_scope.

(** The symbol is of a function with that name: [file(name+...]. *)
Definition names (symbol name : text) : Prop := exists file rest, symbol = file ++ "("%char :: name ++ "+"%char :: rest /\
  ~ In "("%char file /\ ~ In "+"%char name /\ (hd_error name <> Some ")"%char \/ In ")"%char file).
(** The symbol has an empty name: [file()...]. *)
Definition nameless (symbol : text) : Prop := exists file rest, symbol = file ++ "("%char :: ")"%char :: rest /\ ~ In "("%char file /\ ~ In ")"%char file.
(** The symbol is not of the form expected: it has no opening bracket, or neither a plus nor an empty
    name after it. *)
Definition odd (symbol : text) : Prop :=
  ~ In "("%char symbol \/
  exists file rest, symbol = file ++ "("%char :: rest /\ ~ In "("%char file /\ ~ In "+"%char rest /\ (hd_error rest <> Some ")"%char \/ In ")"%char file).
(** What is printed for a name. *)
Inductive prints (dm : demangler) : text -> bool -> text -> Prop :=
| pr_demangled : forall name t, dm name = (0%Z, t) -> prints dm name true t
| pr_memory : forall name t, dm name = ((-1)%Z, t) -> prints dm name false (txt "Memory fuckup")
| pr_other : forall name t, dm name = ((-2)%Z, t) -> prints dm name false name
| pr_invalid : forall name t, dm name = ((-3)%Z, t) -> prints dm name false (txt "Invalid").
(** Frames with these symbols, whether each is demangled and what is printed for it. *)
Inductive told (dm : demangler) : list text -> list bool -> list text -> Prop :=
| told_none : told dm [] [] []
| told_more : forall symbol name ok t symbols oks ts, names symbol name -> prints dm name ok t -> told dm symbols oks ts ->
    told dm (symbol :: symbols) (ok :: oks) (t :: ts).
(** How often a name that is not demangled comes first or after one that is. *)
Fixpoint lost (before : bool) (oks : list bool) : nat :=
  match oks with [] => 0 | ok :: l => (if before && negb ok then 1 else 0) + lost ok l end.
(** The text of some frames, each on a line of its own. *)
Definition lines (ts : list text) : text := List.concat (map (fun t => newline ++ txt "  " ++ t) ts).
Definition heading (n : nat) : text := newline ++ txt "Call stack (size " ++ decimal n ++ txt "):".
