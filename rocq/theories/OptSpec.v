(** What a command line means, independent of the model. *)
From Coq Require Import ZArith List String Floats.SpecFloat.
From Verif Require Import Base ValModel StrModel JsonModel.
Import ListNotations.
Local Open Scope Z_scope.
Local Open Scope list_scope.

(** A declared option: its character, description and default; nil makes it a flag. *)
Definition decl := (Z * str * val)%type.
Definition decl_char (d : decl) : Z := fst (fst d).
(** Characters that mean nothing special to getopt: not : ; ? - or +. *)
Definition option_char (c : Z) : Prop := 1 <= c <= 127 /\ ~ In c [58; 59; 63; 45; 43].
Definition proper (ds : list decl) : Prop := NoDup (map decl_char ds) /\ Forall (fun d => option_char (decl_char d)) ds.
Definition is_flag (ds : list decl) (c : Z) : Prop := exists t, In (c, t, VNil) ds.
Definition takes (ds : list decl) (c : Z) : Prop := exists t v, In (c, t, v) ds /\ v <> VNil.

(** A command line is a list of items: -abc with flags only, or ending in an option with its
    argument, in the same word (joined) or the next; and plain words. *)
Inductive item := Group (flags : str) (last : option (Z * bool * str)) | Plain (w : str).
Definition render (i : item) : list str :=
  match i with
  | Group fs None => [45 :: fs]
  | Group fs (Some (c, true, w)) => [45 :: fs ++ c :: w]
  | Group fs (Some (c, false, w)) => [45 :: fs ++ [c]; w]
  | Plain w => [w]
  end.
Definition ok_item (ds : list decl) (i : item) : Prop :=
  match i with
  | Group fs None => fs <> [] /\ Forall (is_flag ds) fs
  | Group fs (Some (c, joined, w)) => Forall (is_flag ds) fs /\ takes ds c /\ (joined = true -> w <> [])
  | Plain w => w = [45] \/ hd 0 w <> 45
  end.
(** The options used, in order, and the plain words. *)
Definition uses_of (i : item) : list (Z * option str) :=
  match i with
  | Group fs None => map (fun f => (f, None)) fs
  | Group fs (Some (c, _, w)) => map (fun f => (f, None)) fs ++ [(c, Some w)]
  | Plain _ => []
  end.
Definition uses (l : list item) : list (Z * option str) := List.concat (map uses_of l).
Definition plain_of (i : item) : list str := match i with Plain w => [w] | _ => [] end.
Definition plains (l : list item) : list str := List.concat (map plain_of l).
Definition line (l : list item) : list str := List.concat (map render l).
(** The end of the line: nothing, or -- and words that are all plain. *)
Definition ending (tail rest : list str) : Prop := (tail = [] /\ rest = []) \/ tail = [45; 45] :: rest.
(** A mistake after the flags [fs] of a word: an undeclared character, or an argument missing at
    the end of the line. *)
Inductive mistake (ds : list decl) : str -> list str -> Prop :=
| undeclared : forall fs b more words, Forall (is_flag ds) fs -> ~ In b (map decl_char ds) -> (fs = [] -> b = 45 -> more <> []) ->
    mistake ds fs ((45 :: fs ++ b :: more) :: words)
| missing : forall fs c, Forall (is_flag ds) fs -> takes ds c -> mistake ds fs [45 :: fs ++ [c]].

(** Flags given, with repetitions. *)
Fixpoint flags_in (us : list (Z * option str)) : list Z :=
  match us with [] => [] | (c, None) :: t => c :: flags_in t | (_, Some _) :: t => flags_in t end.
(** The value of an option: its last argument, 1 for a flag, otherwise the default. *)
Fixpoint value (us : list (Z * option str)) (c : Z) (v : val) : val :=
  match us with
  | [] => v
  | (x, a) :: t => value t c (if x =? c then match a with Some w => vstr w | None => VInt 1 end else v)
  end.
(** The option string and the text printed on mistakes. *)
Definition spelled (d : decl) : str := match d with (c, _, VNil) => [c] | (c, _, _) => [c; 58] end.
Definition help_line (fmtf : spec_float -> str) (d : decl) : str :=
  match d with
  | (c, t, VNil) => txt " -" ++ c :: txt " " ++ t
  | (c, t, v) => txt " -" ++ c :: txt " " ++ t ++ txt " [" ++ format fmtf v 0 ++ txt "]"
  end.
Definition help (fmtf : spec_float -> str) (name argv0 : str) (ds : list decl) : str :=
  name ++ 10 :: txt "Usage: " ++ argv0
  ++ match ds with [] => [] | _ => txt " -[" ++ List.concat (map spelled ds) ++ txt "]" end
  ++ txt " [args] (see 'man 3 getopt')" ++ 10 :: List.concat (map (fun d => help_line fmtf d ++ [10]) ds).
