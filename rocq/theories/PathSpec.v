(** What listings of directories are, independent of the model's loops. *)
From Coq Require Import ZArith List String Permutation.
From Verif Require Import Base ValModel ValSpec StrModel StrSpec JsonModel PathModel.
Import ListNotations.
Local Open Scope Z_scope.
Local Open Scope list_scope.

(** Names of entries: not empty, without slash or NUL, and not . or .. *)
Definition name_ok (x : str) : Prop := x <> [] /\ chars x /\ nul_free x /\ ~ In 47 x /\ x <> [46] /\ x <> [46; 46].
Inductive wf : node -> Prop :=
| wf_file : wf File
| wf_dir : forall es, NoDup (map fst es) -> (forall x n, In (x, n) es -> name_ok x /\ wf n) -> wf (Dir es).
Definition path_ok (p : str) : Prop := p <> [] /\ chars p /\ nul_free p.

(** Names that lead from a directory to a node below it. *)
Inductive leads : node -> list str -> node -> Prop :=
| leads_one : forall es x n, In (x, n) es -> leads (Dir es) [x] n
| leads_more : forall es x n xs m, In (x, n) es -> leads n xs m -> leads (Dir es) (x :: xs) m.
(** The path with the names appended. *)
Definition slash (p x : str) : str := if last p 0 =? 47 then p ++ x else p ++ 47 :: x.
Definition full (p : str) (xs : list str) : str := fold_left slash xs p.

(** Parent, stem and extension of the entry x of p. *)
Definition parts (p x : str) (v : val) : Prop := exists parent stem ext, v = VArr TVar [vstr parent; vstr stem; vstr ext] /\
  (exists k, p = parent ++ repeat 47 k \/ (p = repeat 47 (S k) /\ parent = [47])) /\ (parent = [47] \/ last parent 0 <> 47) /\
  x = stem ++ ext /\ stem <> [] /\ (ext = [] -> ~ In 46 (tl x)) /\ (ext <> [] -> exists e, ext = 46 :: e /\ ~ In 46 e).

(** The map of a tree: names to the maps of directories, and to nil for files and empty
    directories. *)
Inductive shows : node -> val -> Prop :=
| shows_file : shows File VNil
| shows_empty : shows (Dir []) VNil
| shows_dir : forall es m, es <> [] -> sorted_map m -> (forall k, In k (map fst m) <-> exists x, In x (map fst es) /\ k = vstr x) ->
    (forall x n, In (x, n) es -> exists v, at_var (RVar (VMap m)) (vstr x) = Ok v /\ shows n v) -> shows (Dir es) (VMap m).
(** The same tree but for the order of entries. *)
Inductive same : node -> node -> Prop :=
| same_file : same File File
| same_dir : forall es es' es'', Permutation es es' -> Forall2 (fun a b => fst a = fst b /\ same (snd a) (snd b)) es' es'' -> same (Dir es) (Dir es'').
