(** String functors, /repo/lube/string.cpp 39-90, 230-345 and /repo/lube/string.h, regex.h: upper and
    lower case, stripping and regular expressions, and how they go through arrays and maps.

    Values are trees as in ValModel.v; views are left out.  The regular expressions of boost are
    arbitrary functions; an expression that boost refuses is left out. *)
From Coq Require Import ZArith Bool List String.
From Verif Require Import Base StrModel ValModel JsonModel.
Import ListNotations.
Local Open Scope string_scope.
Local Open Scope list_scope.
Local Open Scope Z_scope.
Local Notation length := List.length.

Section Functors.
(** boost::regex_search and boost::regex_match of an expression: the groups, the whole match
    first.  boost::regex_replace of an expression in a text by a format. *)
Variables (re_search re_match : str -> str -> option (list str)) (re_replace : str -> str -> str -> str).

Inductive sfun := Upper | Lower | Strip | Search (re : str) | Match (re : str) | Replace (re fmt : str).

(** The bytes of a string or of a single char, and [var::str] (/repo/lube/var.cpp 196-201), which is
    empty for a single char. *)
Definition bytes (x : val) : str :=
  match x with VArr _ l => map char_of l | VChar c => [c] | _ => [] end.
Definition str_of (x : val) : str :=
  match x with VArr _ l => c_str (map char_of l) | _ => [] end.

(** /repo/lube/string.cpp 265-268, 286-289: [oVar = nil], then one element for every group. *)
Definition groups (r : option (list str)) : val :=
  match r with
  | Some (g :: gs) => VArr TVar (map (fun g => vstr (c_str g)) (g :: gs))
  | _ => VNil
  end.

(** [string(iVar, oVar)] for an output that is not the input, /repo/lube/string.cpp 250-256, 259-269,
    280-290, 306-313, 319-345.  [Strip] has taken the address of the old contents of the output:
    storage that [oVar = ""] frees, or the variable itself. *)
Definition string_new (f : sfun) (x o : val) : val * outcome unit :=
  match f with
  | Upper => (vstr (str_toupper (bytes x)), Ok tt)
  | Lower => (vstr (str_tolower (bytes x)), Ok tt)
  | Strip =>
    match strip_outofplace (bytes x) with
    | Ok s => (vstr s, Ok tt)
    | UB UseAfterFree => (o, UB (match o with VArr TChar _ => UseAfterFree | _ => TypePun end))
    | UB k => (o, UB k)
    | Throw e => (o, Throw e)
    | Fuel => (o, Fuel)
    end
  | Search re => (groups (re_search re (str_of x)), Ok tt)
  | Match re => (groups (re_match re (str_of x)), Ok tt)
  | Replace re fmt => (vstr (c_str (re_replace re (str_of x) (c_str fmt))), Ok tt)
  end.

(** [string(iVar, oVar)] for one and the same string; [Search] and [Match] are not used that way. *)
Definition string_same (f : sfun) (x : val) : val * outcome unit :=
  match f with
  | Upper => (vstr (str_toupper (bytes x)), Ok tt)
  | Lower => (vstr (str_tolower (bytes x)), Ok tt)
  | Strip =>
    match strip_inplace (bytes x) with
    | Ok s => (vstr s, Ok tt)
    | UB k => (x, UB k)
    | Throw e => (x, Throw e)
    | Fuel => (x, Fuel)
    end
  | Search _ | Match _ => (x, Throw "not modelled")
  | Replace re fmt => (vstr (c_str (re_replace re (str_of x) (c_str fmt))), Ok tt)
  end.
(** The same for a variable with a single char. *)
Definition char_same (f : sfun) (c : Z) : val * outcome unit :=
  match f with
  | Upper => (VChar (c_toupper c), Ok tt)
  | Lower => (VChar (c_tolower c), Ok tt)
  | Strip => (VChar c, if isspace c then UB BadSize else Ok tt)
  | Search _ | Match _ => (VChar c, Throw "not modelled")
  | Replace re fmt => (vstr (c_str (re_replace re [] (c_str fmt))), Ok tt)
  end.
(** The same for two references to one element of an array of vars or one value of a map that is a
    single char: [var::is] (/repo/lube/var.cpp 783-800) does not see that they are the same, so
    [oVar = ""] also empties the input. *)
Definition char_element (f : sfun) (c : Z) : val * outcome unit :=
  match f with
  | Upper | Lower => (vstr [], Ok tt)
  | Strip => if isspace c then (vstr [], UB AssertFail) else (vstr [0], UB TypePun)
  | Search _ | Match _ => (VChar c, Throw "not modelled")
  | Replace re fmt => (vstr (c_str (re_replace re [] (c_str fmt))), Ok tt)
  end.

(** The loop of [StringFunctor::broadcast], /repo/lube/string.cpp 80-88, over the elements. *)
Fixpoint over (g : val -> val * outcome unit) (l : list val) : list val * outcome unit :=
  match l with
  | [] => ([], Ok tt)
  | x :: l' =>
    match g x with
    | (x', Ok _) => let (r, e) := over g l' in (x' :: r, e)
    | (x', e) => (x' :: l', e)
    end
  end.
Fixpoint over_values (g : val -> val * outcome unit) (l : list (val * val)) : list (val * val) * outcome unit :=
  match l with
  | [] => ([], Ok tt)
  | (k, x) :: l' =>
    match g x with
    | (x', Ok _) => let (r, e) := over_values g l' in ((k, x') :: r, e)
    | (x', e) => ((k, x') :: l', e)
    end
  end.

(** [operator()(x, x)], /repo/lube/string.cpp 58-65, with the broadcast.  [top]: the variable itself
    rather than references to an element.  For a number the broadcast calls the operator again on
    the number, [at(0)] being a copy of it (/repo/lube/var.cpp 808-819).  [Fuel]: more than [fuel] calls
    are under way. *)
Fixpoint in_place (fuel : nat) (f : sfun) (top : bool) (x : val) : val * outcome unit :=
  match fuel with
  | O => (x, Fuel)
  | S k =>
    match x with
    | VNil => (x, Throw "var::atype(): Undefined")
    | VChar c => if top then char_same f c else char_element f c
    | VArr TChar _ => string_same f x
    | VArr t l => let (l', e) := over (in_place k f false) l in (VArr t l', e)
    | VMap l => let (l', e) := over_values (in_place k f false) l in (VMap l', e)
    | VView _ _ _ => (x, Throw "not modelled")
    | _ => (x, snd (in_place k f false x))
    end
  end.

(** [StringFunctor::alloc], /repo/lube/string.cpp 39-44: arrays of vars are undefined throughout, and
    so are the keys and values of maps.  (The contents of arrays of numbers are indeterminate; here
    they are those of the argument.) *)
Definition alloc (x : val) : val :=
  match x with
  | VArr TVar l => VArr TVar (map (fun _ => VNil) l)
  | VMap l => VMap (map (fun _ => (VNil, VNil)) l)
  | _ => x
  end.
(** The loop of the broadcast over two lists. *)
Fixpoint over2 (g : val -> val -> val * outcome unit) (l lo : list val) : list val * outcome unit :=
  match l, lo with
  | [], _ => (lo, Ok tt)
  | _ :: _, [] => (lo, UB OutOfBounds)
  | x :: l', o :: lo' =>
    match g x o with
    | (o', Ok _) => let (r, e) := over2 g l' lo' in (o' :: r, e)
    | (o', e) => (o' :: lo', e)
    end
  end.
(** [operator()(x, o)] for an output that is not the input: [oVar.at(i)] of an undefined output throws
    (/repo/lube/var.cpp 812-813), of a number is a copy. *)
Fixpoint into (fuel : nat) (f : sfun) (x o : val) : val * outcome unit :=
  match fuel with
  | O => (o, Fuel)
  | S k =>
    let elements l := match l, o with
      | [], _ => (o, Ok tt)
      | _, VNil => (o, Throw "var::at(): uninitialised")
      | _, VArr t lo => let (r, e) := over2 (into k f) l lo in (VArr t r, e)
      | _, VMap lo => let (r, e) := over2 (into k f) l (map snd lo) in (VMap (combine (map fst lo) r), e)
      | _, _ => (o, Throw "not modelled")
      end in
    match x with
    | VNil => (o, Throw "var::atype(): Undefined")
    | VChar _ | VArr TChar _ => string_new f x o
    | VArr _ l => elements l
    | VMap l => elements (map snd l)
    | VView _ _ _ => (o, Throw "not modelled")
    | _ => match o with
           | VNil => (o, Throw "var::at(): uninitialised")
           | _ => (o, snd (into k f x o))
           end
    end
  end.
(** [operator()(x)], /repo/lube/string.cpp 47-55. *)
Definition call (fuel : nat) (f : sfun) (x : val) : outcome val :=
  let (r, e) := into fuel f x (alloc x) in
  match e with Ok _ => Ok r | Throw m => Throw m | UB k => UB k | Fuel => Fuel end.

End Functors.
