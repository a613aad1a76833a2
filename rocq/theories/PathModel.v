(** Model of the directory listings of path.cpp.

    The file system below a path is a finite tree; the order of the entries of a directory is the
    order in which the system gives them.  Links to directories are directories for [tree], and are
    not followed by [rdir]; here there are none. *)
From Coq Require Import ZArith List String.
From Verif Require Import Base ValModel StrModel JsonModel IniModel.
Import ListNotations.
Local Open Scope Z_scope.
Local Open Scope list_scope.

(** What exists() and is_directory() (path.cpp 59, 73, 77, 95, 101) and the iterators of
    std::filesystem see. *)
Inductive node := File | Dir (entries : list (str * node)).
Definition is_directory (n : node) : bool := match n with Dir _ => true | File => false end.

(** * std::filesystem::path *)
(** The characters after the last slash, reversed text first: [split r] for r the reversed path. *)
Fixpoint before_slash (r : str) : str * str :=
  match r with
  | [] => ([], [])
  | c :: r' => if c =? 47 then ([], r) else let (a, b) := before_slash r' in (c :: a, b)
  end.
Fixpoint strip_slashes (r : str) : str :=
  match r with c :: r' => if c =? 47 then strip_slashes r' else r | [] => [] end.
(** [operator/]: a slash unless the path ends with one (path.cpp 64, 85, 100: it->path()). *)
Definition join (p n : str) : str := p ++ (match rev p with 47 :: _ => [] | _ => [47] end) ++ n.
(** [filename()] (path.cpp 102, 104). *)
Definition filename (p : str) : str := rev (fst (before_slash (rev p))).
(** [parent_path()] (path.cpp 53); the root is its own parent. *)
Definition parent_path (p : str) : str :=
  match snd (before_slash (rev p)) with
  | [] => []
  | r => match strip_slashes r with [] => [47] | s => rev s end
  end.
(** [stem()] and [extension()] (path.cpp 51-52): the name is split before its last dot, unless
    that is the first character or the name is . or .. *)
Fixpoint before_dot (r : str) : option (str * str) :=
  match r with
  | [] => None
  | c :: r' => if c =? 46 then Some ([c], r') else
               match before_dot r' with Some (a, b) => Some (c :: a, b) | None => None end
  end.
Definition stem_extension (p : str) : str * str :=
  let f := filename p in
  if list_eq_dec Z.eq_dec f [46; 46] then (f, []) else
  match before_dot (rev f) with
  | Some (a, (_ :: _) as b) => (rev b, rev a)
  | _ => (f, [])
  end.

(** /repo/lube/path.cpp 48-55: [bits]; the three assignments by index make an array of three. *)
Definition bits (p : str) : val :=
  let (s, e) := stem_extension p in
  VArr TVar [vstr (c_str (parent_path p)); vstr (c_str s); vstr (c_str e)].

(** * The listings *)
(** /repo/lube/path.cpp 64 and 85: one assignment. *)
Definition enter (iVal : bool) (dir : val) (p : str) : outcome val :=
  assign (VNil, VNil) dir (vstr (c_str p)) (if iVal then bits p else VNil).
Fixpoint enters (iVal : bool) (dir : val) (ps : list str) : outcome val :=
  match ps with [] => Ok dir | p :: ps => let* dir := enter iVal dir p in enters iVal dir ps end.
(** /repo/lube/path.cpp 57-66: [dir]; the iterator throws on what is not a directory. *)
Definition dir (mPath : str) (fs : option node) (iVal : bool) : outcome val :=
  match fs with
  | None => Throw "dir: path doesn't exist"
  | Some File => Throw "directory_iterator"
  | Some (Dir es) => enters iVal VNil (map (fun e => join mPath (fst e)) es)
  end.
(** The order of std::filesystem::recursive_directory_iterator (path.cpp 83-85): an entry, then
    what is below it. *)
Fixpoint below (p : str) (n : node) : list str :=
  match n with
  | File => []
  | Dir es => (fix go (es : list (str * node)) : list str :=
                 match es with [] => [] | (x, m) :: t => join p x :: below (join p x) m ++ go t end) es
  end.
(** /repo/lube/path.cpp 68-87: [rdir]. *)
Definition rdir (mPath : str) (fs : option node) (iVal : bool) : outcome val :=
  match fs with
  | None => Throw "rdir: path doesn't exist"
  | Some n => if negb (is_directory n) then enter iVal VNil mPath else enters iVal VNil (below mPath n)
  end.
(** /repo/lube/path.cpp 94-107: [tree(path)], for a directory. *)
Fixpoint tree_of (p : str) (n : node) : outcome val :=
  match n with
  | File => Throw "directory_iterator"
  | Dir es => (fix go (dir : val) (es : list (str * node)) : outcome val :=
                 match es with
                 | [] => Ok dir
                 | (x, m) :: t =>
                   let q := join p x in
                   let* v := match m with Dir _ => tree_of q m | File => Ok VNil end in
                   let* dir := assign (VNil, VNil) dir (vstr (c_str (filename q))) v in
                   go dir t
                 end) VNil es
  end.
(** /repo/lube/path.cpp 89-97: [tree]. *)
Definition tree (mPath : str) (fs : option node) : outcome val :=
  match fs with None => Throw "tree: path doesn't exist" | Some n => tree_of mPath n end.
