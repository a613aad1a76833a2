(** The reader of GEDCOM files: /repo/lube/gedfile.cpp.

    The messages printed to std::cout are not modelled.  The records in [mVar] are vars that
    share their map with the [entity] being filled (205-219); here [mVar\["Individual"\]] and
    [mVar\["Family"\]] are the lists [g_inds] and [g_fams], and [entity] is the position of
    its record in its list.  An object reads one file. *)
From Coq Require Import ZArith Bool List String.
From Verif Require Import Base StrModel ValModel NumModel JsonModel IniModel.
Import ListNotations.
Local Notation length := List.length.
Local Open Scope list_scope.
Local Open Scope Z_scope.

(** The enumeration, /repo/lube/gedfile.cpp 43-70. *)
Definition CONT := 0.   Definition CONC := 1.   Definition HEAD := 2.   Definition TRLR := 3.
Definition INDI := 4.   Definition FAM := 5.    Definition SUBM := 6.   Definition NAME := 7.
Definition TITL := 8.   Definition SEX := 9.    Definition FAMC := 10.  Definition FAMS := 11.
Definition BIRT := 12.  Definition DEAT := 13.  Definition CHR := 14.   Definition BURI := 15.
Definition PLAC := 16.  Definition DATE := 17.  Definition OCCU := 18.  Definition NOTE := 19.
Definition HUSB := 20.  Definition WIFE := 21.  Definition CHIL := 22.  Definition MARR := 23.
Definition DIV := 24.   Definition REFN := 25.

Definition kv (k : string) (v : val) : val * val := (vstr (txt k), v).

(** The constructor, /repo/lube/gedfile.cpp 87-117: [mTokenMap]. *)
Definition token_entries : list (val * val) :=
  [kv "CONT" (VInt CONT); kv "CONC" (VInt CONC); kv "HEAD" (VInt HEAD); kv "TRLR" (VInt TRLR);
   kv "INDI" (VInt INDI); kv "FAM" (VInt FAM); kv "SUBM" (VInt SUBM); kv "NAME" (VInt NAME);
   kv "TITL" (VInt TITL); kv "SEX" (VInt SEX); kv "FAMC" (VInt FAMC); kv "FAMS" (VInt FAMS);
   kv "BIRT" (VInt BIRT); kv "DEAT" (VInt DEAT); kv "CHR" (VInt CHR); kv "BURI" (VInt BURI);
   kv "PLAC" (VInt PLAC); kv "DATE" (VInt DATE); kv "OCCU" (VInt OCCU); kv "NOTE" (VInt NOTE);
   kv "HUSB" (VInt HUSB); kv "WIFE" (VInt WIFE); kv "CHIL" (VInt CHIL); kv "MARR" (VInt MARR);
   kv "DIV" (VInt DIV); kv "REFN" (VInt REFN)].
Definition token_map : outcome val := assigns (VNil, VNil) VNil token_entries.

(** /repo/lube/gedfile.cpp 123-135: [individual()]; copy() makes a map of its own. *)
Definition individual : outcome val :=
  assigns (VNil, VNil) VNil [kv "NAME" VNil; kv "TITL" VNil; kv "SEX" VNil].
(** /repo/lube/gedfile.cpp 141-153: [family()]. *)
Definition family : outcome val :=
  assigns (VNil, VNil) VNil [kv "HUSB" VNil; kv "WIFE" VNil; kv "CHIL" VNil].

(** The members of the object, /repo/lube/gedfile.cpp 39-41 and 71-73. *)
Record ged := mkged { g_is : istream; g_field : val; g_inds : list val; g_fams : list val;
                      g_imap : val; g_fmap : val }.
Definition set_is (g : ged) (is : istream) (f : val) : ged :=
  mkged is f (g_inds g) (g_fams g) (g_imap g) (g_fmap g).
Definition set_field (g : ged) (f : val) : ged :=
  mkged (g_is g) f (g_inds g) (g_fams g) (g_imap g) (g_fmap g).
Definition set_inds (g : ged) (l : list val) : ged :=
  mkged (g_is g) (g_field g) l (g_fams g) (g_imap g) (g_fmap g).
Definition set_fams (g : ged) (l : list val) : ged :=
  mkged (g_is g) (g_field g) (g_inds g) l (g_imap g) (g_fmap g).
Definition set_imap (g : ged) (m : val) : ged :=
  mkged (g_is g) (g_field g) (g_inds g) (g_fams g) m (g_fmap g).
Definition set_fmap (g : ged) (m : val) : ged :=
  mkged (g_is g) (g_field g) (g_inds g) (g_fams g) (g_imap g) m.

(** [mField.shift()]: [var::shift] /repo/lube/var.cpp 1157-1163 and [Heap::shift]
    /repo/lube/heap.cpp 472-529 on an array of vars; on an empty one memmove is given the size
    (0-1)*16.  [mField] is nil or an array of vars. *)
Definition shift_field (g : ged) : outcome (val * ged) :=
  match g_field g with
  | VNil => Ok (VNil, g)
  | VArr TVar [] => UB BadSize
  | VArr TVar (x :: t) => Ok (x, set_field g (VArr TVar t))
  | _ => Throw "not modelled"
  end.

(** [mField\[0\]\[0\]], /repo/lube/gedfile.cpp 193: [var::operator \[\](int)]
    /repo/lube/var.cpp 711-721, then the same through the reference (/repo/lube/heap.cpp
    163-169).  Both subscripts extend an empty array: the new cell of an array of vars is nil,
    that of a string is its old terminator (/repo/lube/heap.cpp 224-270). *)
Definition first_char (g : ged) : outcome (val * ged) :=
  let go l :=
    match l with
    | VNil :: t => Ok (VNil, set_field g (VArr TVar (VArr TVar [VNil] :: t)))
    | VArr TChar [] :: t => Ok (VChar 0, set_field g (VArr TVar (VArr TChar [VChar 0] :: t)))
    | VArr TChar (c :: s) :: t => Ok (c, g)
    | _ => Throw "not modelled"
    end in
  match g_field g with
  | VNil | VArr TVar [] => go [VNil]
  | VArr TVar l => go l
  | _ => Throw "not modelled"
  end.

(** [mField.join(" ")]: /repo/lube/string.cpp 208-228; [atype] of nil throws. *)
Definition join_field (g : ged) : outcome val :=
  match g_field g with
  | VArr TVar l => Ok (vstr (join (map str_of l) [32]))
  | VNil => Throw "var::atype(): Undefined"
  | _ => Throw "not modelled"
  end.

(** [x.cast<int>()]: /repo/lube/var.cpp 132-134. *)
Definition cast_int (x : val) : outcome Z :=
  let* v := cast TInt x in match v with VInt z => Ok z | _ => UB TypePun end.

(** /repo/lube/gedfile.cpp 156-167: [readLine].  [line] is a fresh var. *)
Definition readLine (g : ged) : outcome (Z * ged) :=
  let* (line, is) := getline (2 + length (is_rest (g_is g))) [] (g_is g) in
  let* field := match line with
                | Some s => let* ps := split (S (length s)) s [32] 0 in Ok (VArr TVar (map vstr ps))
                | None => Ok (g_field g)
                end in
  let* (x, g) := shift_field (set_is g is field) in
  let* level := cast_int x in
  Ok (level, g).

(** /repo/lube/gedfile.cpp 179-185: [knownToken]. *)
Definition knownToken (token : val) : outcome bool :=
  let* m := token_map in
  let* v := at_var (RVar m) token in
  Ok (vdefined v).
(** [mTokenMap\[token\].cast<int>()] (203, 231, 280, 331, 366, 413).  The token is known, so the
    subscript does not insert and the map is left as it is. *)
Definition token_code (token : val) : outcome Z :=
  let* m := token_map in
  let* (_, v) := subscript m token in
  cast_int v.

(** [iInd\["NAME"\] = x] on the record at position [n] of the list. *)
Definition put_entry (l : list val) (n : nat) (k : string) (x : val) : outcome (list val) :=
  match nth_error l n with
  | None => UB OutOfBounds
  | Some e => let* e := assign (VNil, VNil) e (vstr (txt k)) x in Ok (set_nth l n e)
  end.
(** [iFam\["CHIL"\].push(x)]: /repo/lube/var.cpp 735-753 and 1066-1089 through the reference. *)
Definition push_entry (l : list val) (n : nat) (k : string) (x : val) : outcome (list val) :=
  match nth_error l n with
  | None => UB OutOfBounds
  | Some e => let* (e, old) := subscript e (vstr (txt k)) in
              let* new := push old x in
              let* e := assign (VNil, VNil) e (vstr (txt k)) new in
              Ok (set_nth l n e)
  end.

(** /repo/lube/gedfile.cpp 407-428: [doContinue].  A loop takes [iLevel], the current level and
    fuel; each turn is one turn of the do-while loop. *)
Fixpoint doContinue (fuel : nat) (iLevel : Z) (iToken : val) (g : ged) : outcome (Z * ged) :=
  match fuel with
  | O => Fuel
  | S n =>
    let* _ := token_code iToken in
    let* (level, g) := readLine g in
    if iLevel <=? level then doContinue n iLevel iToken g else Ok (level, g)
  end.

(** /repo/lube/gedfile.cpp 322-353: [doBirth]. *)
Fixpoint doBirth (fuel : nat) (iLevel level : Z) (g : ged) : outcome (Z * ged) :=
  match fuel with
  | O => Fuel
  | S n =>
    let* (token, g) := shift_field g in
    let* known := knownToken token in
    if negb known then Ok (level, g) else
    let* c := token_code token in
    let* (level, g) := if (c =? CONT) || (c =? CONC) then doContinue n level token g
                       else readLine g in
    if iLevel <=? level then doBirth n iLevel level g else Ok (level, g)
  end.

(** /repo/lube/gedfile.cpp 272-320: [doIndividual]. *)
Fixpoint doIndividual (fuel : nat) (iLevel level : Z) (iInd : nat) (g : ged) : outcome (Z * ged) :=
  match fuel with
  | O => Fuel
  | S n =>
    let* (token, g) := shift_field g in
    let* known := knownToken token in
    if negb known then Ok (level, g) else
    let* c := token_code token in
    let store k :=
      let* x := join_field g in
      let* l := put_entry (g_inds g) iInd k x in
      readLine (set_inds g l) in
    let* (level, g) :=
      if c =? NAME then store "NAME"%string
      else if c =? TITL then store "TITL"%string
      else if c =? SEX then store "SEX"%string
      else if (c =? BIRT) || (c =? DEAT) || (c =? CHR) || (c =? BURI) then
        let* (level, g) := readLine g in
        if iLevel <? level then doBirth n level level g else Ok (level, g)
      else if (c =? CONT) || (c =? CONC) then doContinue n level token g
      else readLine g in
    if iLevel <=? level then doIndividual n iLevel level iInd g else Ok (level, g)
  end.

(** /repo/lube/gedfile.cpp 355-405: [doFamily]. *)
Fixpoint doFamily (fuel : nat) (iLevel level : Z) (iFam : nat) (g : ged) : outcome (Z * ged) :=
  match fuel with
  | O => Fuel
  | S n =>
    let* (token, g) := shift_field g in
    let* known := knownToken token in
    if negb known then Ok (level, g) else
    let* c := token_code token in
    let member (put : list val -> val -> outcome (list val)) :=
      let* (indiv, g) := shift_field g in
      let* x := at_var (RVar (g_imap g)) indiv in
      if vdefined x then
        let* z := cast_int x in
        let* l := put (g_fams g) (VInt z) in
        readLine (set_fams g l)
      else readLine g in
    let* (level, g) :=
      if c =? HUSB then member (fun l x => put_entry l iFam "HUSB" x)
      else if c =? WIFE then member (fun l x => put_entry l iFam "WIFE" x)
      else if c =? CHIL then member (fun l x => push_entry l iFam "CHIL" x)
      else if c =? MARR then let* (level, g) := readLine g in doBirth n level level g
      else readLine g in
    if iLevel <=? level then doFamily n iLevel level iFam g else Ok (level, g)
  end.

(** /repo/lube/gedfile.cpp 248-258 and 260-270: [doHeader] and [doSubmitter], which are alike. *)
Fixpoint doHeader (fuel : nat) (iLevel : Z) (g : ged) : outcome (Z * ged) :=
  match fuel with
  | O => Fuel
  | S n =>
    let* (level, g) := readLine g in
    if iLevel <=? level then doHeader n iLevel g else Ok (level, g)
  end.
Definition doSubmitter := doHeader.

(** /repo/lube/gedfile.cpp 187-246: [doFile].  The results of doSubmitter, doIndividual and
    doFamily are not used, so [level] changes after a header only. *)
Fixpoint doFile (fuel : nat) (iLevel level : Z) (g : ged) : outcome ged :=
  match fuel with
  | O => Fuel
  | S n =>
    let next level g := if iLevel <=? level then doFile n iLevel level g else Ok g in
    let* (c, g) := first_char g in
    let* at_sign := veq c (VChar 64) in
    if at_sign : bool then
      let* (xref, g) := shift_field g in
      let* (token, g) := shift_field g in
      let* known := knownToken token in
      if negb known then Ok g else
      let* c := token_code token in
      if c =? SUBM then
        let* (l, g) := readLine g in
        let* (_, g) := doSubmitter n l g in next level g
      else if c =? INDI then
        let* entity := individual in
        let k := length (g_inds g) in
        let* m := assign (VNil, VNil) (g_imap g) xref (VInt (Z.of_nat k)) in
        let g := set_inds (set_imap g m) (g_inds g ++ [entity]) in
        let* (l, g) := readLine g in
        let* (_, g) := doIndividual n l l k g in next level g
      else if c =? FAM then
        let* entity := family in
        let k := length (g_fams g) in
        let* m := assign (VNil, VNil) (g_fmap g) xref (VInt (Z.of_nat k)) in
        let g := set_fams (set_fmap g m) (g_fams g ++ [entity]) in
        let* (l, g) := readLine g in
        let* (_, g) := doFamily n l l k g in next level g
      else next level g
    else
      let* (token, g) := shift_field g in
      let* known := knownToken token in
      if negb known then Ok g else
      let* c := token_code token in
      if c =? HEAD then
        let* (l, g) := readLine g in
        let* (level, g) := doHeader n l g in next level g
      else if c =? TRLR then Ok g
      else next level g
  end.

(** [mVar]: nil until the first record, then a map. *)
Definition g_value (g : ged) : val :=
  let entry k l := match l with [] => [] | _ => [kv k (VArr TVar l)] end in
  match entry "Family"%string (g_fams g) ++ entry "Individual"%string (g_inds g) with
  | [] => VNil
  | l => VMap l
  end.

(** /repo/lube/gedfile.cpp 169-177 and 431-434: [loadFile] and [read] on the content of a file
    that opens. *)
Definition ged_start (content : str) : ged := mkged (mkis content) VNil [] [] VNil VNil.
Definition loadFile (fuel : nat) (content : str) : outcome val :=
  let* (level, g) := readLine (ged_start content) in
  let* g := doFile fuel level level g in
  Ok (g_value g).
Definition ged_read (content : str) : outcome val := loadFile (4 + 3 * length content) content.

(** A stream whose file did not open has failbit set.  peek() and get() then deliver EOF
    without setting eofbit (std::istream's sentry fails), so the loop of [var::getline]
    (/repo/lube/string.cpp 124-137), which 174 enters all the same, stores (char)-1 again and
    again; the buffer doubles as it fills. *)
Fixpoint getline_failed (fuel : nat) (buf : str) (read size : nat) : outcome (str * nat) :=
  match fuel with
  | O => Fuel
  | S f =>
    if Nat.leb (length buf) read then UB OutOfBounds else
    let buf := set_nth buf read (-1) in
    let read := S read in
    if Nat.eqb read size then
      let size := ((size + 1) * 2 - 1)%nat in getline_failed f (buf_resize buf size) read size
    else getline_failed f buf read size
  end.
Definition loadFile_failed (fuel : nat) : outcome val :=
  let* _ := getline_failed fuel (buf_resize [0] 63) 0 63 in Ok VNil.

Definition file_of (l : list string) : str := List.concat (map (fun s => txt s ++ [10]) l).
