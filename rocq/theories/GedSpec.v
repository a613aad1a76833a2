(** What a GEDCOM file is and which value it describes, independent of the reader's helpers. *)
From Coq Require Import ZArith Bool List String.
From Verif Require Import Base StrSpec ValModel JsonModel JsonSpec.
Import ListNotations.
Local Notation length := List.length.
Local Open Scope list_scope.
Local Open Scope Z_scope.

(** A line: the digits of its level, and words. *)
Definition line := (list Z * list (list Z))%type.
Definition level (ln : line) : Z := number_of (fst ln).
Definition text (ln : line) : list Z := glue [32] (fst ln :: snd ln).
(** Words are separated by single blanks, so a word can be empty. *)
Definition word (w : list Z) : Prop := chars w /\ nul_free w /\ ~ In 10 w /\ ~ In 32 w.
Definition good_line (ln : line) : Prop :=
  fst ln <> [] /\ Forall digit (fst ln) /\ level ln <= INT_MAX /\ Forall word (snd ln).

(** The tags. *)
Definition tags : list string :=
  ["CONT"; "CONC"; "HEAD"; "TRLR"; "INDI"; "FAM"; "SUBM"; "NAME"; "TITL"; "SEX"; "FAMC"; "FAMS"; "BIRT"; "DEAT";
   "CHR"; "BURI"; "PLAC"; "DATE"; "OCCU"; "NOTE"; "HUSB"; "WIFE"; "CHIL"; "MARR"; "DIV"; "REFN"]%string.
Definition tagged (t : string) (ln : line) : bool :=
  match snd ln with
  | w :: _ => if list_eq_dec Z.eq_dec w (txt t) then true else false
  | [] => false
  end.
Definition known (ln : line) : Prop := exists t, In t tags /\ tagged t ln = true.
Definition one_of (l : list string) (ln : line) : Prop := exists t, In t l /\ tagged t ln = true.
Definition args (ln : line) : list (list Z) := tl (snd ln).

(** The lines below a record: the first at level 1, none at level 0. *)
Definition below (body : list line) : Prop :=
  (exists ln t, body = ln :: t /\ level ln = 1) /\ Forall (fun ln => good_line ln /\ 1 <= level ln) body.

(** The lines of a person. *)
Definition person_lines (body : list line) : Prop :=
  below body /\
  Forall (fun ln => known ln /\ (one_of ["NAME"; "TITL"; "SEX"]%string ln -> level ln = 1) /\
                    (one_of ["CONT"; "CONC"]%string ln -> 2 <= level ln)) body.
(** The lines of a family, after the persons [refs]. *)
Definition family_lines (refs : list (list Z)) (body : list line) : Prop :=
  below body /\
  Forall (fun ln => known ln /\
     (one_of ["HUSB"; "WIFE"; "CHIL"]%string ln -> level ln = 1 /\ args ln <> [] /\ refs <> [])) body /\
  (forall pre ln post, body = pre ++ ln :: post -> tagged "MARR" ln = true ->
     exists next t, post = next :: t /\ 2 <= level next).

Inductive kind := Submitter | Person | Family.
Definition kind_tag (k : kind) : string :=
  match k with Submitter => "SUBM" | Person => "INDI" | Family => "FAM" end.
Record entry := mkentry { e_zero : list Z; e_kind : kind; e_xref : list Z; e_extra : list (list Z);
                          e_body : list line }.
Definition entry_lines (e : entry) : list line :=
  (e_zero e, e_xref e :: txt (kind_tag (e_kind e)) :: e_extra e) :: e_body e.
Definition good_head (zero : list Z) (extra : list (list Z)) : Prop :=
  zero <> [] /\ Forall digit zero /\ number_of zero = 0 /\ Forall word extra.
Definition is_person (e : entry) : bool := match e_kind e with Person => true | _ => false end.
Definition is_family (e : entry) : bool := match e_kind e with Family => true | _ => false end.
Definition person_refs (es : list entry) : list (list Z) := map e_xref (filter is_person es).
Definition good_entry (before : list entry) (e : entry) : Prop :=
  good_head (e_zero e) (e_extra e) /\ word (e_xref e) /\ hd 0 (e_xref e) = 64 /\
  match e_kind e with
  | Submitter => below (e_body e)
  | Person => person_lines (e_body e)
  | Family => family_lines (person_refs before) (e_body e)
  end.

(** * The value *)
(** The text of the last line of level 1 with a tag, if there is one. *)
Fixpoint last_text (t : string) (body : list line) : val :=
  match body with
  | [] => VNil
  | ln :: r => match last_text t r with
               | VNil => if tagged t ln then vstr (glue [32] (args ln)) else VNil
               | v => v
               end
  end.
(** The number of the last of the persons [refs] called [x]. *)
Fixpoint last_pos (x : list Z) (refs : list (list Z)) (n : Z) : option Z :=
  match refs with
  | [] => None
  | y :: r => match last_pos x r (n + 1) with
              | None => if list_eq_dec Z.eq_dec y x then Some n else None
              | p => p
              end
  end.
(** The persons that the lines with a tag refer to; unknown ones are left out. *)
Fixpoint referred (t : string) (refs : list (list Z)) (body : list line) : list Z :=
  match body with
  | [] => []
  | ln :: r => (if tagged t ln then match last_pos (hd [] (args ln)) refs 0 with Some n => [n] | None => [] end
                else []) ++ referred t refs r
  end.
Definition the_last (l : list Z) : val := match rev l with [] => VNil | z :: _ => VInt z end.
(** One number is stored as such, several as an array. *)
Definition collected (l : list Z) : val :=
  match l with [] => VNil | [z] => VInt z | _ => VArr TInt (map VInt l) end.

Definition pair_of (k : string) (v : val) : val * val := (vstr (txt k), v).
Definition person_value (body : list line) : val :=
  VMap [pair_of "NAME" (last_text "NAME" body); pair_of "SEX" (last_text "SEX" body);
        pair_of "TITL" (last_text "TITL" body)].
Definition family_value (refs : list (list Z)) (body : list line) : val :=
  VMap [pair_of "CHIL" (collected (referred "CHIL" refs body));
        pair_of "HUSB" (the_last (referred "HUSB" refs body));
        pair_of "WIFE" (the_last (referred "WIFE" refs body))].
Definition persons (es : list entry) : list val := map (fun e => person_value (e_body e)) (filter is_person es).
Fixpoint families (before es : list entry) : list val :=
  match es with
  | [] => []
  | e :: t => (if is_family e then [family_value (person_refs before) (e_body e)] else []) ++ families (before ++ [e]) t
  end.
Definition file_of_records (f p : list val) : val :=
  match f, p with
  | [], [] => VNil
  | [], p => VMap [pair_of "Individual" (VArr TVar p)]
  | f, [] => VMap [pair_of "Family" (VArr TVar f)]
  | f, p => VMap [pair_of "Family" (VArr TVar f); pair_of "Individual" (VArr TVar p)]
  end.
Definition file_value (es : list entry) : val := file_of_records (families [] es) (persons es).

(** A file: a header, entries, a trailer. *)
Record document := mkdoc { d_zero : list Z; d_extra : list (list Z); d_header : list line;
                           d_entries : list entry; d_zero' : list Z; d_extra' : list (list Z) }.
Definition doc_lines (d : document) : list line :=
  (d_zero d, txt "HEAD" :: d_extra d) :: d_header d ++ List.concat (map entry_lines (d_entries d)) ++
  [(d_zero' d, txt "TRLR" :: d_extra' d)].
Definition good_doc (d : document) : Prop :=
  good_head (d_zero d) (d_extra d) /\ below (d_header d) /\ good_head (d_zero' d) (d_extra' d) /\
  forall before e after, d_entries d = before ++ e :: after -> good_entry before e.

(** * Any file *)
(** The value of a file that could be read: texts for persons; in families, numbers of persons. *)
Definition textual (v : val) : Prop := v = VNil \/ exists s, v = vstr s.
Definition person_shape (v : val) : Prop :=
  exists a b c, v = VMap [pair_of "NAME" a; pair_of "SEX" b; pair_of "TITL" c] /\ textual a /\ textual b /\ textual c.
Definition member_of (n : nat) (z : Z) : Prop := 0 <= z < Z.of_nat n.
Definition one_member (n : nat) (v : val) : Prop := v = VNil \/ exists z, v = VInt z /\ member_of n z.
Definition family_shape (n : nat) (v : val) : Prop :=
  exists l b c, v = VMap [pair_of "CHIL" (collected l); pair_of "HUSB" b; pair_of "WIFE" c] /\
    Forall (member_of n) l /\ one_member n b /\ one_member n c.
Definition file_shape (v : val) : Prop :=
  exists f p, v = file_of_records f p /\ Forall person_shape p /\ Forall (family_shape (length p)) f.
